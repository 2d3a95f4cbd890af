(** Arguments and eigenvalues of the solver *)
From Coq Require Import Reals Lra Lia String.
From Verif Require Import KspArgsModel.
Local Open Scope R_scope.

(** Independent vocabulary: the arguments of a list of pairs *)
Fixpoint as_args (kvs : list (string * string)) : list string := match kvs with [] => [] | (k, v) :: l => k :: v :: as_args l end.
(** [r] is an element of [l] that [le] puts above all others *)
Definition extreme (le : R -> R -> Prop) (l : list R) (r : R) : Prop := In r l /\ forall x, In x l -> le x r.
(** [r] is the absolute value of the complex number [z] *)
Definition absolute (z : R * R) (r : R) : Prop := 0 <= r /\ r * r = fst z * fst z + snd z * snd z.

Lemma pairs : forall kvs rest, (List.length rest <= 1)%nat ->
  combine (every_second (as_args kvs ++ rest)) (every_second (List.tl (as_args kvs ++ rest))) = kvs.
Proof.
  induction kvs as [|[k v] kvs IH]; intros rest L.
  - destruct rest as [|x [|]]; [reflexivity|reflexivity|simpl in L; lia].
  - specialize (IH rest L). cbn [as_args app List.tl]. set (l := (as_args kvs ++ rest)%list) in *.
    assert (E1 : every_second (k :: v :: l) = k :: every_second l) by reflexivity.
    assert (E2 : every_second (v :: l) = v :: every_second (List.tl l)) by (destruct l; reflexivity).
    rewrite E1, E2. cbn [combine]. rewrite IH. reflexivity.
Qed.
Lemma args_pairs : forall (args : list string), exists kvs rest, args = (as_args kvs ++ rest)%list /\ (List.length rest <= 1)%nat.
Proof.
  intros args. assert (G : forall n (l : list string), (List.length l <= n)%nat -> exists kvs rest, l = (as_args kvs ++ rest)%list /\ (List.length rest <= 1)%nat).
  { induction n as [|n IH]; intros l L.
    - destruct l; [|simpl in L; lia]. exists [], []. split; [reflexivity|simpl; lia].
    - destruct l as [|k [|v l]].
      + exists [], []. split; [reflexivity|simpl; lia].
      + exists [], [k]. split; [reflexivity|simpl; lia].
      + destruct (IH l) as (kvs & rest & E & R); [simpl in L; lia|]. exists ((k, v) :: kvs), rest. rewrite E. split; [reflexivity|exact R]. }
  exact (G _ args (le_n _)).
Qed.
Lemma lookup_app : forall key l l', opt_lookup key (l ++ l') = match opt_lookup key l' with Some w => Some w | None => opt_lookup key l end.
Proof.
  induction l as [|[k v] l IH]; intros l'; cbn [app opt_lookup]; [destruct (opt_lookup key l'); reflexivity|].
  rewrite IH. destruct (opt_lookup key l'); reflexivity.
Qed.

Lemma max_extreme : forall l a, extreme Rle (a :: l) (fold_left (fun a y => if gt_ y a then y else a) l a).
Proof.
  induction l as [|y l IH]; intros a; cbn [fold_left].
  - split; [left; reflexivity|]. intros x [<-|[]]. lra.
  - unfold gt_ at 2. destruct (Rlt_dec a y) as [L|L].
    + destruct (IH y) as [I M]. split; [right; exact I|]. intros x [<-|H]; [|apply M, H]. pose proof (M y (or_introl eq_refl)). lra.
    + destruct (IH a) as [I M]. split; [destruct I as [<-|I]; [left; reflexivity|right; right; exact I]|].
      intros x [<-|[<-|H]]; [apply M; left; reflexivity| |apply M; right; exact H]. pose proof (M a (or_introl eq_refl)). lra.
Qed.
Lemma min_extreme : forall l a, extreme (fun x r => r <= x) (a :: l) (fold_left (fun a y => if lt_ y a then y else a) l a).
Proof.
  induction l as [|y l IH]; intros a; cbn [fold_left].
  - split; [left; reflexivity|]. intros x [<-|[]]. lra.
  - unfold lt_ at 2. destruct (Rlt_dec y a) as [L|L].
    + destruct (IH y) as [I M]. split; [right; exact I|]. intros x [<-|H]; [|apply M, H]. pose proof (M y (or_introl eq_refl)). cbv beta in *. lra.
    + destruct (IH a) as [I M]. split; [destruct I as [<-|I]; [left; reflexivity|right; right; exact I]|].
      intros x [<-|[<-|H]]; [apply M; left; reflexivity| |apply M; right; exact H]. pose proof (M a (or_introl eq_refl)). cbv beta in *. lra.
Qed.


Lemma modulus_absolute : forall z, absolute z (modulus z).
Proof. intros z. split; [apply sqrt_pos|]. unfold modulus. apply sqrt_sqrt. nra. Qed.
Lemma moduli : forall l, Forall2 absolute l (map modulus l).
Proof. induction l; constructor; [apply modulus_absolute|assumption]. Qed.
