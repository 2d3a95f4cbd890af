(** C143: arguments and eigenvalues of the solver *)
From Coq Require Import Reals Lra Lia String.
From Verif Require Import KspArgsModel KspArgsProofs.
Local Open Scope R_scope.

(** All lists of arguments are pairs and at most one argument more, which is ignored; the options are the pairs, with
    none for no value; of several values for a key the last one is in force *)
Theorem C143_options : forall args,
  (exists kvs rest, args = (as_args kvs ++ rest)%list /\ (List.length rest <= 1)%nat) /\
  forall kvs rest, args = (as_args kvs ++ rest)%list -> (List.length rest <= 1)%nat ->
    List.length (ksp_options args) = List.length kvs /\
    (forall key, opt_lookup key (ksp_options args) = None <-> ~ In key (map fst kvs)) /\
    (forall key v before after, kvs = (before ++ (key, v) :: after)%list -> ~ In key (map fst after) ->
       opt_lookup key (ksp_options args) = Some (if string_dec v "none" then None else Some v)).
Proof.
  intros args. split; [apply args_pairs|]. intros kvs rest -> L. unfold ksp_options. rewrite pairs by exact L. clear rest L.
  set (g := fun kv : string * string => (fst kv, if String.eqb (snd kv) "none" then None else Some (snd kv))).
  assert (N : forall key l, opt_lookup key (map g l) = None <-> ~ In key (map fst l)).
  { intros key. induction l as [|[k v] l IH]; cbn [map opt_lookup In fst]; [tauto|]. unfold g at 1. cbn [fst snd].
    destruct (opt_lookup key (map g l)).
    - split; [discriminate|]. intros H. exfalso. assert (~ In key (map fst l)) as H2 by tauto. apply IH in H2. discriminate H2.
    - destruct (String.eqb_spec k key) as [->|D]; [split; [discriminate|tauto]|]. split; [|reflexivity]. intros _ [E|I]; [congruence|]. apply (proj1 IH); auto. }
  split; [rewrite map_length; reflexivity|split; [intros key; apply N|]].
  intros key v before after -> I. rewrite map_app, lookup_app. cbn [map opt_lookup]. unfold g at 1. cbn [fst snd opt_lookup].
  rewrite (proj2 (N key after) I), String.eqb_refl.
  destruct (String.eqb_spec v "none") as [->|D]; destruct (string_dec _ "none"); congruence.
Qed.
Print Assumptions C143_options.

(** What is returned for the eigenvalues: the ratio of the largest and the smallest modulus *)
Theorem C143_condition : forall is_block has_BB niters eigs, (is_block = true \/ has_BB = false) ->
  (eigs = [] -> krylov_solve is_block has_BB niters eigs = Err ValueError) /\
  (eigs <> [] -> exists moduli a b, Forall2 absolute eigs moduli /\ extreme Rle moduli a /\ extreme (fun x r => r <= x) moduli b /\
     krylov_solve is_block has_BB niters eigs = Ok (niters, if Req_EM_T b 0 then None else Some (a / b))) /\
  krylov_solve false true niters eigs = Err AssertionError.
Proof.
  intros blk bb niters eigs H. split; [|split; [|reflexivity]].
  - intros ->. destruct H as [-> | ->]; [|destruct blk]; reflexivity.
  - intros Ne. destruct eigs as [|e eigs]; [congruence|].
    exists (map modulus (e :: eigs)), (fold_left (fun a y => if gt_ y a then y else a) (map modulus eigs) (modulus e)), (fold_left (fun a y => if lt_ y a then y else a) (map modulus eigs) (modulus e)).
    split; [apply moduli|split; [apply max_extreme|split; [apply min_extreme|]]]. destruct H as [-> | ->]; [|destruct blk]; reflexivity.
Qed.
Print Assumptions C143_condition.

(** The check of the eigenvalues: what is returned is the condition number of a positive operator *)
Definition positive_checked : Prop := forall is_block has_BB niters eigs r,
  krylov_solve is_block has_BB niters eigs = Ok r -> Forall (fun e => 0 < fst e) eigs.
(** False: the assertion is on a generator and always holds; all changes of signs of the eigenvalues go unnoticed and give
    the same number *)
Theorem C143_positive_refuted : ~ positive_checked /\
  forall is_block has_BB niters eigs eigs', Forall2 (fun e e' => e' = e \/ e' = (- fst e, - snd e)) eigs eigs' ->
    krylov_solve is_block has_BB niters eigs' = krylov_solve is_block has_BB niters eigs.
Proof.
  split.
  - intros H. specialize (H true true 0%nat [(-1, 0)] (0%nat, _) eq_refl). inversion H as [|? ? H1 _]. cbn in H1. lra.
  - intros blk bb niters eigs eigs' F. assert (E : map modulus eigs' = map modulus eigs).
    { induction F as [|e e' l l' R _ IH]; [reflexivity|]. cbn [map]. rewrite IH. f_equal. destruct R as [-> | ->]; [reflexivity|].
      unfold modulus. cbn [fst snd]. f_equal. ring. }
    unfold krylov_solve. cbn [truth]. rewrite E. reflexivity.
Qed.
Print Assumptions C143_positive_refuted.

(** Options with a repeated key and an argument left over; eigenvalues of both signs *)
Example C143_ex : ksp_options ["-ksp_rtol"; "1e-6"; "-ksp_monitor"; "none"; "-ksp_rtol"; "1e-8"; "-left"]%string =
    [("-ksp_rtol", Some "1e-6"); ("-ksp_monitor", None); ("-ksp_rtol", Some "1e-8")]%string /\
  exists r, krylov_solve true true 3 [(-2, 0); (1, 0)] = Ok (3%nat, Some r) /\ r = 2.
Proof.
  split; [reflexivity|]. destruct (C143_condition true true 3 [(-2, 0); (1, 0)] (or_introl eq_refl)) as (_ & H & _).
  destruct H as (ms & a & b & F & [Ia Ma] & [Ib Mb] & E); [discriminate|].
  inversion F as [|? m1 ? ? [P1 Q1] F1]; subst. inversion F1 as [|? m2 ? ? [P2 Q2] F2]; subst. inversion F2; subst. cbn [fst snd] in *.
  assert (m1 = 2) by nra. assert (m2 = 1) by nra. subst m1 m2.
  assert (a = 2). { pose proof (Ma 2 (or_introl eq_refl)). destruct Ia as [<-|[<-|[]]]; lra. }
  assert (b = 1). { pose proof (Mb 1 (or_intror (or_introl eq_refl))). cbv beta in *. destruct Ib as [<-|[<-|[]]]; lra. }
  subst a b. exists (2 / 1). rewrite E. destruct (Req_EM_T 1 0); [lra|]. split; [reflexivity|lra].
Qed.
