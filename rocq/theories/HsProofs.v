(** Specification vocabulary and proofs for HsModel.v. *)
From Coq Require Import Reals List Arith Lia Lra Setoid Morphisms.
From Verif Require Import Base BaseProofs RLin HsModel.
Import ListNotations.
Local Open Scope R_scope.

(** ** Specification vocabulary *)
Definition mx := nat -> nat -> R.
Definition eqn (n : nat) (A B : mx) : Prop := forall i j, (i < n)%nat -> (j < n)%nat -> A i j = B i j.
Definition mm (n : nat) (A B : mx) : mx := fun i j => rsum n (fun k => A i k * B k j).
Definition tr (A : mx) : mx := fun i j => A j i.
Definition dg (d : nat -> R) : mx := fun i j => if Nat.eqb i j then d i else 0.
Definition one : mx := dg (fun _ => 1).
Definition plus (A B : mx) : mx := fun i j => A i j + B i j.
Definition times (a : R) (A : mx) : mx := fun i j => a * A i j.

(** The eigenvalue problem A U = M U diag l with U' M the inverse of U. *)
Definition solves (n : nat) (A M : mx) (l : nat -> R) (U : mx) : Prop :=
  eqn n (mm n (mm n (tr U) M) U) one /\ eqn n (mm n U (mm n (tr U) M)) one /\ eqn n (mm n A U) (mm n (mm n M U) (dg l)).
(** H is the power [s] of A with respect to M: M U diag(l^s) U' M. *)
Definition fractional (power : R -> R -> R) (n : nat) (A M : mx) (s : R) (H : mx) : Prop :=
  exists l U, solves n A M l U /\ eqn n H (mm n (mm n (mm n M U) (dg (fun k => power (l k) s))) (mm n (tr U) M)).

(** Meaning of an expression: a number or a matrix. *)
Inductive value := VNum (a : R) | VMat (D : mx).
Inductive product (n : nat) : value -> value -> value -> Prop :=
| product_nn a b : product n (VNum a) (VNum b) (VNum (a * b))
| product_nm a D : product n (VNum a) (VMat D) (VMat (times a D))
| product_mn a D : product n (VMat D) (VNum a) (VMat (times a D))
| product_mm C D : product n (VMat C) (VMat D) (VMat (mm n C D)).
Inductive denotes (power : R -> R -> R) (n : nat) : hexpr -> value -> Prop :=
| denotes_num a : denotes power n (HNum a) (VNum a)
| denotes_interp i H : fractional power n (rent (i_A i)) (rent (i_M i)) (i_s i) H -> denotes power n (HInterp i) (VMat H)
| denotes_add x y C D : denotes power n x (VMat C) -> denotes power n y (VMat D) -> denotes power n (HAdd x y) (VMat (plus C D))
| denotes_sub x y C D : denotes power n x (VMat C) -> denotes power n y (VMat D) -> denotes power n (HSub x y) (VMat (plus C (times (-1) D)))
| denotes_mul1 x v : denotes power n x v -> denotes power n (HMul [x]) v
| denotes_mul x rest v w vw : denotes power n x v -> denotes power n (HMul rest) w -> product n v w vw -> denotes power n (HMul (x :: rest)) vw.

(** Interpolation matrices in an expression *)
Inductive mentions (i : interp) : hexpr -> Prop :=
| mentions_interp : mentions i (HInterp i)
| mentions_mul x chain : In x chain -> mentions i x -> mentions i (HMul chain)
| mentions_add_l x y : mentions i x -> mentions i (HAdd x y)
| mentions_add_r x y : mentions i y -> mentions i (HAdd x y)
| mentions_sub_l x y : mentions i x -> mentions i (HSub x y)
| mentions_sub_r x y : mentions i y -> mentions i (HSub x y).
Definition symmetric (n : nat) (A : mx) : Prop := eqn n A (tr A).
(** All interpolation matrices are made of A and M; those with eigenvalues have the vectors as well. *)
Definition made_of (n : nat) (A M : rmat) (e : hexpr) : Prop :=
  forall i, mentions i e -> i_A i = A /\ i_M i = M /\
    match i_lmbda i, i_U i with Some l, Some U => solves n (rent A) (rent M) l U | None, None => True | _, _ => False end.
Definition eigh_ok (eigh : rmat -> rmat -> res ((nat -> R) * mx)) : Prop :=
  forall A M l U, eigh A M = Ok (l, U) -> solves (rnr A) (rent A) (rent M) l U.
(** Linear combinations as inverse wants them *)
Inductive combination : hexpr -> Prop :=
| comb_interp i : combination (HInterp i)
| comb_left a i : combination (HMul [HNum a; HInterp i])
| comb_right a i : combination (HMul [HInterp i; HNum a])
| comb_add x y : combination x -> combination y -> combination (HAdd x y)
| comb_sub x y : combination x -> combination y -> combination (HSub x y).

(** ** Matrices *)
Global Instance eqn_equiv n : Equivalence (eqn n).
Proof.
  split.
  - intros A i j _ _. reflexivity.
  - intros A B H i j Hi Hj. symmetry. auto.
  - intros A B C H1 H2 i j Hi Hj. transitivity (B i j); auto.
Qed.
Global Instance mm_proper n : Proper (eqn n ==> eqn n ==> eqn n) (mm n).
Proof. intros A A' HA B B' HB i j Hi Hj. apply rsum_ext. intros k Hk. rewrite HA, HB by assumption. reflexivity. Qed.
Global Instance tr_proper n : Proper (eqn n ==> eqn n) tr.
Proof. intros A A' HA i j Hi Hj. apply HA; assumption. Qed.
Global Instance plus_proper n : Proper (eqn n ==> eqn n ==> eqn n) plus.
Proof. intros A A' HA B B' HB i j Hi Hj. unfold plus. rewrite HA, HB by assumption. reflexivity. Qed.
Global Instance times_proper n a : Proper (eqn n ==> eqn n) (times a).
Proof. intros A A' HA i j Hi Hj. unfold times. rewrite HA by assumption. reflexivity. Qed.

Lemma mm_assoc n A B C : eqn n (mm n (mm n A B) C) (mm n A (mm n B C)).
Proof.
  intros i j Hi Hj. unfold mm. transitivity (rsum n (fun k => rsum n (fun p => A i p * B p k * C k j))).
  - apply rsum_ext. intros k _. rewrite <- rsum_scal_r. reflexivity.
  - rewrite rsum_swap. apply rsum_ext. intros p _. rewrite <- rsum_scal. apply rsum_ext. intros. ring.
Qed.
Lemma mm_dg n A d : eqn n (mm n A (dg d)) (fun i j => A i j * d j).
Proof.
  intros i j Hi Hj. unfold mm, dg. rewrite (rsum_single n j) by (assumption || (intros k _ N; rewrite (proj2 (Nat.eqb_neq k j) N); ring)).
  rewrite Nat.eqb_refl. reflexivity.
Qed.
Lemma dg_mm n A d : eqn n (mm n (dg d) A) (fun i j => d i * A i j).
Proof.
  intros i j Hi Hj. unfold mm, dg. rewrite (rsum_single n i); [rewrite Nat.eqb_refl; reflexivity|assumption|].
  intros k _ N. rewrite (proj2 (Nat.eqb_neq i k)) by congruence. ring.
Qed.
Lemma mm_one n A : eqn n (mm n A one) A.
Proof. unfold one. rewrite mm_dg. intros i j _ _. ring. Qed.
Lemma one_mm n A : eqn n (mm n one A) A.
Proof. unfold one. rewrite dg_mm. intros i j _ _. ring. Qed.
Lemma tr_mm n A B : eqn n (tr (mm n A B)) (mm n (tr B) (tr A)).
Proof. intros i j _ _. unfold tr, mm. apply rsum_ext. intros. ring. Qed.
Lemma tr_tr A : tr (tr A) = A.
Proof. reflexivity. Qed.
Lemma tr_dg n d : eqn n (tr (dg d)) (dg d).
Proof. intros i j _ _. unfold tr, dg. destruct (Nat.eqb_spec j i) as [->|N]; [rewrite Nat.eqb_refl; reflexivity|]. rewrite (proj2 (Nat.eqb_neq i j)) by congruence. reflexivity. Qed.
Lemma dg_dg n d e : eqn n (mm n (dg d) (dg e)) (dg (fun k => d k * e k)).
Proof. rewrite mm_dg. intros i j _ _. unfold dg. destruct (Nat.eqb_spec i j) as [->|]; ring. Qed.
Lemma dg_ext n d e : (forall k, (k < n)%nat -> d k = e k) -> eqn n (dg d) (dg e).
Proof. intros H i j Hi _. unfold dg. destruct (Nat.eqb i j); [apply H; assumption|reflexivity]. Qed.
Lemma mm_plus_r n A B C : eqn n (mm n A (plus B C)) (plus (mm n A B) (mm n A C)).
Proof. intros i j _ _. unfold mm, plus. rewrite <- rsum_plus. apply rsum_ext. intros. ring. Qed.
Lemma mm_plus_l n A B C : eqn n (mm n (plus B C) A) (plus (mm n B A) (mm n C A)).
Proof. intros i j _ _. unfold mm, plus. rewrite <- rsum_plus. apply rsum_ext. intros. ring. Qed.
Lemma mm_times_r n a A B : eqn n (mm n A (times a B)) (times a (mm n A B)).
Proof. intros i j _ _. unfold mm, times. rewrite <- rsum_scal. apply rsum_ext. intros. ring. Qed.
Lemma mm_times_l n a A B : eqn n (mm n (times a A) B) (times a (mm n A B)).
Proof. intros i j _ _. unfold mm, times. rewrite <- rsum_scal. apply rsum_ext. intros. ring. Qed.

(** ** Functions of the operator *)
Section Calculus.
Variables (n : nat) (A M : mx).
Hypothesis (SA : eqn n A (tr A)) (SM : eqn n M (tr M)).

Definition calc (U : mx) (d : nat -> R) : mx := mm n (mm n (mm n M U) (dg d)) (mm n (tr U) M).

Lemma calc_unique l U l' U' (f : R -> R) : solves n A M l U -> solves n A M l' U' ->
  eqn n (calc U' (fun k => f (l' k))) (calc U (fun k => f (l k))).
Proof.
  intros (O1 & O2 & E) (O1' & O2' & E').
  set (Q := mm n (mm n (tr U) M) U').
  assert (C1 : eqn n (mm n (dg l) Q) (mm n Q (dg l'))).
  { transitivity (mm n (mm n (tr U) A) U').
    - assert (T : eqn n (mm n (tr U) A) (mm n (dg l) (mm n (tr U) M))).
      { rewrite SA. rewrite <- tr_mm. rewrite E. rewrite tr_mm, tr_dg, tr_mm, <- SM. reflexivity. }
      rewrite T. unfold Q. rewrite !mm_assoc. reflexivity.
    - rewrite mm_assoc, E'. unfold Q. rewrite !mm_assoc. reflexivity. }
  assert (C2 : eqn n (mm n (dg (fun k => f (l k))) Q) (mm n Q (dg (fun k => f (l' k))))).
  { rewrite dg_mm, mm_dg. rewrite dg_mm, mm_dg in C1. intros i j Hi Hj. specialize (C1 i j Hi Hj). cbn beta in C1 |- *.
    destruct (Req_dec (Q i j) 0) as [Z|Z]; [rewrite Z; ring|]. assert (l i = l' j) as -> by (apply (Rmult_eq_reg_r (Q i j)); lra). ring. }
  unfold calc. set (F := dg (fun k => f (l k))) in *. set (F' := dg (fun k => f (l' k))) in *.
  transitivity (mm n (mm n (mm n M U) F) (mm n (mm n (tr U) M) (mm n U' (mm n (tr U') M)))).
  - rewrite <- (mm_assoc n (mm n (tr U) M) U'). fold Q. rewrite (mm_assoc n (mm n M U) F). rewrite <- (mm_assoc n F Q), C2. rewrite (mm_assoc n Q F').
    unfold Q. rewrite (mm_assoc n (mm n (tr U) M) U'), <- (mm_assoc n (mm n M U) (mm n (tr U) M)). rewrite (mm_assoc n M U (mm n (tr U) M)), O2, mm_one.
    rewrite <- !mm_assoc. reflexivity.
  - rewrite O2', mm_one. reflexivity.
Qed.

Lemma calc_plus U d e : eqn n (plus (calc U d) (calc U e)) (calc U (fun k => d k + e k)).
Proof.
  unfold calc. rewrite <- mm_plus_l, <- mm_plus_r. apply mm_proper; [|reflexivity]. apply mm_proper; [reflexivity|].
  intros i j _ _. unfold plus, dg. destruct (Nat.eqb i j); ring.
Qed.
Lemma calc_times U a d : eqn n (times a (calc U d)) (calc U (fun k => a * d k)).
Proof.
  unfold calc. rewrite <- mm_times_l, <- mm_times_r. apply mm_proper; [|reflexivity]. apply mm_proper; [reflexivity|].
  intros i j _ _. unfold times, dg. destruct (Nat.eqb i j); ring.
Qed.
Lemma calc_ext U d e : (forall k, (k < n)%nat -> d k = e k) -> eqn n (calc U d) (calc U e).
Proof. intros H. unfold calc. rewrite (dg_ext n d e H). reflexivity. Qed.

Lemma calc_regular l U d C : solves n A M l U -> eqn n (mm n C (calc U d)) one -> forall k, (k < n)%nat -> d k <> 0.
Proof.
  intros (O1 & O2 & _) HC k Hk Z.
  assert (H : eqn n U (mm n (mm n C (mm n M U)) (dg d))).
  { transitivity (mm n (mm n C (calc U d)) U); [rewrite HC, one_mm; reflexivity|]. unfold calc. rewrite !mm_assoc. rewrite <- (mm_assoc n (tr U) M U), O1, mm_one. reflexivity. }
  rewrite mm_dg in H.
  specialize (O1 k k Hk Hk). unfold one, dg in O1. rewrite Nat.eqb_refl in O1.
  assert (mm n (mm n (tr U) M) U k k = 0); [|lra]. unfold mm at 1. apply rsum_zero. intros p Hp. rewrite (H p k Hp Hk), Z. ring.
Qed.
Lemma calc_inverse l U d : solves n A M l U -> (forall k, (k < n)%nat -> d k <> 0) ->
  let B := mm n U (mm n (dg (fun k => 1 / d k)) (tr U)) in
  eqn n (mm n B (calc U d)) one /\ eqn n (mm n (calc U d) B) one.
Proof.
  intros (O1 & O2 & _) N B.
  assert (I1 : eqn n (mm n (dg (fun k => 1 / d k)) (dg d)) one) by (rewrite dg_dg; apply dg_ext; intros k Hk; field; auto).
  assert (I2 : eqn n (mm n (dg d) (dg (fun k => 1 / d k))) one) by (rewrite dg_dg; apply dg_ext; intros k Hk; field; auto).
  unfold B, calc. split.
  - transitivity (mm n U (mm n (mm n (dg (fun k => 1 / d k)) (dg d)) (mm n (tr U) M))); [|rewrite I1, one_mm; exact O2].
    rewrite !mm_assoc. rewrite <- (mm_assoc n (tr U) M), <- (mm_assoc n (mm n (tr U) M) U), O1, one_mm. reflexivity.
  - transitivity (mm n (mm n (mm n M U) (mm n (dg d) (dg (fun k => 1 / d k)))) (tr U)).
    + rewrite !mm_assoc. rewrite <- (mm_assoc n M U (mm n (dg _) (tr U))), <- (mm_assoc n (tr U) (mm n M U)), <- (mm_assoc n (tr U) M U), O1, one_mm. reflexivity.
    + rewrite I2, mm_one. assert (T : eqn n (tr (mm n U (mm n (tr U) M))) (tr one)) by (rewrite O2; reflexivity).
      unfold one in T. rewrite tr_dg, tr_mm, tr_mm, tr_tr, <- SM in T. exact T.
Qed.
End Calculus.

(** ** Expressions *)

Fixpoint hexpr_ind2 (P : hexpr -> Prop) (Hn : forall a, P (HNum a)) (Hi : forall i, P (HInterp i)) (Hm : forall chain, Forall P chain -> P (HMul chain))
  (Ha : forall x y, P x -> P y -> P (HAdd x y)) (Hs : forall x y, P x -> P y -> P (HSub x y)) (Hv : forall x W, P x -> P (HVec x W)) (Ho : P HOther) (e : hexpr) {struct e} : P e :=
  let rec := hexpr_ind2 P Hn Hi Hm Ha Hs Hv Ho in
  match e with
  | HNum a => Hn a
  | HInterp i => Hi i
  | HMul chain => Hm chain ((fix go l := match l return Forall P l with [] => Forall_nil P | x :: l' => Forall_cons x (rec x) (go l') end) chain)
  | HAdd x y => Ha x y (rec x) (rec y)
  | HSub x y => Hs x y (rec x) (rec y)
  | HVec x W => Hv x W (rec x)
  | HOther => Ho
  end.

Lemma interps_mentions e i : In i (interps e) <-> mentions i e.
Proof.
  unfold interps. assert (E : In i (flat_map (fun t => match t with TInterp i => [i] | TNum _ => [] end) (crawl e)) <-> In (TInterp i) (crawl e)).
  { rewrite in_flat_map. split; [intros ([a|j] & H & K); [destruct K|destruct K as [->|[]]; exact H]|intros H; exists (TInterp i); split; [assumption|left; reflexivity]]. }
  rewrite E. clear E. induction e as [a|j|chain IH|x y IHx IHy|x y IHx IHy|x W IHx|] using hexpr_ind2; cbn [crawl].
  - split; [intros [H|[]]; discriminate|intros H; inversion H].
  - split; [intros [H|[]]; injection H as ->; constructor|intros H; inversion H; left; reflexivity].
  - rewrite in_flat_map. rewrite Forall_forall in IH. split.
    + intros (x & H & K). apply (mentions_mul i x); [assumption|apply (IH x H), K].
    + intros H. inversion H as [|x c H1 H2| | | |]; subst. exists x. split; [assumption|apply (IH x H1), H2].
  - rewrite in_app_iff, IHx, IHy. split; [intros [H|H]; [apply mentions_add_l|apply mentions_add_r]; assumption|intros H; inversion H; subst; auto].
  - rewrite in_app_iff, IHx, IHy. split; [intros [H|H]; [apply mentions_sub_l|apply mentions_sub_r]; assumption|intros H; inversion H; subst; auto].
  - split; [intros []|intros H; inversion H].
  - split; [intros []|intros H; inversion H].
Qed.

Lemma extract_some {T} (attr : interp -> option T) e t : extract attr e = Some t -> exists pre i post, interps e = pre ++ i :: post /\ attr i = Some t /\ forall j, In j pre -> attr j = None.
Proof.
  unfold extract. induction (interps e) as [|i l IH]; cbn [fold_right]; [discriminate|]. destruct (attr i) as [t'|] eqn:E.
  - intros H. injection H as ->. exists [], i, l. repeat split; [assumption|intros ? []].
  - intros H. destruct (IH H) as (pre & j & post & -> & B & C). exists (i :: pre), j, post. repeat split; [assumption|]. intros k [<-|Hk]; auto.
Qed.
Lemma extract_none {T} (attr : interp -> option T) e : extract attr e = None -> forall i, In i (interps e) -> attr i = None.
Proof.
  unfold extract. induction (interps e) as [|i l IH]; cbn [fold_right]; [intros _ ? []|]. destruct (attr i) as [t'|] eqn:E; [discriminate|].
  intros H j [<-|Hj]; auto.
Qed.

Section Sound.
Variable power : R -> R -> R.
Variable eigh : rmat -> rmat -> res ((nat -> R) * mx).
Variables (A M : rmat).
Let n := rnr A.
Hypothesis (SA : symmetric n (rent A)) (SM : symmetric n (rent M)) (EO : eigh_ok eigh).

Lemma eigenpairs_ok e l U m : made_of n A M e -> eigenpairs eigh e = Ok (l, U, m) -> m = n /\ solves n (rent A) (rent M) l U.
Proof.
  intros MO H. unfold eigenpairs in H. destruct (extract (fun i => Some (i_A i)) e) as [A'|] eqn:EA; [|discriminate].
  destruct (extract_some _ _ _ EA) as (pre & i & post & EI & EA' & _). injection EA' as <-.
  assert (Hi : mentions i e) by (apply interps_mentions; rewrite EI; apply in_or_app; right; left; reflexivity).
  destruct (MO i Hi) as (IA & IM & _).
  assert (D : forall r, match extract (fun i => Some (i_M i)) e with None => Err AttributeError | Some M => do lU <- eigh (i_A i) M; Ok (fst lU, snd lU, rnr (i_A i)) end = Ok r -> r = (l, U, m) -> m = n /\ solves n (rent A) (rent M) l U).
  { intros r Hr ->. destruct (extract (fun i => Some (i_M i)) e) as [M'|] eqn:EM; [|discriminate].
    destruct (extract_some _ _ _ EM) as (pre' & j & post' & EJ & EM' & _). injection EM' as <-.
    assert (Hj : mentions j e) by (apply interps_mentions; rewrite EJ; apply in_or_app; right; left; reflexivity).
    destruct (MO j Hj) as (_ & JM & _). destruct (eigh (i_A i) (i_M j)) as [[l' U']|] eqn:EE; [|discriminate]. cbn [bind fst snd] in Hr. injection Hr as <- <- <-.
    apply EO in EE. rewrite IA, JM in *. split; [reflexivity|exact EE]. }
  destruct (extract i_lmbda e) as [l'|] eqn:EL; [destruct (extract i_U e) as [U'|] eqn:EU|].
  - injection H as <- <- <-. rewrite IA. split; [reflexivity|].
    destruct (extract_some _ _ _ EL) as (pl & il & ql & E1 & E2 & E3). destruct (extract_some _ _ _ EU) as (pu & iu & qu & F1 & F2 & F3).
    assert (G : forall j, In j (interps e) -> (i_lmbda j = None <-> i_U j = None)).
    { intros j Hj. apply interps_mentions in Hj. destruct (MO j Hj) as (_ & _ & Q). destruct (i_lmbda j), (i_U j); try contradiction; split; congruence. }
    assert (il = iu).
    { rewrite E1 in F1. rewrite E1 in G. clear - F1 E2 E3 F2 F3 G. revert pu F1 F3. induction pl as [|p pl IH]; intros [|q pu] F1 F3; cbn [app] in F1; injection F1 as F0 F1.
      - assumption.
      - subst q. exfalso. assert (i_lmbda il = None) by (apply G; [left; reflexivity|apply F3; left; reflexivity]). congruence.
      - subst p. exfalso. assert (i_U iu = None) by (apply G; [left; reflexivity|apply E3; left; reflexivity]). congruence.
      - apply (IH (fun j Hj => E3 j (or_intror Hj)) (fun j Hj => G j (or_intror Hj)) pu F1). intros j Hj. apply F3. right. assumption. }
    subst iu. assert (Hl : mentions il e) by (apply interps_mentions; rewrite E1; apply in_or_app; right; left; reflexivity).
    destruct (MO il Hl) as (_ & _ & Q). rewrite E2, F2 in Q. exact Q.
  - apply (D _ H eq_refl).
  - apply (D _ H eq_refl).
Qed.

Definition combo (l : nat -> R) (terms : list (R * R)) (k : nat) : R := fold_right (fun p s => fst p * power (l k) (snd p) + s) 0 terms.
Lemma combo_app l a b k : combo l (a ++ b) k = combo l a k + combo l b k.
Proof. unfold combo. induction a as [|p a IH]; cbn [app fold_right]; [ring|]. rewrite IH. ring. Qed.
Lemma combo_neg l b k : combo l (map (fun p => (- fst p, snd p)) b) k = - combo l b k.
Proof. unfold combo. induction b as [|p b IH]; cbn [map fold_right fst snd]; [ring|]. rewrite IH. ring. Qed.
Lemma diagonal_combo l ts k : diagonal power l ts k = combo l ts k.
Proof.
  unfold diagonal, combo. assert (G : forall a, fold_left (fun d p => d + fst p * power (l k) (snd p)) ts a = a + fold_right (fun p s => fst p * power (l k) (snd p) + s) 0 ts).
  { induction ts as [|p ts IH]; intros a; cbn [fold_left fold_right]; [ring|]. rewrite IH. ring. }
  rewrite G. ring.
Qed.

Lemma fractional_calc l U s H : solves n (rent A) (rent M) l U -> fractional power n (rent A) (rent M) s H -> eqn n H (calc n (rent M) U (fun k => power (l k) s)).
Proof.
  intros S (l' & U' & S' & E). rewrite E. apply (calc_unique n (rent A) (rent M) SA SM l U l' U' (fun x => power x s) S S').
Qed.
Lemma interp_calc l U i v : solves n (rent A) (rent M) l U -> made_of n A M (HInterp i) -> denotes power n (HInterp i) v -> exists D, v = VMat D /\ eqn n D (calc n (rent M) U (fun k => power (l k) (i_s i))).
Proof.
  intros S MO D. inversion D as [|i' H HF| | | |]; subst. exists H. split; [reflexivity|]. destruct (MO i (mentions_interp i)) as (EA & EM & _). rewrite EA, EM in HF. apply fractional_calc; assumption.
Qed.

Lemma collect_sound l U e ts v : solves n (rent A) (rent M) l U -> made_of n A M e -> collect e = Ok (Some ts) -> denotes power n e v ->
  exists D, v = VMat D /\ eqn n D (calc n (rent M) U (combo l ts)).
Proof.
  intros S. revert ts v. induction e as [a|i|chain IH|x y IHx IHy|x y IHx IHy|x W IHx|] using hexpr_ind2; intros ts v MO HC HD; cbn [collect] in HC; try discriminate.
  - injection HC as <-. destruct (interp_calc l U i v S MO HD) as (D & -> & E). exists D. split; [reflexivity|]. rewrite E. apply calc_ext. intros k _. unfold combo. cbn [fold_right fst snd]. ring.
  - destruct chain as [|x [|y [|z rest]]]; try discriminate. clear IH.
    assert (G : forall i a w D, made_of n A M (HInterp i) -> ts = [(a, i_s i)] -> denotes power n (HInterp i) w -> (exists D', w = VMat D' /\ D = times a D') -> eqn n D (calc n (rent M) U (combo l ts))).
    { intros i a w D MI -> Hw (D' & Ew & ->). destruct (interp_calc l U i w S MI Hw) as (D2 & E2 & E). rewrite E2 in Ew. injection Ew as ->. rewrite E, calc_times. apply calc_ext.
      intros k _. unfold combo. cbn [fold_right fst snd]. ring. }
    assert (N1 : forall v, ~ denotes power n (HMul []) v) by (intros w Hw; inversion Hw).
    inversion HD as [| | | | |x' r' v1 v2 v3 D1 D2 P]; subst.
    inversion D2 as [| | | |y' w' D2' | y' r' w1 w2 w3 D3 D4 P2]; subst; [|exfalso; exact (N1 _ D4)].
    destruct x as [a|i| | | | |]; try discriminate.
    + destruct y as [|i| | | | |]; try discriminate. injection HC as <-. inversion D1; subst.
      destruct (interp_calc l U i v2 S) as (D & -> & _); [intros j Hj; apply MO; apply (mentions_mul j (HInterp i)); [right; left; reflexivity|assumption]|assumption|].
      inversion P; subst. eexists. split; [reflexivity|]. eapply (G i a (VMat D)); [|reflexivity|eassumption|exists D; split; reflexivity].
      intros j Hj; apply MO; apply (mentions_mul j (HInterp i)); [right; left; reflexivity|assumption].
    + destruct y as [b| | | | | |]; try discriminate. injection HC as <-. inversion D2'; subst.
      destruct (interp_calc l U i v1 S) as (D & -> & _); [intros j Hj; apply MO; apply (mentions_mul j (HInterp i)); [left; reflexivity|assumption]|assumption|].
      inversion P; subst. eexists. split; [reflexivity|]. eapply (G i b (VMat D)); [|reflexivity|eassumption|exists D; split; reflexivity].
      intros j Hj; apply MO; apply (mentions_mul j (HInterp i)); [left; reflexivity|assumption].
  - destruct (collect x) as [[tx|]|] eqn:EX; try discriminate; destruct (collect y) as [[ty|]|] eqn:EY; try discriminate. cbn [bind] in HC. injection HC as <-.
    inversion HD as [| |x' y' C D HX HY| | |]; subst.
    destruct (IHx tx (VMat C) (fun j Hj => MO j (mentions_add_l j x y Hj)) eq_refl HX) as (C' & E1 & E2). injection E1 as <-.
    destruct (IHy ty (VMat D) (fun j Hj => MO j (mentions_add_r j x y Hj)) eq_refl HY) as (D' & E3 & E4). injection E3 as <-.
    exists (plus C D). split; [reflexivity|]. rewrite E2, E4, calc_plus. apply calc_ext. intros k _. rewrite combo_app. reflexivity.
  - destruct (collect y) as [[ty|]|] eqn:EY; try discriminate; destruct (collect x) as [[tx|]|] eqn:EX; try discriminate. cbn [bind] in HC. injection HC as <-.
    inversion HD as [| | |x' y' C D HX HY| |]; subst.
    destruct (IHx tx (VMat C) (fun j Hj => MO j (mentions_sub_l j x y Hj)) eq_refl HX) as (C' & E1 & E2). injection E1 as <-.
    destruct (IHy ty (VMat D) (fun j Hj => MO j (mentions_sub_r j x y Hj)) eq_refl HY) as (D' & E3 & E4). injection E3 as <-.
    eexists. split; [reflexivity|]. rewrite E2, E4, calc_times, calc_plus. apply calc_ext. intros k _. rewrite combo_app, combo_neg. ring.
Qed.

Lemma inverse_matrix e B : inverse power eigh e = Ok (IMat B) -> exists l U m ts, eigenpairs eigh e = Ok (l, U, m) /\ collect e = Ok (Some ts) /\
  B = RMat m m (fun i j => rsum m (fun k => U i k * (1 / diagonal power l ts k * U j k))) /\ is_well_defined e = true.
Proof.
  intros H. destruct e as [a|i|chain|x y|x y|x W|]; cbn [inverse] in H; try discriminate;
    try (destruct (is_well_defined _) eqn:EW; [|discriminate]; cbn [negb] in H; destruct (eigenpairs eigh _) as [[[l U] m]|]; [|discriminate]; cbn [bind] in H;
         destruct (collect _) as [[ts|]|]; try discriminate; cbn [bind] in H; injection H as <-; exists l, U, m, ts; repeat split; reflexivity).
  destruct (inverse power eigh x); [|discriminate]. cbn [bind] in H. discriminate.
Qed.

Lemma inverse_sound e B D C : made_of n A M e -> inverse power eigh e = Ok (IMat B) -> denotes power n e (VMat D) -> eqn n (mm n C D) one ->
  rnr B = n /\ rnc B = n /\ eqn n (mm n (rent B) D) one /\ eqn n (mm n D (rent B)) one.
Proof.
  intros MO HI HD HC. destruct (inverse_matrix e B HI) as (l & U & m & ts & EE & ET & -> & _). destruct (eigenpairs_ok e l U m MO EE) as [-> S].
  destruct (collect_sound l U e ts (VMat D) S MO ET HD) as (D' & E1 & E2). injection E1 as <-. rewrite E2 in HC.
  assert (N := calc_regular n (rent A) (rent M) l U (combo l ts) C S HC).
  destruct (calc_inverse n (rent A) (rent M) SM l U (combo l ts) S N) as [I1 I2]. cbn zeta in I1, I2.
  assert (EB : eqn n (rent (RMat n n (fun i j => rsum n (fun k => U i k * (1 / diagonal power l ts k * U j k))))) (mm n U (mm n (dg (fun k => 1 / combo l ts k)) (tr U)))).
  { rewrite dg_mm. intros i j Hi Hj. cbn [rent]. unfold mm, tr. apply rsum_ext. intros k Hk. rewrite diagonal_combo. reflexivity. }
  split; [reflexivity|]. split; [reflexivity|]. rewrite EB, E2. split; assumption.
Qed.
End Sound.

(** ** Acceptance *)
Lemma collect_combination e ts : collect e = Ok (Some ts) -> combination e.
Proof.
  revert ts. induction e as [a|i|chain IH|x y IHx IHy|x y IHx IHy|x W IHx|] using hexpr_ind2; intros ts H; cbn [collect] in H; try discriminate.
  - constructor.
  - destruct chain as [|x [|y [|z rest]]]; try discriminate. destruct x as [a|i| | | | |]; try discriminate; destruct y as [b|j| | | | |]; try discriminate; constructor.
  - destruct (collect x) as [[tx|]|] eqn:EX; try discriminate; destruct (collect y) as [[ty|]|] eqn:EY; try discriminate. constructor; [eapply IHx; reflexivity|eapply IHy; reflexivity].
  - destruct (collect y) as [[ty|]|] eqn:EY; try discriminate; destruct (collect x) as [[tx|]|] eqn:EX; try discriminate. constructor; [eapply IHx; reflexivity|eapply IHy; reflexivity].
Qed.
Lemma combination_collect e : combination e -> exists ts, collect e = Ok (Some ts).
Proof.
  induction 1 as [i|a i|a i|x y _ [tx IHx] _ [ty IHy]|x y _ [tx IHx] _ [ty IHy]]; cbn [collect]; try (eexists; reflexivity).
  - rewrite IHx, IHy. eexists. reflexivity.
  - rewrite IHx, IHy. eexists. reflexivity.
Qed.
Lemma combination_mentions e : combination e -> exists i, mentions i e.
Proof.
  induction 1 as [i|a i|a i|x y _ [i Hi] _ _|x y _ [i Hi] _ _].
  - exists i. constructor.
  - exists i. apply (mentions_mul i (HInterp i)); [right; left; reflexivity|constructor].
  - exists i. apply (mentions_mul i (HInterp i)); [left; reflexivity|constructor].
  - exists i. apply mentions_add_l. assumption.
  - exists i. apply mentions_sub_l. assumption.
Qed.
Lemma same_size_spec A B : same_size A B = true <-> rnr A = rnr B /\ rnc A = rnc B.
Proof. unfold same_size. rewrite Bool.andb_true_iff, !Nat.eqb_eq. tauto. Qed.
Lemma well_defined_spec e : is_well_defined e = true <->
  forall i j, mentions i e -> mentions j e -> rnr (i_A i) = rnr (i_A j) /\ rnc (i_A i) = rnc (i_A j) /\ rnr (i_M i) = rnr (i_M j) /\ rnc (i_M i) = rnc (i_M j).
Proof.
  unfold is_well_defined. split.
  - intros H i j Hi Hj. apply interps_mentions in Hi, Hj. destruct (interps e) as [|k rest]; [destruct Hi|]. rewrite forallb_forall in H.
    assert (G : forall a, In a (k :: rest) -> rnr (i_A k) = rnr (i_A a) /\ rnc (i_A k) = rnc (i_A a) /\ rnr (i_M k) = rnr (i_M a) /\ rnc (i_M k) = rnc (i_M a)).
    { intros a [<-|Ha]; [auto|]. specialize (H a Ha). apply Bool.andb_true_iff in H. rewrite !same_size_spec in H. tauto. }
    destruct (G i Hi) as (?&?&?&?), (G j Hj) as (?&?&?&?). repeat split; congruence.
  - intros H. assert (G : forall i j, In i (interps e) -> In j (interps e) -> rnr (i_A i) = rnr (i_A j) /\ rnc (i_A i) = rnc (i_A j) /\ rnr (i_M i) = rnr (i_M j) /\ rnc (i_M i) = rnc (i_M j)) by (intros i j Hi Hj; apply H; apply interps_mentions; assumption).
    destruct (interps e) as [|k rest]; [reflexivity|]. apply forallb_forall. intros a Ha. apply Bool.andb_true_iff. rewrite !same_size_spec.
    destruct (G k a (or_introl eq_refl) (or_intror Ha)) as (?&?&?&?). tauto.
Qed.
