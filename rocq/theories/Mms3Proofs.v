(** Specification and proofs for Mms3Model.v *)
From Coq Require Import Reals Lra Qreals.
From Verif Require Import Base BaseProofs Mms3Model.
From Verif Require Export Mms2Proofs ArcProofs.
Local Open Scope R_scope.

(** The square cut at x = 1/2 in two: the integrals over both halves and over the cut add up to zero *)
Definition balanced_halves (left right : R -> R -> R) (cut : R -> R) : Prop :=
  exists I J K, integral2 left 0 (1/2) 0 1 I /\ integral2 right (1/2) 1 0 1 J /\ integral cut 0 1 K /\ I + J + K = 0.
(** On the boundary of the square *)
Definition on_boundary (x y : R) : Prop := exists t, on_side t x y.
(** The sides of twoDoneDoneD.py *)
Definition half_side (t : nat) (x y : R) : Prop :=
  in_square x y /\ match t with
  | 1%nat => x = 0 | 2%nat => x = 1 | 3%nat => y = 0 /\ x <= 1/2 | 4%nat => y = 0 /\ 1/2 <= x
  | 5%nat => y = 1 /\ x <= 1/2 | 6%nat => y = 1 /\ 1/2 <= x | _ => False end.
(** The square with the left side replaced by half a circle: the sides with their normals out of the domain *)
Definition arc_side (t : nat) (x y : R) (n : R * R) : Prop :=
  match t with
  | 1%nat => x * x + (y - 1/2) * (y - 1/2) = 1/4 /\ x <= 0 /\ n = (2 * x, 2 * (y - 1/2))
  | 2%nat => x = 1 /\ 0 <= y <= 1 /\ n = (1, 0)
  | 3%nat => y = 0 /\ 0 <= x <= 1 /\ n = (0, -1)
  | 4%nat => y = 1 /\ 0 <= x <= 1 /\ n = (0, 1)
  | _ => False
  end.
(** The integral over this domain and those over the arc and the three sides exist and add up to zero *)
Definition balanced_arc (interior : R -> R -> R) (sides : nat -> R * R -> R -> R -> R) : Prop :=
  exists I arc right bottom top, integral_domain interior I /\
    integral_arc (fun x y => sides 1%nat (2 * x, 2 * (y - 1/2)) x y) arc /\ integral (fun y => sides 2%nat (1, 0) 1 y) 0 1 right /\
    integral (fun x => sides 3%nat (0, -1) x 0) 0 1 bottom /\ integral (fun x => sides 4%nat (0, 1) x 1) 0 1 top /\
    I + arc + right + bottom + top = 0.
Lemma balanced_arc_by F G dF Gx dG interior sides : d1 F dF -> d1 G Gx -> d2 G dG -> cont2 F -> cont2 G -> cont2 dF -> cont2 Gx -> cont2 dG ->
  (forall x y, interior x y = dF x y + dG x y) ->
  (forall t n x y, arc_side t x y n -> sides t n x y + (F x y * fst n + G x y * snd n) = 0) -> balanced_arc interior sides.
Proof.
  intros DF D1 D2 CF CG CdF CGx CdG HI HS. pose proof PI_RGT_0 as PP. destruct (gauss_arc F G dF Gx dG) as (I & a & r & b & t & H2 & Ha & Hr & Hb & Ht & E); try assumption.
  exists I, (-1 * a), (-1 * r), b, (-1 * t). split; [| split; [| split; [| split; [| split]]]].
  - destruct H2 as (J & HJ & H2). exists J. split; [| exact H2]. intros y Hy. apply (integral_ext (fun x => dF x y + dG x y)); [pose proof (arc_x_neg y); lra | intros; symmetry; apply HI | apply HJ, Hy].
  - unfold integral_arc in *. set (h := fun c => _) in Ha. apply (integral_ext (fun c => h c + -2 * h c)); [lra | | replace (-1 * a) with (a + -2 * a) by ring; apply (integral_lin h h); exact Ha].
    intros c Hc. unfold h. specialize (HS 1%nat (2 * fst (arc_point c), 2 * (snd (arc_point c) - 1/2)) (fst (arc_point c)) (snd (arc_point c))). cbn [fst snd] in HS.
    assert (S : arc_side 1 (fst (arc_point c)) (snd (arc_point c)) (2 * fst (arc_point c), 2 * (snd (arc_point c) - 1/2))).
    { cbn. pose proof (sin2_cos2 c) as T. unfold Rsqr in T. pose proof (sin_ge_0 c (proj1 Hc) (proj2 Hc)). split; [nra |]. split; [lra | reflexivity]. }
    specialize (HS S). lra.
  - apply (integral_ext (fun y => F 1 y + -2 * F 1 y)); [lra | | replace (-1 * r) with (r + -2 * r) by ring; apply (integral_lin (fun y => F 1 y) (fun y => F 1 y)); exact Hr].
    intros y Hy. specialize (HS 2%nat (1, 0) 1 y). cbn [fst snd] in HS. assert (S : arc_side 2 1 y (1, 0)) by (cbn; repeat split; lra). specialize (HS S). lra.
  - apply (integral_ext (fun x => G x 0)); [lra | | exact Hb]. intros x Hx. specialize (HS 3%nat (0, -1) x 0). cbn [fst snd] in HS. assert (S : arc_side 3 x 0 (0, -1)) by (cbn; repeat split; lra). specialize (HS S). lra.
  - apply (integral_ext (fun x => G x 1 + -2 * G x 1)); [lra | | replace (-1 * t) with (t + -2 * t) by ring; apply (integral_lin (fun x => G x 1) (fun x => G x 1)); exact Ht].
    intros x Hx. specialize (HS 4%nat (0, 1) x 1). cbn [fst snd] in HS. assert (S : arc_side 4 x 1 (0, 1)) by (cbn; repeat split; lra). specialize (HS S). lra.
  - lra.
Qed.

Lemma balanced_halves_by F G dF dG F' G' dF' dG' left right cut :
  d1 F dF -> d2 G dG -> cont2 F -> cont2 G -> cont2 dF -> cont2 dG ->
  d1 F' dF' -> d2 G' dG' -> cont2 F' -> cont2 G' -> cont2 dF' -> cont2 dG' ->
  (forall x y, left x y = dF x y + dG x y) -> (forall x y, right x y = dF' x y + dG' x y) ->
  (forall y, 0 <= y <= 1 -> F 0 y = 0) -> (forall x, 0 <= x <= 1/2 -> G x 0 = 0 /\ G x 1 = 0) ->
  (forall y, 0 <= y <= 1 -> F' 1 y = 0) -> (forall x, 1/2 <= x <= 1 -> G' x 0 = 0 /\ G' x 1 = 0) ->
  (forall y, 0 <= y <= 1 -> cut y + F (1/2) y - F' (1/2) y = 0) -> balanced_halves left right cut.
Proof.
  intros DF DG CF CG CdF CdG DF' DG' CF' CG' CdF' CdG' HL HR Z1 Z2 Z3 Z4 HC.
  destruct (gauss F G dF dG 0 (1/2) 0 1) as (I & l & r & b & t & H2 & Hl & Hr & Hb & Ht & E); try assumption; try lra.
  destruct (gauss F' G' dF' dG' (1/2) 1 0 1) as (J & l' & r' & b' & t' & H2' & Hl' & Hr' & Hb' & Ht' & E'); try assumption; try lra.
  assert (K0 : forall a b, integral (fun _ => 0) a b 0) by (intros a c; exists (RiemannInt_P14 a c 0); eapply eq_trans; [exact (RiemannInt_P15 (RiemannInt_P14 a c 0)) | ring]).
  assert (l = 0) by (apply (integral_unique (fun y => F 0 y) 0 1); [exact Hl | apply (integral_ext (fun _ => 0)); [lra | intros; symmetry; apply Z1; assumption | apply K0]]).
  assert (b = 0) by (apply (integral_unique (fun x => G x 0) 0 (1/2)); [exact Hb | apply (integral_ext (fun _ => 0)); [lra | intros x Hx; symmetry; apply (Z2 x Hx) | apply K0]]).
  assert (t = 0) by (apply (integral_unique (fun x => G x 1) 0 (1/2)); [exact Ht | apply (integral_ext (fun _ => 0)); [lra | intros x Hx; symmetry; apply (Z2 x Hx) | apply K0]]).
  assert (r' = 0) by (apply (integral_unique (fun y => F' 1 y) 0 1); [exact Hr' | apply (integral_ext (fun _ => 0)); [lra | intros; symmetry; apply Z3; assumption | apply K0]]).
  assert (b' = 0) by (apply (integral_unique (fun x => G' x 0) (1/2) 1); [exact Hb' | apply (integral_ext (fun _ => 0)); [lra | intros x Hx; symmetry; apply (Z4 x Hx) | apply K0]]).
  assert (t' = 0) by (apply (integral_unique (fun x => G' x 1) (1/2) 1); [exact Ht' | apply (integral_ext (fun _ => 0)); [lra | intros x Hx; symmetry; apply (Z4 x Hx) | apply K0]]).
  exists I, J, (l' + -1 * r). split; [apply (integral2_ext (fun x y => dF x y + dG x y)); [lra | lra | intros; symmetry; apply HL | exact H2] |].
  split; [apply (integral2_ext (fun x y => dF' x y + dG' x y)); [lra | lra | intros; symmetry; apply HR | exact H2'] |]. split; [| lra].
  apply (integral_ext (fun y => F' (1/2) y + -1 * F (1/2) y)); [lra | intros y Hy; specialize (HC y Hy); lra |]. apply (integral_lin (fun y => F' (1/2) y) (fun y => F (1/2) y)); assumption.
Qed.

(** The field of Stokes' problem: the stress applied to the test function *)
Lemma stokes_field par u p v : smooth_v v -> exists F G dF Gx dG, (d1 F dF /\ d1 G Gx) /\ d2 G dG /\ (cont2 F /\ cont2 G /\ cont2 dF /\ cont2 dG /\ cont2 Gx) /\
  (forall x y, BS_row0_dx (jet_v par u x y) (v x y) (jet_of par p x y) (at_v par (neg_v (div_t (stress u p))) x y) = dF x y + dG x y) /\
  forall n1 n2 x y, F x y * n1 + G x y * n2 =
    (at_ par (fst (fst (stress u p))) x y * n1 + at_ par (snd (fst (stress u p))) x y * n2) * va (fst (v x y)) +
    (at_ par (fst (snd (stress u p))) x y * n1 + at_ par (snd (snd (stress u p))) x y * n2) * va (snd (v x y)).
Proof.
  intros [(V11 & V12 & C11 & C12 & C13) (V21 & V22 & C21 & C22 & C23)]. pose (s := stress u p).
  exists (fun x y => at_ par (fst (fst s)) x y * va (fst (v x y)) + at_ par (fst (snd s)) x y * va (snd (v x y))),
    (fun x y => at_ par (snd (fst s)) x y * va (fst (v x y)) + at_ par (snd (snd s)) x y * va (snd (v x y))). eexists _, _, _.
  split; [split; derive |]. split; [derive |]. split; [repeat split; continuous |]. split.
  - intros x y. unfold BS_row0_dx, s, stress, add_id, scale. destruct u as [u1 u2]. forms. autorewrite with at_. field.
  - intros. fold s. ring.
Qed.
Lemma side_cases t x y : on_side t x y -> t = 1%nat \/ t = 2%nat \/ t = 3%nat \/ t = 4%nat.
Proof. destruct t as [| [| [| [| [| t]]]]]; intros [_ H]; try contradiction; tauto. Qed.
