(** C118: coupled 3d-1d problems with and without a multiplier *)
From Coq Require Import Lra Lia.
From Verif Require Import VesselModel VesselProofs.
Local Open Scope R_scope.

Section Systems.
Variables (n3 n nT : nat) (g3 m3 s3 g1 m1 s1 mT mTV : nat -> nat -> R) (avg : nat -> nat -> R) (bf bg : nat -> R).
Variables (k3d k1d kG kbdry radius : R).
Hypothesis I : integrals n3 n nT g3 m3 s3 g1 m1 s1 mT mTV.
Hypothesis K : 0 < k3d /\ 0 < k1d /\ 0 < kG /\ 0 < kbdry /\ 0 < radius.
Notation Avg := (Pi n3 avg).
Notation NH0 := (nh_row0 n3 n nT g3 s3 mT mTV avg k3d kG kbdry radius).
Notation NH1 := (nh_row1 n3 n nT g1 m1 s1 mTV avg k1d kG radius).
Notation HM0 := (hm_row0 n3 n nT g3 s3 mTV avg k3d kbdry).
Notation HM1 := (hm_row1 n g1 m1 s1 k1d radius).
Notation HM2 := (hm_row2 n3 n nT m1 mTV avg kG radius).
Notation NH := (nh_solves n3 n nT g3 s3 g1 m1 s1 mT mTV avg bf bg k3d k1d kG kbdry radius).
Notation HM := (hm_solves n3 n nT g3 s3 g1 m1 s1 mTV avg bf bg k3d k1d kG kbdry radius).

(** AA*b and AA.transpmult(b) are the same *)
Theorem C118_symmetric : (forall u3 u v3 v, NH0 u3 u v3 + NH1 u3 u v = NH0 v3 v u3 + NH1 v3 v u) /\
  forall u3 u p v3 v q, HM0 u3 u p v3 + HM1 u3 u p v + HM2 u3 u p q = HM0 v3 v q u3 + HM1 v3 v q u + HM2 v3 v q p.
Proof.
  destruct I as [[G3 _] _ [S3 _] [G1 _] [M1 _] [S1 _] ST _ _ _]. split.
  - intros u3 u v3 v. unfold nh_row0, nh_row1. rewrite (G3 u3 v3), (S3 u3 v3), (ST (Avg u3) (Avg v3)), (G1 u v), (S1 u v), (M1 u v). ring.
  - intros u3 u p v3 v q. unfold hm_row0, hm_row1, hm_row2. rewrite (G3 u3 v3), (S3 u3 v3), (G1 u v), (S1 u v), (M1 q p), (M1 p v), (M1 q u). ring.
Qed.

(** The energy of the system without multiplier, and that it is positive for every radius *)
Theorem C118_energy u3 u : NH0 u3 u u3 + NH1 u3 u u =
  k3d * form n3 n3 g3 u3 u3 + kbdry * form n3 n3 s3 u3 u3 + PI * radius ^ 2 * k1d * form n n g1 u u + form n n s1 u u +
  2 * PI * radius * kG * (form nT nT mT (Avg u3) (Avg u3) - 2 * form nT n mTV (Avg u3) u + form n n m1 u u).
Proof. unfold nh_row0, nh_row1. ring. Qed.
Lemma pos_c : 0 < 2 * PI * radius * kG.
Proof. pose proof PI_RGT_0. destruct K as (_ & _ & Kg & _ & Kr). apply Rmult_lt_0_compat; [apply Rmult_lt_0_compat; [lra | exact Kr] | exact Kg]. Qed.
Lemma pos_d : 0 < PI * radius ^ 2 * k1d.
Proof. pose proof PI_RGT_0. destruct K as (_ & K1 & _ & _ & Kr). apply Rmult_lt_0_compat; [apply Rmult_lt_0_compat; [lra | apply pow_lt, Kr] | exact K1]. Qed.
Theorem C118_positive u3 u : 0 <= NH0 u3 u u3 + NH1 u3 u u /\ (NH0 u3 u u3 + NH1 u3 u u = 0 <-> null n3 u3 /\ null n u).
Proof.
  rewrite C118_energy. pose proof pos_c as C. pose proof pos_d as D. destruct I as [[_ G3] _ [_ S3] [_ G1] [_ M1] [_ S1] _ J D3 D1]. destruct K as (K3 & _ & _ & Kb & _).
  pose proof (Rmult_le_pos _ _ (Rlt_le _ _ K3) (G3 u3)) as A1. pose proof (Rmult_le_pos _ _ (Rlt_le _ _ Kb) (S3 u3)) as A2. pose proof (Rmult_le_pos _ _ (Rlt_le _ _ D) (G1 u)) as A3.
  pose proof (S1 u) as A4. pose proof (Rmult_le_pos _ _ (Rlt_le _ _ C) (J (Avg u3) u)) as A5.
  split; [lra |]. split.
  - intros E. assert (E1 : k3d * form n3 n3 g3 u3 u3 = 0) by lra. assert (E2 : kbdry * form n3 n3 s3 u3 u3 = 0) by lra.
    assert (E5 : 2 * PI * radius * kG * (form nT nT mT (Avg u3) (Avg u3) - 2 * form nT n mTV (Avg u3) u + form n n m1 u u) = 0) by lra.
    apply Rmult_integral in E1, E2, E5. destruct E1 as [E1 | E1]; [lra |]. destruct E2 as [E2 | E2]; [lra |]. destruct E5 as [E5 | E5]; [lra |].
    assert (N3 : null n3 u3) by (apply D3; assumption). split; [exact N3 |]. apply D1. rewrite (form_null nT nT mT), (form_null nT n mTV) in E5 by (apply Pi_null; exact N3). lra.
  - intros [N3 N1]. rewrite (form_null n3 n3 g3), (form_null n3 n3 s3), (form_null n n g1), (form_null n n s1), (form_null n n m1), (form_null nT nT mT), (form_null nT n mTV); [ring | ..]; try assumption; apply Pi_null; exact N3.
Qed.
(** So there is at most one solution *)
Lemma nh_minus u3 u u3' u' v3 v : NH0 (minus u3 u3') (minus u u') v3 = NH0 u3 u v3 - NH0 u3' u' v3 /\ NH1 (minus u3 u3') (minus u u') v = NH1 u3 u v - NH1 u3' u' v.
Proof.
  unfold nh_row0, nh_row1. rewrite (form_same nT nT mT _ _ (Avg v3) (Pi_same n3 nT avg u3 u3')), (form_same nT n mTV _ _ v (Pi_same n3 nT avg u3 u3')).
  rewrite !form_minus_l, !form_minus_r. split; ring.
Qed.
Theorem C118_unique u3 u u3' u' : NH u3 u -> NH u3' u' -> same n3 u3 u3' /\ same n u u'.
Proof.
  intros [A0 A1] [B0 B1]. destruct (C118_positive (minus u3 u3') (minus u u')) as [_ [P _]].
  destruct (nh_minus u3 u u3' u' (minus u3 u3') (minus u u')) as [M0 M1]. rewrite M0, M1, A0, A1, B0, B1 in P. destruct P as [P3 P1]; [ring |]. split; apply null_same; assumption.
Qed.
(** The solution is what has the least energy *)
Theorem C118_minimal u3 u v3 v : NH u3 u ->
  let E w3 w := 1 / 2 * (NH0 w3 w w3 + NH1 w3 w w) - kbdry * rsum n3 (fun i => bf i * w3 i) - kbdry * rsum n (fun i => bg i * w i) in E u3 u <= E v3 v.
Proof.
  intros [A0 A1] E. unfold E. clear E. unfold L0, L1, lin in A0, A1. destruct (C118_positive (minus v3 u3) (minus v u)) as [P _]. destruct (nh_minus v3 v u3 u (minus v3 u3) (minus v u)) as [M0 M1]. rewrite M0, M1 in P.
  destruct (proj1 C118_symmetric v3 v u3 u). 
  assert (T : forall w3 w a3 a b3 b, NH0 w3 w (minus a3 b3) = NH0 w3 w a3 - NH0 w3 w b3 /\ NH1 w3 w (minus a b) = NH1 w3 w a - NH1 w3 w b).
  { intros w3 w a3 a b3 b. unfold nh_row0, nh_row1. rewrite (form_same_r nT nT mT _ _ (Avg w3) (Pi_same n3 nT avg a3 b3)), (form_same nT n mTV _ _ w (Pi_same n3 nT avg a3 b3)). rewrite !form_minus_l, !form_minus_r. split; ring. }
  destruct (T v3 v v3 v u3 u) as [T0 T1]. destruct (T u3 u v3 v u3 u) as [U0 U1]. rewrite T0, T1, U0, U1 in P. pose proof (proj1 C118_symmetric v3 v u3 u) as S. rewrite !A0, !A1 in *. lra.
Qed.

(** ** The multiplier *)
(** The multiplier is the flux through the wall: 2 pi r kG times u less the projection of the average *)
Definition projection (t z : fvec) : Prop := forall x, form n n m1 z x = form nT n mTV t x.
Lemma c_inv : 2 * PI * radius * kG * p_const kG radius = 1.
Proof. pose proof pos_c. unfold p_const. field. destruct K as (_ & _ & Kg & _ & Kr). pose proof PI_RGT_0. repeat split; lra. Qed.
Theorem C118_flux u3 u p z : HM u3 u p -> projection (Avg u3) z -> same n p (fun i => 2 * PI * radius * kG * (u i - z i)).
Proof.
  intros (_ & _ & H2) Z. apply null_same. apply (i_1 _ _ _ _ _ _ _ _ _ _ _ I). set (d := minus p _).
  assert (E : forall q, form n n m1 d q = 0).
  { intros q. specialize (H2 q). unfold hm_row2 in H2. pose proof (proj1 (i_m1 _ _ _ _ _ _ _ _ _ _ _ I)) as S. rewrite (S q u), <- Z in H2. unfold d. rewrite form_minus_l.
    rewrite (form_scale_l n n m1 (2 * PI * radius * kG) (fun i => u i - z i) q). change (fun i => u i - z i) with (minus u z). rewrite form_minus_l. pose proof c_inv as C.
    transitivity (2 * PI * radius * kG * p_const kG radius * form n n m1 p q - 2 * PI * radius * kG * (form n n m1 u q - form n n m1 z q)); [rewrite C; ring |].
    transitivity (- (2 * PI * radius * kG) * (- form n n m1 z q + form n n m1 u q + - p_const kG radius * form n n m1 p q)); [ring | rewrite H2; ring]. }
  apply E.
Qed.
(** Without the multiplier the residual is the part of the average that the multipliers do not see *)
Theorem C118_difference u3 u p z : HM u3 u p -> projection (Avg u3) z ->
  (forall v3, NH0 u3 u v3 = L0 n3 bf kbdry v3 + 2 * PI * radius * kG * (form nT nT mT (Avg u3) (Avg v3) - form nT n mTV (Avg v3) z)) /\ forall v, NH1 u3 u v = L1 n bg kbdry v.
Proof.
  intros H Z. pose proof (C118_flux u3 u p z H Z) as F. destruct H as (H0 & H1 & _). split.
  - intros v3. rewrite <- H0. unfold nh_row0, hm_row0. rewrite (form_same_r nT n mTV _ _ (Avg v3) F), (form_scale_r nT n mTV (2 * PI * radius * kG) (fun i => u i - z i)). change (fun i => u i - z i) with (minus u z). rewrite form_minus_r. ring.
  - intros v. rewrite <- H1. unfold nh_row1, hm_row1. rewrite (form_same n n m1 _ _ v F), (form_scale_l n n m1 (2 * PI * radius * kG) (fun i => u i - z i)). change (fun i => u i - z i) with (minus u z). rewrite form_minus_l, <- (Z v). ring.
Qed.
(** If the average of u3 is among the functions of the multiplier the problems have the same solutions *)
Definition among (u3 z : fvec) : Prop := projection (Avg u3) z /\ forall t, form nT nT mT (Avg u3) t = form nT n mTV t z.
Theorem C118_eliminate_partial u3 u z : among u3 z -> ((exists p, HM u3 u p) <-> NH u3 u).
Proof.
  intros [Z A]. split.
  - intros [p H]. destruct (C118_difference u3 u p z H Z) as [D0 D1]. split; [| exact D1]. intros v3. rewrite D0, A. ring.
  - intros [H0 H1]. exists (fun i => 2 * PI * radius * kG * (u i - z i)). repeat split.
    + intros v3. rewrite <- H0. unfold nh_row0, hm_row0. rewrite (form_scale_r nT n mTV (2 * PI * radius * kG) (fun i => u i - z i)). change (fun i => u i - z i) with (minus u z). rewrite form_minus_r, A. ring.
    + intros v. rewrite <- H1. unfold nh_row1, hm_row1. rewrite (form_scale_l n n m1 (2 * PI * radius * kG) (fun i => u i - z i)). change (fun i => u i - z i) with (minus u z). rewrite form_minus_l, (Z v). ring.
    + intros q. unfold hm_row2. rewrite (form_scale_l n n m1 (2 * PI * radius * kG) (fun i => u i - z i)). change (fun i => u i - z i) with (minus u z). rewrite form_minus_l, (Z q), (proj1 (i_m1 _ _ _ _ _ _ _ _ _ _ _ I) q u). pose proof c_inv as C.
      transitivity ((1 - 2 * PI * radius * kG * p_const kG radius) * (form n n m1 u q - form nT n mTV (Avg u3) q)); [ring | rewrite C; ring].
Qed.
(** The system with multiplier has at most one solution and is not definite *)
Theorem C118_multiplier_unique u3 u p u3' u' p' z : HM u3 u p -> HM u3' u' p' -> projection (Avg (minus u3 u3')) z -> same n3 u3 u3' /\ same n u u' /\ same n p p'.
Proof.
  intros (A0 & A1 & A2) (B0 & B1 & B2) Z. set (d3 := minus u3 u3') in *. set (d := minus u u'). set (e := minus p p').
  assert (E0 : forall v3, HM0 d3 d e v3 = 0). { intros v3. transitivity (HM0 u3 u p v3 - HM0 u3' u' p' v3); [unfold hm_row0, d3, e; rewrite !form_minus_l, form_minus_r; ring | rewrite A0, B0; ring]. }
  assert (E1 : forall v, HM1 d3 d e v = 0). { intros v. transitivity (HM1 u3 u p v - HM1 u3' u' p' v); [unfold hm_row1, d, e; rewrite !form_minus_l; ring | rewrite A1, B1; ring]. }
  assert (E2 : forall q, HM2 d3 d e q = 0). { intros q. transitivity (HM2 u3 u p q - HM2 u3' u' p' q); [unfold hm_row2, d3, d, e; rewrite (form_same nT n mTV _ _ q (Pi_same n3 nT avg u3 u3')); rewrite !form_minus_l, form_minus_r; ring | rewrite A2, B2; ring]. }
  pose proof (E0 d3) as F0. pose proof (E1 d) as F1. pose proof (E2 e) as F2. unfold hm_row0 in F0. unfold hm_row1 in F1. unfold hm_row2 in F2. pose proof pos_c as C. pose proof pos_d as Dp. pose proof c_inv as Ci.
  destruct I as [[_ G3] _ [_ S3] [_ G1] [_ M1] [_ S1] _ _ D3 D1]. destruct K as (K3 & _ & _ & Kb & _).
  assert (Pp : 0 < p_const kG radius) by (unfold p_const; apply Rdiv_lt_0_compat; lra).
  pose proof (Rmult_le_pos _ _ (Rlt_le _ _ K3) (G3 d3)) as P1. pose proof (Rmult_le_pos _ _ (Rlt_le _ _ Kb) (S3 d3)) as P2. pose proof (Rmult_le_pos _ _ (Rlt_le _ _ Dp) (G1 d)) as P3.
  pose proof (S1 d) as P4. pose proof (Rmult_le_pos _ _ (Rlt_le _ _ Pp) (M1 e)) as P5.
  assert (N3 : null n3 d3).
  { assert (Q1 : k3d * form n3 n3 g3 d3 d3 = 0) by lra. assert (Q2 : kbdry * form n3 n3 s3 d3 d3 = 0) by lra. apply Rmult_integral in Q1, Q2. destruct Q1 as [Q1 | Q1]; [lra |]. destruct Q2 as [Q2 | Q2]; [lra |]. apply D3; assumption. }
  assert (Ne : null n e). { apply D1. assert (Q : p_const kG radius * form n n m1 e e = 0) by lra. apply Rmult_integral in Q. destruct Q as [Q | Q]; lra. }
  assert (Nd : null n d). { apply D1. specialize (E2 d). unfold hm_row2 in E2. rewrite (form_null nT n mTV _ d (Pi_null n3 nT avg d3 N3)), (form_null n n m1 e d Ne) in E2. lra. }
  repeat split; apply null_same; assumption.
Qed.
Theorem C118_indefinite p : ~ null n p -> HM0 (fun _ => 0) (fun _ => 0) p (fun _ => 0) + HM1 (fun _ => 0) (fun _ => 0) p (fun _ => 0) + HM2 (fun _ => 0) (fun _ => 0) p p < 0.
Proof.
  intros N. assert (Z : forall k, null k (fun _ => 0)) by (intros k i _; reflexivity). unfold hm_row0, hm_row1, hm_row2.
  rewrite !(form_null n3 n3), !(form_null n n _ (fun _ => 0)), !(form_null nT n), (form_null_r n n m1 (fun _ => 0)) by (apply Z || apply Pi_null, Z).
  pose proof pos_c as C. assert (Pp : 0 < p_const kG radius) by (unfold p_const; apply Rdiv_lt_0_compat; lra).
  assert (M : 0 < form n n m1 p p). { destruct (Rle_lt_or_eq_dec _ _ (proj2 (i_m1 _ _ _ _ _ _ _ _ _ _ _ I) p)) as [L | L]; [exact L | exfalso]. apply N, (i_1 _ _ _ _ _ _ _ _ _ _ _ I). symmetry. exact L. }
  pose proof (Rmult_lt_0_compat _ _ Pp M). lra.
Qed.

(** ** Preconditioners *)
Definition definite (k : nat) (B : fvec -> fvec -> R) : Prop := (forall x y, B x y = B y x) /\ forall x, 0 <= B x x /\ (B x x = 0 -> null k x).
Theorem C118_preconditioners : (forall x, form n3 n3 m3 x x = 0 -> null n3 x) -> nonneg nT mT ->
  (forall x, pc_H1 n3 g3 m3 x x = form n3 n3 g3 x x + form n3 n3 m3 x x /\ pc_A n3 nT g3 m3 mT avg radius x x = form n3 n3 g3 x x + form n3 n3 m3 x x + 2 * PI * radius * form nT nT mT (Avg x) (Avg x) /\
    pc_1d n g1 m1 radius x x = PI * radius ^ 2 * form n n g1 x x + form n n m1 x x /\ pc_robin3 n3 g3 s3 x x = form n3 n3 g3 x x + form n3 n3 s3 x x /\ pc_robin1 n g1 s1 x x = form n n g1 x x + form n n s1 x x) /\
  definite n3 (pc_H1 n3 g3 m3) /\ definite n3 (pc_A n3 nT g3 m3 mT avg radius) /\ definite n (pc_1d n g1 m1 radius) /\ definite n3 (pc_robin3 n3 g3 s3).
Proof.
  intros D M. split; [intros x; repeat split; reflexivity |]. pose proof PI_RGT_0 as HP. destruct I as [[SG3 G3] [SM3 M3] [SS3 S3] [SG1 G1] [SM1 M1] [_ S1] ST _ D3 D1]. destruct K as (K3 & K1 & Kg & Kb & Kr).
  assert (R2 : 0 <= PI * radius ^ 2) by (apply Rmult_le_pos; [lra | apply pow_le; lra]). assert (R1 : 0 <= 2 * PI * radius) by (apply Rmult_le_pos; lra).
  split; [| split; [| split]]; (split; [intros x y | intros x; pose proof (G3 x); pose proof (M3 x); pose proof (S3 x); pose proof (G1 x); pose proof (M1 x); pose proof (M (Avg x)) as MA]).
  - unfold pc_H1. rewrite SG3, SM3. reflexivity.
  - unfold pc_H1. split; [lra |]. intros E. apply D. lra.
  - unfold pc_A, pc_H1. rewrite SG3, SM3, (ST (Avg x)). reflexivity.
  - unfold pc_A, pc_H1. pose proof (Rmult_le_pos _ _ R1 MA). split; [lra |]. intros E. apply D. lra.
  - unfold pc_1d. rewrite SG1, SM1. reflexivity.
  - unfold pc_1d. pose proof (Rmult_le_pos _ _ R2 (G1 x)). split; [lra |]. intros E. apply D1. lra.
  - unfold pc_robin3. rewrite SG3, SS3. reflexivity.
  - unfold pc_robin3. split; [lra |]. intros E. apply D3; lra.
Qed.
(** The blocks given to AMG in has_multiplier.py bound those of the system from both sides, by constants only *)
Lemma two_bounds a b x y : 0 <= x -> 0 <= y -> Rmin a b * (x + y) <= a * x + b * y <= Rmax a b * (x + y).
Proof.
  intros X Y. pose proof (Rmult_le_compat_r x _ _ X (Rmin_l a b)). pose proof (Rmult_le_compat_r y _ _ Y (Rmin_r a b)). pose proof (Rmult_le_compat_r x _ _ X (Rmax_l a b)). pose proof (Rmult_le_compat_r y _ _ Y (Rmax_r a b)). lra.
Qed.
Theorem C118_spectral u3 u : Rmin k3d kbdry * pc_robin3 n3 g3 s3 u3 u3 <= HM0 u3 (fun _ => 0) (fun _ => 0) u3 <= Rmax k3d kbdry * pc_robin3 n3 g3 s3 u3 u3 /\
  Rmin (PI * radius ^ 2 * k1d) 1 * pc_robin1 n g1 s1 u u <= HM1 (fun _ => 0) u (fun _ => 0) u <= Rmax (PI * radius ^ 2 * k1d) 1 * pc_robin1 n g1 s1 u u.
Proof.
  destruct I as [[_ G3] _ [_ S3] [_ G1] _ [_ S1] _ _ _ _]. unfold hm_row0, hm_row1, pc_robin3, pc_robin1.
  rewrite (form_null_r nT n mTV (fun _ => 0) (Avg u3)) by (intros i Hi; reflexivity). rewrite (form_null n n m1 (fun _ => 0) u) by (intros i Hi; reflexivity).
  pose proof (two_bounds k3d kbdry _ _ (G3 u3) (S3 u3)). pose proof (two_bounds (PI * radius ^ 2 * k1d) 1 _ _ (G1 u) (S1 u)). lra.
Qed.
End Systems.

(** ** The average need not be among the multipliers *)
(** One function on the domain whose average is 1 on one half of the curve and 0 on the other, one function on the curve *)
Definition w_half (i j : nat) : R := if Nat.eqb i j then 1 / 2 else 0.
Definition w_avg (t j : nat) : R := if Nat.eqb t 0 then 1 else 0.
Notation c0 := (fun _ _ : nat => 0).
Notation c1 := (fun _ _ : nat => 1).
Lemma w_integrals : integrals 1 1 2 c0 c1 c1 c0 c1 c0 w_half (fun _ _ => 1 / 2).
Proof.
  assert (F : forall a x, form 1 1 (fun _ _ => a) x x = a * (x 0%nat * x 0%nat)) by (intros; unfold form; cbn; ring). assert (Q : forall t, 0 <= t * t) by (intros t; nra).
  split; try (split; [intros x y; unfold form; cbn; ring | intros x; rewrite F; pose proof (Q (x 0%nat)); lra]).
  - intros x y. unfold form. cbn. ring.
  - intros t x. unfold form. cbn. pose proof (Q (t 0%nat - x 0%nat)). pose proof (Q (t 1%nat - x 0%nat)). lra.
  - intros x _ E i Hi. rewrite F in E. replace i with 0%nat by lia. apply Rsqr_0_uniq. unfold Rsqr. lra.
  - intros x E i Hi. rewrite F in E. replace i with 0%nat by lia. apply Rsqr_0_uniq. unfold Rsqr. lra.
Qed.
Theorem C118_eliminate_refuted k3d k1d kG radius : 0 < kG -> 0 < radius ->
  exists u3 u p v3 v, hm_solves 1 1 2 c0 c1 c0 c1 c0 (fun _ _ => 1 / 2) w_avg (fun _ => 1) (fun _ => 0) k3d k1d kG 1 radius u3 u p /\
    nh_solves 1 1 2 c0 c1 c0 c1 c0 w_half (fun _ _ => 1 / 2) w_avg (fun _ => 1) (fun _ => 0) k3d k1d kG 1 radius v3 v /\ v3 0%nat < u3 0%nat /\ v 0%nat < u 0%nat.
Proof.
  intros Kg Kr. pose proof PI_RGT_0. set (c := 2 * PI * radius * kG). assert (C : 0 < c) by (unfold c; apply Rmult_lt_0_compat; [apply Rmult_lt_0_compat; lra | exact Kg]).
  exists (fun _ => 1), (fun _ => 1 / 2), (fun _ => 0), (fun _ => 1 / (1 + c / 4)), (fun _ => 1 / (1 + c / 4) / 2).
  assert (B : 1 / (1 + c / 4) < 1). { apply (Rmult_lt_reg_r (1 + c / 4)); [lra |]. unfold Rdiv at 1. rewrite Rmult_assoc, Rinv_l by lra. lra. }
  repeat split; [| | | | | lra | lra]; intros x; unfold hm_row0, hm_row1, hm_row2, nh_row0, nh_row1, L0, L1, lin, form, Pi, w_half, w_avg; cbn; [field .. | |]; try (fold c; field; lra).
Qed.
Print Assumptions C118_symmetric.
Print Assumptions C118_energy.
Print Assumptions C118_positive.
Print Assumptions C118_unique.
Print Assumptions C118_minimal.
Print Assumptions C118_flux.
Print Assumptions C118_difference.
Print Assumptions C118_eliminate_partial.
Print Assumptions C118_multiplier_unique.
Print Assumptions C118_indefinite.
Print Assumptions C118_preconditioners.
Print Assumptions C118_spectral.
Print Assumptions C118_eliminate_refuted.

(** Non-vacuity: the integrals are [w_integrals], solutions are in [C118_eliminate_refuted]; an average that is among the multipliers, and the constants *)
Example ex_among u3 : among 1 1 2 c1 w_half (fun _ _ => 1 / 2) c1 u3 u3.
Proof. split; intros x; unfold form, Pi, w_half; cbn; field. Qed.
Example ex_constants : let '(k3d, k1d, kG, kbdry) := K_CONSTANTS in (0 < k3d /\ 0 < k1d /\ 0 < kG /\ 0 < kbdry /\ 0 < 1 / 100) /\ p_const kG 1 = 1 / PI.
Proof. cbn. pose proof PI_RGT_0. split; [lra | unfold p_const; field; lra]. Qed.
Example ex_unsymmetric : ~ symmetric 2 (fun i j => if Nat.eqb i 0 && Nat.eqb j 1 then 1 else 0)%bool.
Proof. intros S. specialize (S (fun i => if Nat.eqb i 0 then 1 else 0) (fun i => if Nat.eqb i 1 then 1 else 0)). unfold form in S. cbn in S. lra. Qed.
