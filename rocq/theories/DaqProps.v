(** C120 and C121: the problem of d'Angelo and Quarteroni, and that with a value at a point *)
From Coq Require Import Lra Lia.
From Verif Require Import VesselProofs LayerProofs DaqModel.
Local Open Scope R_scope.

Section Daq.
Variables (n3 n nT : nat) (g3 m3 g1 m1 mT mTV avg tr : nat -> nat -> R) (bfT bfQ : nat -> R).
Hypothesis (G3 : square n3 g3) (M3 : norm n3 m3) (G1 : square n g1) (M1 : norm n m1) (MT : square nT mT).
Notation Avg := (Pi n3 avg).
Notation Tr := (Pi n3 tr).
Notation Row0 := (dq_row0 n3 n nT g3 m3 mT mTV avg tr).
Notation Row1 := (dq_row1 n3 n nT g1 m1 mTV avg).
Notation Solves := (dq_solves n3 n nT g3 m3 g1 m1 mT mTV avg tr bfT bfQ).
(** The integral over the curve of the product of t - p and s - p *)
Definition curve (t s p : fvec) : R := form nT nT mT t s - form nT n mTV s p - form nT n mTV t p + form n n m1 p p.

Theorem C120_energy u p : Row0 u p u + Row1 u p p =
  2 / 100 * form n3 n3 g3 u u + 1 / 100 * form n3 n3 m3 u u + 2 * form n n g1 p p + 1 / 100 * form n n m1 p p + 10 * curve (Avg u) (Tr u) p.
Proof. unfold dq_row0, dq_row1, Alpha1, Alpha0, alpha1, alpha0, beta, curve. field. Qed.
(** Symmetric if averages are traces *)
Theorem C120_symmetric_partial : (forall t j, (t < nT)%nat -> (j < n3)%nat -> avg t j = tr t j) -> forall u p v q, Row0 u p v + Row1 u p q = Row0 v q u + Row1 v q p.
Proof.
  intros E u p v q. assert (S : forall x, same nT (Avg x) (Tr x)) by (intros x t Ht; unfold Pi; apply rsum_ext; intros j Hj; rewrite (E t j Ht Hj); reflexivity).
  unfold dq_row0, dq_row1. rewrite !(form_same nT nT mT _ _ _ (S _)), !(form_same nT n mTV _ _ _ (S _)), (proj1 G3 u v), (proj1 (proj1 M3) u v), (proj1 G1 p q), (proj1 (proj1 M1) p q), (proj1 MT (Tr u) (Tr v)). ring.
Qed.
(** Positive, and so at most one solution, if averages are near traces: 10/4 |average - trace|^2 is less than the energy of the tissue *)
Definition near : Prop := (forall t p, 0 <= form nT nT mT t t - 2 * form nT n mTV t p + form n n m1 p p) /\
  exists r, r < 1 /\ forall u, 10 / 4 * form nT nT mT (minus (Avg u) (Tr u)) (minus (Avg u) (Tr u)) <= r * (2 / 100 * form n3 n3 g3 u u + 1 / 100 * form n3 n3 m3 u u).
Theorem C120_positive_partial u p : near -> 0 <= Row0 u p u + Row1 u p p /\ (Row0 u p u + Row1 u p p = 0 -> null n3 u /\ null n p).
Proof.
  intros (J & r & Hr & N). rewrite C120_energy. specialize (N u). pose proof (J (fun t => 1 / 2 * Avg u t + 1 / 2 * Tr u t) p) as H. rewrite !form_lin_l, !form_lin_r in H. rewrite form_minus_l, !form_minus_r in N. rewrite (proj1 MT (Tr u) (Avg u)) in *.
  pose proof (proj2 G3 u) as A1. pose proof (proj2 (proj1 M3) u) as A2. pose proof (proj2 G1 p) as A3. pose proof (proj2 (proj1 M1) p) as A4. set (E := 2 / 100 * form n3 n3 g3 u u + 1 / 100 * form n3 n3 m3 u u) in *.
  assert (HE : 0 <= E) by (unfold E; lra). assert (K : 0 <= (1 - r) * E) by (apply Rmult_le_pos; lra).
  assert (F : (1 - r) * E + 2 * form n n g1 p p + 1 / 100 * form n n m1 p p <= E + 2 * form n n g1 p p + 1 / 100 * form n n m1 p p + 10 * curve (Avg u) (Tr u) p) by (unfold curve; lra).
  split; [lra |]. intros Z. split.
  - assert (KE : (1 - r) * E = 0) by lra. apply Rmult_integral in KE. destruct KE as [KE | KE]; [lra |]. apply (proj2 M3). unfold E in KE. lra.
  - apply (proj2 M1). lra.
Qed.
Lemma dq_minus u p u' p' v q : Row0 (minus u u') (minus p p') v = Row0 u p v - Row0 u' p' v /\ Row1 (minus u u') (minus p p') q = Row1 u p q - Row1 u' p' q.
Proof.
  unfold dq_row0, dq_row1. rewrite (form_same nT nT mT _ _ (Tr v) (Pi_same n3 nT avg u u')), (form_same nT n mTV _ _ q (Pi_same n3 nT avg u u')), !form_minus_l, !form_minus_r. split; ring.
Qed.
Theorem C120_unique_partial u p u' p' : near -> Solves u p -> Solves u' p' -> same n3 u u' /\ same n p p'.
Proof.
  intros N [A0 A1] [B0 B1]. destruct (C120_positive_partial (minus u u') (minus p p') N) as [_ P]. destruct (dq_minus u p u' p' (minus u u') (minus p p')) as [M0 M1']. rewrite M0, M1', A0, A1, B0, B1 in P.
  destruct P as [Pu Pp]; [ring |]. split; apply null_same; assumption.
Qed.
End Daq.
Print Assumptions C120_energy.
Print Assumptions C120_symmetric_partial.
Print Assumptions C120_positive_partial.
Print Assumptions C120_unique_partial.

(** Two functions on the tissue, the average is the value at the first node and the trace that at the second *)
Definition w_mass (i j : nat) : R := if Nat.eqb i j then 2 * (1000 / 3003) else 1000 / 3003.
Definition w_at (k t j : nat) : R := if Nat.eqb j k then 1 else 0.
Notation e0 := (fun _ _ : nat => 0).
Notation e1 := (fun _ _ : nat => 1).
Lemma w_mass_norm : norm 2 w_mass.
Proof.
  assert (F : forall x, form 2 2 w_mass x x = 1000 / 3003 * (x 0%nat * x 0%nat + x 1%nat * x 1%nat + (x 0%nat + x 1%nat) * (x 0%nat + x 1%nat))) by (intros; unfold form, w_mass; cbn; field).
  assert (Q : forall t, 0 <= t * t) by (intros t; nra). repeat split.
  - intros x y. unfold form, w_mass. cbn. field.
  - intros x. rewrite F. pose proof (Q (x 0%nat)). pose proof (Q (x 1%nat)). pose proof (Q (x 0%nat + x 1%nat)). lra.
  - intros x E i Hi. rewrite F in E. pose proof (Q (x 0%nat)). pose proof (Q (x 1%nat)). pose proof (Q (x 0%nat + x 1%nat)). apply Rsqr_0_uniq. unfold Rsqr. destruct i as [| [| i]]; [lra | lra | lia].
Qed.
Lemma one_norm : norm 1 e1.
Proof.
  assert (F : forall x y, form 1 1 e1 x y = x 0%nat * y 0%nat) by (intros; unfold form; cbn; ring). repeat split.
  - intros x y. rewrite !F. ring.
  - intros x. rewrite F. nra.
  - intros x E i Hi. rewrite F in E. replace i with 0%nat by lia. apply Rsqr_0_uniq. exact E.
Qed.
Lemma zero_square k : square k e0.
Proof. assert (F : forall x y, form k k e0 x y = 0) by (intros; unfold form; apply rsum_zero; intros; apply rsum_zero; intros; ring). split; [intros x y; rewrite !F; reflexivity | intros x; rewrite F; lra]. Qed.
(** The matrix is singular: with averages and traces that are values at points, and the constants of the script *)
Theorem C120_unique_refuted : exists u p, ~ null 1 p /\ dq_solves 2 1 1 e0 w_mass e0 e1 e1 e1 (w_at 0) (w_at 1) (fun _ => 0) (fun _ => 0) u p.
Proof.
  exists (fun i => if Nat.eqb i 0 then 1001 / 1000 else - (1001 / 500)), (fun _ => 1). split; [intros N; specialize (N 0%nat (Nat.lt_0_succ 0)); lra |].
  split; intros v; unfold dq_row0, dq_row1, Alpha1, Alpha0, alpha1, alpha0, beta, form, lin, Pi, w_mass, w_at; cbn; field.
Qed.
(** and not symmetric *)
Theorem C120_symmetric_refuted : exists u p v q, dq_row0 2 1 1 e0 w_mass e1 e1 (w_at 0) (w_at 1) u p v + dq_row1 2 1 1 e0 e1 e1 (w_at 0) u p q <>
  dq_row0 2 1 1 e0 w_mass e1 e1 (w_at 0) (w_at 1) v q u + dq_row1 2 1 1 e0 e1 e1 (w_at 0) v q p.
Proof.
  exists (fun i => if Nat.eqb i 0 then 1 else 0), (fun _ => 0), (fun i => if Nat.eqb i 1 then 1 else 0), (fun _ => 0).
  unfold dq_row0, dq_row1, Alpha1, Alpha0, alpha1, alpha0, beta, form, lin, Pi, w_mass, w_at. cbn. lra.
Qed.
Print Assumptions C120_unique_refuted.
Print Assumptions C120_symmetric_refuted.
(** Averages at the node of the trace are near *)
Example ex_near : near 2 1 1 e0 w_mass e1 e1 e1 (w_at 0) (w_at 0).
Proof.
  split; [intros t p; unfold form; cbn; pose proof (Rle_0_sqr (t 0%nat - p 0%nat)) as Q; unfold Rsqr in Q; lra |]. exists 0. split; [lra |]. intros u. unfold form, minus, Pi, w_at. cbn. lra.
Qed.
Example ex_solves : dq_solves 2 1 1 e0 w_mass e0 e1 e1 e1 (w_at 0) (w_at 0) (fun _ => 0) (fun _ => 0) (fun _ => 0) (fun _ => 0).
Proof. split; intros v; unfold dq_row0, dq_row1, Alpha1, Alpha0, alpha1, alpha0, beta, form, lin, Pi, w_mass, w_at; cbn; ring. Qed.

(** ** dirac_2d.py *)
Section Dirac.
Variables (n : nat) (g m dlt : nat -> nat -> R) (volume : R) (bf : nat -> R) (gv : nat -> R).
Hypothesis (G : square n g) (M : norm n m) (V : 0 < volume).
Notation Solves := (di_solves n g m dlt volume bf gv).
(** u(x0) = g *)
Definition di_state (u : fvec) : Prop := Pi n dlt u 0%nat = gv 0%nat /\ Pi n dlt u 1%nat = gv 1%nat.
Definition di_cost (u : fvec) : R := 1 / 2 * (form n n g u u + form n n m u u) - lin n bf u.
Lemma di_state_of u p : Solves u p -> di_state u.
Proof.
  intros [_ H]. assert (K : forall i, (i < 2)%nat -> Pi n dlt u i = gv i).
  { intros i Hi. specialize (H (fun k => if Nat.eqb k i then 1 else 0)). unfold di_row1 in H. apply Rmult_eq_reg_l in H; [| lra]. cbn [rsum] in H. destruct i as [| [| i]]; cbn in H; [lra | lra | lia]. }
  split; apply K; lia.
Qed.
(** The solution is the minimum with the value given at the point *)
Theorem C121_optimal u p : Solves u p -> di_state u /\ forall v, di_state v -> di_cost u <= di_cost v.
Proof.
  intros H. pose proof (di_state_of u p H) as S. split; [exact S |]. intros v S'. destruct H as [H _].
  pose proof (energy_along n g u v (proj1 G)) as A. pose proof (energy_along n m u v (proj1 (proj1 M))) as B. pose proof (energy_pos n g (minus v u) (proj2 G)) as P. pose proof (energy_pos n m (minus v u) (proj2 (proj1 M))) as Q. unfold energy in *.
  pose proof (H v) as Hv. pose proof (H u) as Hu. unfold di_row0 in Hv, Hu. cbn [rsum] in Hv, Hu. destruct S as [S0 S1]. destruct S' as [T0 T1]. rewrite S0, S1 in Hu. rewrite T0, T1 in Hv. unfold di_cost. lra.
Qed.
(** It is the only one, and so is the force if some function of V has given values at the point *)
Theorem C121_unique u p u' p' : Solves u p -> Solves u' p' -> same n u u' /\ ((forall a b, exists v, Pi n dlt v 0%nat = a /\ Pi n dlt v 1%nat = b) -> same 2 p p').
Proof.
  intros H H'. pose proof (di_state_of u p H) as [S0 S1]. pose proof (di_state_of u' p' H') as [T0 T1]. destruct H as [H _]. destruct H' as [H' _]. set (d := minus u u').
  assert (D : forall k, Pi n dlt d k = Pi n dlt u k - Pi n dlt u' k) by (intros k; unfold d; rewrite Pi_minus; reflexivity).
  assert (E : forall v, form n n g d v + form n n m d v + volume * (Pi n dlt v 0%nat * (p 0%nat - p' 0%nat) + Pi n dlt v 1%nat * (p 1%nat - p' 1%nat)) = 0).
  { intros v. pose proof (H v) as X. pose proof (H' v) as Y. unfold di_row0 in X, Y. cbn [rsum] in X, Y. unfold d. rewrite !form_minus_l. lra. }
  assert (N : null n d). { apply (proj2 M). pose proof (E d) as X. rewrite !D, S0, S1, T0, T1 in X. pose proof (proj2 G d). pose proof (proj2 (proj1 M) d). lra. }
  split; [apply null_same; exact N |]. intros On. destruct (On (p 0%nat - p' 0%nat) (p 1%nat - p' 1%nat)) as (v & V0 & V1). specialize (E v). rewrite (form_null n n g), (form_null n n m), V0, V1 in E by exact N.
  set (a := p 0%nat - p' 0%nat) in *. set (b := p 1%nat - p' 1%nat) in *. pose proof (Rle_0_sqr a) as Qa. pose proof (Rle_0_sqr b) as Qb. unfold Rsqr in Qa, Qb.
  assert (K : volume * (a * a + b * b) = 0) by lra. apply Rmult_integral in K. destruct K as [K | K]; [lra |]. assert (Za : a = 0) by (apply Rsqr_0_uniq; unfold Rsqr; lra). assert (Zb : b = 0) by (apply Rsqr_0_uniq; unfold Rsqr; lra).
  intros i Hi. destruct i as [| [| i]]; [unfold a in Za; lra | unfold b in Zb; lra | lia].
Qed.
(** The volume of the mesh scales the force only *)
Theorem C121_volume u p : Solves u p <-> di_solves n g m dlt 1 bf gv u (fun k => volume * p k).
Proof.
  split; intros [H0 H1]; split; intros v.
  - rewrite <- H0. unfold di_row0. cbn [rsum]. ring.
  - specialize (H1 v). unfold di_row1 in *. apply Rmult_eq_reg_l in H1; [| lra]. rewrite H1. reflexivity.
  - rewrite <- H0. unfold di_row0. cbn [rsum]. ring.
  - specialize (H1 v). unfold di_row1 in *. rewrite !Rmult_1_l in H1. rewrite H1. reflexivity.
Qed.
End Dirac.
Print Assumptions C121_optimal.
Print Assumptions C121_unique.
Print Assumptions C121_volume.
(** Two functions with the values (1, 0) and (0, 1) at the point: without f a force of - g is needed *)
Definition w_id (i j : nat) : R := if Nat.eqb i j then 1 else 0.
Example ex_point : norm 2 w_id /\ (forall a b, exists v, Pi 2 w_id v 0%nat = a /\ Pi 2 w_id v 1%nat = b) /\ di_solves 2 e0 w_id w_id 1 (fun _ => 0) (fun k => INR k + 1) (fun k => INR k + 1) (fun k => - (INR k + 1)).
Proof.
  split; [| split].
  - assert (F : forall x y, form 2 2 w_id x y = x 0%nat * y 0%nat + x 1%nat * y 1%nat) by (intros; unfold form, w_id; cbn; ring). repeat split.
    + intros x y. rewrite !F. ring.
    + intros x. rewrite F. pose proof (Rle_0_sqr (x 0%nat)) as A. pose proof (Rle_0_sqr (x 1%nat)) as B. unfold Rsqr in *. lra.
    + intros x E i Hi. rewrite F in E. pose proof (Rle_0_sqr (x 0%nat)) as A. pose proof (Rle_0_sqr (x 1%nat)) as B. unfold Rsqr in *. apply Rsqr_0_uniq. unfold Rsqr. destruct i as [| [| i]]; [lra | lra | lia].
  - intros a b. exists (fun k => if Nat.eqb k 0 then a else b). unfold Pi, w_id. cbn. lra.
  - split; intros v; unfold di_row0, di_row1, form, lin, Pi, w_id; cbn; ring.
Qed.
