(** C119: problems coupled with multipliers *)
From Coq Require Import Lra Lia.
From Verif Require Import LayerModel VesselProofs LayerProofs.
Local Open Scope R_scope.

Section Layer.
Variables (n1 n2 nq : nat) (g1 m1 g2 m2 mO r1 r2 : nat -> nat -> R) (bf1 bf2 bg : nat -> R).
Hypothesis (G1 : square n1 g1) (M1 : norm n1 m1) (G2 : square n2 g2) (M2 : norm n2 m2) (MO : norm nq mO).
Notation Solves := (ly_solves n1 n2 nq g1 m1 g2 m2 mO r1 r2 bf1 bf2 bg).
(** R u1 - R u2 = g, tested with all multipliers *)
Definition layer_state (u1 u2 : fvec) : Prop := forall q, form nq nq mO (Pi n1 r1 u1) q - form nq nq mO (Pi n2 r2 u2) q = lin nq bg q.
(** a/2 |grad u1|^2 + 1/2 |u1|^2 + 1/2 |grad u2|^2 + 1/2 |u2|^2 - (f1, u1) - (f2, u2) *)
Definition layer_cost (a : R) (u1 u2 : fvec) : R := a * energy n1 g1 u1 + energy n1 m1 u1 + energy n2 g2 u2 + energy n2 m2 u2 - lin n1 bf1 u1 - lin n2 bf2 u2.
Definition layer_optimal (a : R) (u1 u2 : fvec) : Prop := layer_state u1 u2 /\ forall v1 v2, layer_state v1 v2 -> layer_cost a u1 u2 <= layer_cost a v1 v2.

(** A solution of the system is the minimum, with weight 5 on the first gradient *)
Theorem C119_layer u1 u2 p : Solves u1 u2 p -> layer_optimal 5 u1 u2.
Proof.
  intros (H0 & H1 & H2). assert (S : layer_state u1 u2) by (intros q; rewrite <- (H2 q); unfold ly_row2; ring). split; [exact S |]. intros v1 v2 S'. unfold layer_cost.
  rewrite (energy_along n1 g1 u1 v1 (proj1 G1)), (energy_along n1 m1 u1 v1 (proj1 (proj1 M1))), (energy_along n2 g2 u2 v2 (proj1 G2)), (energy_along n2 m2 u2 v2 (proj1 (proj1 M2))).
  pose proof (energy_pos n1 g1 (minus v1 u1) (proj2 G1)). pose proof (energy_pos n1 m1 (minus v1 u1) (proj2 (proj1 M1))). pose proof (energy_pos n2 g2 (minus v2 u2) (proj2 G2)). pose proof (energy_pos n2 m2 (minus v2 u2) (proj2 (proj1 M2))).
  pose proof (H0 v1) as A1. pose proof (H0 u1) as A2. pose proof (H1 v2) as B1. pose proof (H1 u2) as B2. unfold ly_row0, ly_row1, Alpha1, Alpha2 in A1, A2, B1, B2. pose proof (S p) as S1. pose proof (S' p) as S2. lra.
Qed.
(** There is at most one; and at most one multiplier if restrictions reach every function on the overlap *)
Theorem C119_layer_unique u1 u2 p u1' u2' p' : Solves u1 u2 p -> Solves u1' u2' p' ->
  same n1 u1 u1' /\ same n2 u2 u2' /\ ((forall q, exists v, same nq (Pi n1 r1 v) q) -> same nq p p').
Proof.
  intros (A0 & A1 & A2) (B0 & B1 & B2). set (d1 := minus u1 u1'). set (d2 := minus u2 u2'). set (e := minus p p').
  assert (E0 : forall v, 5 * form n1 n1 g1 d1 v + form n1 n1 m1 d1 v + form nq nq mO (Pi n1 r1 v) e = 0).
  { intros v. pose proof (A0 v) as X. pose proof (B0 v) as Y. unfold ly_row0, Alpha1 in X, Y. unfold d1, e. rewrite !form_minus_l, form_minus_r. lra. }
  assert (E1 : forall v, form n2 n2 g2 d2 v + form n2 n2 m2 d2 v - form nq nq mO (Pi n2 r2 v) e = 0).
  { intros v. pose proof (A1 v) as X. pose proof (B1 v) as Y. unfold ly_row1, Alpha2 in X, Y. unfold d2, e. rewrite !form_minus_l, form_minus_r. lra. }
  assert (E2 : forall q, form nq nq mO (Pi n1 r1 d1) q - form nq nq mO (Pi n2 r2 d2) q = 0).
  { intros q. pose proof (A2 q) as X. pose proof (B2 q) as Y. unfold ly_row2 in X, Y. unfold d1, d2. rewrite (form_same nq nq mO _ _ q (Pi_same n1 nq r1 u1 u1')), (form_same nq nq mO _ _ q (Pi_same n2 nq r2 u2 u2')), !form_minus_l. lra. }
  pose proof (E0 d1) as F0. pose proof (E1 d2) as F1. pose proof (E2 e) as F2. pose proof (proj2 G1 d1). pose proof (proj2 (proj1 M1) d1). pose proof (proj2 G2 d2). pose proof (proj2 (proj1 M2) d2).
  assert (N1 : null n1 d1) by (apply (proj2 M1); lra). assert (N2 : null n2 d2) by (apply (proj2 M2); lra).
  split; [apply null_same; exact N1 |]. split; [apply null_same; exact N2 |]. intros Onto. apply null_same, (norm_test_r nq mO _ MO). intros q. destruct (Onto q) as [v Hv]. rewrite <- (form_same nq nq mO _ _ _ Hv).
  specialize (E0 v). rewrite (form_null n1 n1 g1), (form_null n1 n1 m1) in E0 by exact N1. fold e. lra.
Qed.
End Layer.

Section D123.
Variables (n3 n2 n1 : nat) (g3 g2 g1 mS mG t32 t21 : nat -> nat -> R) (bf : nat -> R).
Hypothesis (G3 : square n3 g3) (G2 : square n2 g2) (G1 : square n1 g1) (MS : norm n2 mS) (MG : norm n1 mG).
Notation Solves := (d_solves n3 n2 n1 g3 g2 g1 mS mG t32 t21 bf).
(** u3 - u2 = 0 on the surface and u2 - u1 = f on the curve, the second tested with all multipliers: the first is of coefficients *)
Definition d_state (u3 u2 u1 : fvec) : Prop := same n2 (Pi n3 t32 u3) u2 /\ forall q, form n1 n1 mG (Pi n2 t21 u2) q - form n1 n1 mG u1 q = lin n1 bf q.
Definition d_cost (u3 u2 u1 : fvec) : R := form n3 n3 g3 u3 u3 + form n2 n2 g2 u2 u2 + form n1 n1 g1 u1 u1.
Lemma d_weak u3 u2 u1 p2 p1 : Solves u3 u2 u1 p2 p1 -> d_state u3 u2 u1.
Proof.
  intros (_ & _ & _ & H3 & H4). split.
  - apply null_same, (norm_test_r n2 mS _ MS). intros y. rewrite form_minus_r. rewrite <- (H3 y). unfold d_row3. ring.
  - intros q. rewrite <- H4. unfold d_row4. rewrite (proj1 (proj1 MG) q), (proj1 (proj1 MG) q u1). ring.
Qed.
Theorem C119_d123 u3 u2 u1 p2 p1 : Solves u3 u2 u1 p2 p1 -> d_state u3 u2 u1 /\ forall v3 v2 v1, d_state v3 v2 v1 -> d_cost u3 u2 u1 <= d_cost v3 v2 v1.
Proof.
  intros H. pose proof (d_weak _ _ _ _ _ H) as S. split; [exact S |]. intros v3 v2 v1 S'. destruct H as (H0 & H1 & H2 & _ & _). destruct S as [Sa Sb]. destruct S' as [Sa' Sb'].
  assert (X : forall n F x y, square n F -> form n n F y y >= form n n F x x + 2 * (form n n F x y - form n n F x x)).
  { intros n F x y Q. pose proof (energy_along n F x y (proj1 Q)) as A. pose proof (energy_pos n F (minus y x) (proj2 Q)). unfold energy in *. lra. }
  unfold d_cost. pose proof (X n3 g3 u3 v3 G3) as X3. pose proof (X n2 g2 u2 v2 G2) as X2. pose proof (X n1 g1 u1 v1 G1) as X1.
  pose proof (H0 v3) as A1. pose proof (H0 u3) as A2. pose proof (H1 v2) as B1. pose proof (H1 u2) as B2. pose proof (H2 v1) as C1. pose proof (H2 u1) as C2. unfold d_row0, d_row1, d_row2 in *.
  rewrite (form_same_r n2 n2 mS _ _ p2 Sa') in A1. rewrite (form_same_r n2 n2 mS _ _ p2 Sa) in A2. pose proof (Sb p1) as D1. pose proof (Sb' p1) as D2.
  rewrite (proj1 (proj1 MG) (Pi n2 t21 u2)), (proj1 (proj1 MG) u1 p1) in D1. rewrite (proj1 (proj1 MG) (Pi n2 t21 v2)), (proj1 (proj1 MG) v1 p1) in D2. lra.
Qed.
(** Solutions differ by functions without gradients *)
Theorem C119_d123_unique_partial u3 u2 u1 p2 p1 u3' u2' u1' p2' p1' : Solves u3 u2 u1 p2 p1 -> Solves u3' u2' u1' p2' p1' ->
  d_cost (minus u3 u3') (minus u2 u2') (minus u1 u1') = 0.
Proof.
  intros H H'. pose proof (d_weak _ _ _ _ _ H) as [Sa Sb]. pose proof (d_weak _ _ _ _ _ H') as [Sa' Sb']. destruct H as (H0 & H1 & H2 & _ & _). destruct H' as (H0' & H1' & H2' & _ & _).
  set (d3 := minus u3 u3'). set (d2 := minus u2 u2'). set (d1 := minus u1 u1'). set (e2 := minus p2 p2'). set (e1 := minus p1 p1').
  assert (E0 : form n3 n3 g3 d3 d3 + form n2 n2 mS e2 d2 = 0).
  { pose proof (H0 d3) as X. pose proof (H0' d3) as Y. unfold d_row0 in X, Y. assert (Q : same n2 (Pi n3 t32 d3) d2).
    { intros i Hi. unfold d3, d2. rewrite Pi_minus. unfold minus. rewrite (Sa i Hi), (Sa' i Hi). reflexivity. }
    rewrite (form_same_r n2 n2 mS _ _ p2 Q) in X. rewrite (form_same_r n2 n2 mS _ _ p2' Q) in Y. unfold d3 at 1, e2. rewrite !form_minus_l. lra. }
  assert (E1 : form n2 n2 g2 d2 d2 - form n2 n2 mS e2 d2 + form n1 n1 mG e1 (Pi n2 t21 d2) = 0).
  { pose proof (H1 d2) as X. pose proof (H1' d2) as Y. unfold d_row1 in X, Y. unfold d2 at 1, e2, e1. rewrite !form_minus_l. lra. }
  assert (E2 : form n1 n1 g1 d1 d1 - form n1 n1 mG e1 d1 = 0).
  { pose proof (H2 d1) as X. pose proof (H2' d1) as Y. unfold d_row2 in X, Y. unfold d1 at 1, e1. rewrite !form_minus_l. lra. }
  assert (E3 : form n1 n1 mG e1 (Pi n2 t21 d2) = form n1 n1 mG e1 d1).
  { pose proof (Sb e1) as X. pose proof (Sb' e1) as Y. rewrite (proj1 (proj1 MG) e1), (proj1 (proj1 MG) e1 d1). unfold d2, d1. rewrite (form_same n1 n1 mG _ _ e1 (Pi_same n2 n1 t21 u2 u2')), !form_minus_l. lra. }
  unfold d_cost. lra.
Qed.
(** Constants: no gradient, and the trace of 1 is 1 *)
Definition constants (c3 c2 c1 : fvec) : Prop := (forall y, form n3 n3 g3 c3 y = 0) /\ (forall y, form n2 n2 g2 c2 y = 0) /\ (forall y, form n1 n1 g1 c1 y = 0) /\ same n2 (Pi n3 t32 c3) c2 /\ same n1 (Pi n2 t21 c2) c1.
Definition plus (x y : fvec) : fvec := fun i => x i + y i.
(** With constants added a solution is still one, so the matrix is singular *)
Theorem C119_d123_kernel c3 c2 c1 u3 u2 u1 p2 p1 : constants c3 c2 c1 -> Solves u3 u2 u1 p2 p1 -> Solves (plus u3 c3) (plus u2 c2) (plus u1 c1) p2 p1.
Proof.
  intros (K3 & K2 & K1 & T3 & T2) (H0 & H1 & H2 & H3 & H4).
  assert (P : forall n F x y z, form n n F (plus x y) z = form n n F x z + form n n F y z).
  { intros n F x y z. rewrite <- (Rmult_1_l (form n n F x z)), <- (Rmult_1_l (form n n F y z)), <- form_lin_l. apply form_same. intros i _. unfold plus. ring. }
  assert (Pr : forall n F x y z, form n n F z (plus x y) = form n n F z x + form n n F z y).
  { intros n F x y z. rewrite <- (Rmult_1_l (form n n F z x)), <- (Rmult_1_l (form n n F z y)), <- form_lin_r. apply form_same_r. intros i _. unfold plus. ring. }
  assert (PP : forall n k t x y, same k (Pi n t (plus x y)) (plus (Pi n t x) (Pi n t y))) by (intros n k t x y i _; unfold Pi, plus; rewrite <- rsum_plus; apply rsum_ext; intros; ring).
  repeat split; intros v.
  - rewrite <- (H0 v). unfold d_row0. rewrite P, K3. ring.
  - rewrite <- (H1 v). unfold d_row1. rewrite P, K2. ring.
  - rewrite <- (H2 v). unfold d_row2. rewrite P, K1. ring.
  - rewrite <- (H3 v). unfold d_row3. rewrite (form_same_r n2 n2 mS _ _ v (PP n3 n2 t32 u3 c3)), !Pr, (form_same_r n2 n2 mS _ _ v T3). ring.
  - rewrite <- (H4 v). unfold d_row4. rewrite (form_same_r n1 n1 mG _ _ v (PP n2 n1 t21 u2 c2)), !Pr, (form_same_r n1 n1 mG _ _ v T2). ring.
Qed.
(** The fluxes have integral zero *)
Theorem C119_d123_balance c3 c2 c1 u3 u2 u1 p2 p1 : constants c3 c2 c1 -> Solves u3 u2 u1 p2 p1 -> form n2 n2 mS p2 c2 = 0 /\ form n1 n1 mG p1 c1 = 0.
Proof.
  intros (K3 & K2 & K1 & T3 & T2) (H0 & H1 & H2 & _). split.
  - rewrite <- (H0 c3). unfold d_row0. rewrite (proj1 G3), K3, (form_same_r n2 n2 mS _ _ p2 T3). ring.
  - pose proof (H2 c1) as X. unfold d_row2 in X. rewrite (proj1 G1), K1 in X. lra.
Qed.
End D123.
Print Assumptions C119_layer.
Print Assumptions C119_layer_unique.
Print Assumptions C119_d123.
Print Assumptions C119_d123_unique_partial.
Print Assumptions C119_d123_kernel.
Print Assumptions C119_d123_balance.

(** ** What does not hold *)
Notation e0 := (fun _ _ : nat => 0).
Notation e1 := (fun _ _ : nat => 1).
Lemma w_norm : norm 1 e1.
Proof.
  assert (F : forall x y, form 1 1 e1 x y = x 0%nat * y 0%nat) by (intros; unfold form; cbn; ring). repeat split.
  - intros x y. rewrite !F. ring.
  - intros x. rewrite F. nra.
  - intros x E i Hi. rewrite F in E. replace i with 0%nat by lia. apply Rsqr_0_uniq. exact E.
Qed.
Lemma w_square a : 0 <= a -> square 1 (fun _ _ => a).
Proof.
  intros A. assert (F : forall x y, form 1 1 (fun _ _ => a) x y = a * (x 0%nat * y 0%nat)) by (intros; unfold form; cbn; ring). split.
  - intros x y. rewrite !F. ring.
  - intros x. rewrite F. apply Rmult_le_pos; [exact A | nra].
Qed.
(** The solution is not the minimum of the objective of line 3, where the norm is that of H1 *)
Theorem C119_layer_header_refuted : exists u1 u2 p, ly_solves 1 1 1 e1 e1 e0 e1 e1 e1 e1 (fun _ => 1) (fun _ => 0) (fun _ => 0) u1 u2 p /\
  ~ layer_optimal 1 1 1 e1 e1 e0 e1 e1 e1 e1 (fun _ => 1) (fun _ => 0) (fun _ => 0) 1 u1 u2.
Proof.
  exists (fun _ => 1 / 7), (fun _ => 1 / 7), (fun _ => 1 / 7). split.
  - repeat split; intros v; unfold ly_row0, ly_row1, ly_row2, Alpha1, Alpha2, form, lin, Pi; cbn; field.
  - intros [_ O]. specialize (O (fun _ => 1 / 3) (fun _ => 1 / 3)). unfold layer_state, layer_cost, energy, form, lin, Pi in O. cbn in O. assert (Z : forall q : fvec, True) by trivial.
    enough (L : 0 + (0 + (0 + 1 * (1 / 3)) * 1 * 0) = 0) by (cut (1 / 3 * (1 / 3) < 1); [intros; revert O; match goal with |- (?A -> ?B) -> _ => intros O; assert (Q : A) by (intros; field); specialize (O Q); lra end | lra]). ring.
Qed.
(** The solution of the problem with three dimensions is not unique *)
Theorem C119_d123_unique_refuted : exists u3 u2 u1 u1' p2 p1, (square 1 e0 /\ norm 1 e1) /\ u1 0%nat <> u1' 0%nat /\
  d_solves 1 1 1 e0 e0 e0 e1 e1 e1 e1 (fun _ => 1) u3 u2 u1 p2 p1 /\ exists u3' u2', d_solves 1 1 1 e0 e0 e0 e1 e1 e1 e1 (fun _ => 1) u3' u2' u1' p2 p1.
Proof.
  exists (fun _ => 1), (fun _ => 1), (fun _ => 0), (fun _ => 1), (fun _ => 0), (fun _ => 0). split; [split; [apply w_square; lra | exact w_norm] |]. split; [lra |].
  split; [| exists (fun _ => 2), (fun _ => 2)]; repeat split; intros v; unfold d_row0, d_row1, d_row2, d_row3, d_row4, form, lin, Pi; cbn; ring.
Qed.
Print Assumptions C119_layer_header_refuted.
Print Assumptions C119_d123_unique_refuted.

(** Non-vacuity: [w_norm], [w_square] and the solutions above; constants, and restrictions that reach every function *)
Example ex_constants : constants 1 1 1 e0 e0 e0 e1 e1 (fun _ => 1) (fun _ => 1) (fun _ => 1).
Proof. repeat split; try (intros y; unfold form; cbn; ring); intros i _; unfold Pi; cbn; ring. Qed.
Example ex_onto : forall q, exists v, same 1 (Pi 1 e1 v) q.
Proof. intros q. exists q. intros i Hi. replace i with 0%nat by lia. unfold Pi. cbn. ring. Qed.
