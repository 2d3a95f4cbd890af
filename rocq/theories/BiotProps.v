(** C130: the system of Biot and Stokes *)
From Coq Require Import Lra Lia.
From Verif Require Import BiotModel VesselProofs LayerProofs BiotProofs.
Local Open Scope R_scope.

(** The matrix is symmetric *)
Theorem C130_symmetric b up pp dp uf pf lbd vp wp ep vf wf mu : sound b ->
  AA b up pp dp uf pf lbd vp wp ep vf wf mu = AA b vp wp ep vf wf mu up pp dp uf pf lbd.
Proof.
  intros (MV & MQ & EU & DU & EF & _). unfold AA, row0, row1, row2, row3, row4, row5.
  rewrite (proj1 (proj1 MV) up vp), (proj1 (proj1 MQ) pp wp), (proj1 (proj1 EU) dp ep), (proj1 DU dp ep), (proj1 (proj1 EF) uf vf).
  rewrite (friction_sym b (TU b ep) (TU b dp)), (friction_sym b (TF b vf) (TU b dp)), (friction_sym b (TU b ep) (TF b uf)), (friction_sym b (TF b vf) (TF b uf)). ring.
Qed.
(** What comes in as pressure and multiplier goes out; what stays *)
Theorem C130_balance b up pp dp uf pf lbd : AA b up pp dp uf pf lbd up (neg pp) dp uf (neg pf) (neg lbd) =
  mu_p b / perm b * form (nV b) (nV b) (b_mV b) up up - s0 b / dt b * form (nQ b) (nQ b) (b_mQ b) pp pp +
  (mu_p b / dt b * form (nU b) (nU b) (b_eU b) dp dp + lbd_p b * form (nU b) (nU b) (b_dU b) dp dp) + 2 * mu_f b * form (nF b) (nF b) (b_eF b) uf uf +
  dissipated b (TU b dp) (TF b uf).
Proof. apply balance. Qed.
(** Friction sees what is along the interface: the slip, and the velocity of the fluid itself with the wrong factor unless the step is 1 *)
Theorem C130_slip b S T : sound b -> dissipated b S T =
  1 / dt b * over b (fun k => size2 (tangential (b_n b k) (minus2 (S k) (T k)))) + (1 - 1 / dt b) * over b (fun k => size2 (tangential (b_n b k) (T k))).
Proof. apply dissipated_squares. Qed.
(** Friction takes energy out of the system with steps of at least 1, *)
Theorem C130_friction_partial b S T : sound b -> 1 <= dt b -> 0 <= dissipated b S T.
Proof.
  intros SO D. rewrite dissipated_squares by exact SO. pose proof (over_nonneg b (fun k => size2 (tangential (b_n b k) (minus2 (S k) (T k)))) SO (fun k _ => size2_nonneg _)) as A.
  pose proof (over_nonneg b (fun k => size2 (tangential (b_n b k) (T k))) SO (fun k _ => size2_nonneg _)) as B.
  assert (I : 0 < 1 / dt b <= 1). { unfold Rdiv. rewrite Rmult_1_l. split; [apply Rinv_0_lt_compat; lra|]. rewrite <- Rinv_1. apply Rinv_le_contravar; lra. }
  assert (X : 0 <= 1 / dt b * over b (fun k => size2 (tangential (b_n b k) (minus2 (S k) (T k))))) by (apply Rmult_le_pos; lra).
  assert (Y : 0 <= (1 - 1 / dt b) * over b (fun k => size2 (tangential (b_n b k) (T k)))) by (apply Rmult_le_pos; lra). lra.
Qed.
(** with smaller steps it puts energy into it whenever both move alike and not along the normal *)
Theorem C130_friction_refuted b S : sound b -> dt b < 1 -> (exists k, (k < b_pts b)%nat /\ size2 (tangential (b_n b k) (S k)) <> 0) -> dissipated b S S < 0.
Proof.
  intros SO D (k & Hk & N). rewrite dissipated_squares by exact SO. assert (P : 0 < dt b) by apply SO.
  assert (Z : over b (fun k => size2 (tangential (b_n b k) (minus2 (S k) (S k)))) = 0).
  { apply rsum_zero. intros i _. unfold size2, tangential, minus2, dot2. cbn [fst snd]. ring. }
  rewrite Z. set (t := over b (fun k => size2 (tangential (b_n b k) (S k)))). assert (T : 0 < t).
  { assert (T0 : 0 <= t) by (apply over_nonneg; [exact SO|intros; apply size2_nonneg]). destruct (Rle_lt_or_eq_dec 0 t T0) as [L|E]; [exact L|]. exfalso. apply N.
    assert (W : 0 < b_w b k) by (apply SO, Hk).
    assert (Q : b_w b k * size2 (tangential (b_n b k) (S k)) = 0).
    { apply (rsum_zero_inv (b_pts b) (fun k => b_w b k * size2 (tangential (b_n b k) (S k)))); [|symmetry; exact E|exact Hk]. intros i Hi. apply Rmult_le_pos; [left; apply SO, Hi|apply size2_nonneg]. }
    apply Rmult_integral in Q. destruct Q as [Q|Q]; [lra|exact Q]. }
  assert (I : 1 < 1 / dt b). { unfold Rdiv. rewrite Rmult_1_l. rewrite <- Rinv_1 at 1. apply Rinv_lt_contravar; lra. }
  nra.
Qed.
(** Without storage and with steps of at least 1 there is at most one solution, if pressures and multiplier are seen by velocities and displacements *)
Definition seen (b : biot) : Prop := forall pp pf lbd,
  (forall vp, - form (nV b) (nQ b) (b_bV b) vp pp + paired b lbd (TV b vp) (n_p b) = 0) ->
  (forall ep, - (alpha b / dt b * form (nU b) (nQ b) (b_bU b) ep pp) + 1 / dt b * paired b lbd (TU b ep) (n_p b) = 0) ->
  (forall vf, - form (nF b) (nP b) (b_bF b) vf pf + paired b lbd (TF b vf) (n_f b) = 0) -> null (nQ b) pp /\ null (nP b) pf /\ null (nX b) lbd.
Theorem C130_unique_partial b up pp dp uf pf lbd up' pp' dp' uf' pf' lbd' : sound b -> s0 b = 0 -> 1 <= dt b -> seen b ->
  (forall vp wp ep vf wf mu, AA b up pp dp uf pf lbd vp wp ep vf wf mu = AA b up' pp' dp' uf' pf' lbd' vp wp ep vf wf mu) ->
  same (nV b) up up' /\ same (nQ b) pp pp' /\ same (nU b) dp dp' /\ same (nF b) uf uf' /\ same (nP b) pf pf' /\ same (nX b) lbd lbd'.
Proof.
  intros SO S0 D SE H. set (eV := minus up up'). set (eQ := minus pp pp'). set (eU := minus dp dp'). set (eF := minus uf uf'). set (eP := minus pf pf'). set (eX := minus lbd lbd').
  assert (Z : forall vp wp ep vf wf mu, AA b eV eQ eU eF eP eX vp wp ep vf wf mu = 0).
  { intros. specialize (H vp wp ep vf wf mu). unfold AA, row0, row1, row2, row3, row4, row5 in *. unfold eV, eQ, eU, eF, eP, eX, TV, TU, TF in *.
    rewrite !form_minus_l, !form_minus_r, !paired_minus, !friction_minus, !paired_minus_trace. lra. }
  pose proof (Z eV (neg eQ) eU eF (neg eP) (neg eX)) as B. rewrite balance, S0 in B. pose proof (C130_friction_partial b (TU b eU) (TF b eF) SO D) as F.
  pose proof SO as (MV & MQ & EU & DU & EF & DT & MF & MP & LP & K & _ & _).
  assert (C1 : 0 < mu_p b / perm b) by (apply Rdiv_lt_0_compat; assumption). assert (C2 : 0 < mu_p b / dt b) by (apply Rdiv_lt_0_compat; assumption).
  pose proof (proj2 (proj1 MV) eV) as P1. pose proof (proj2 (proj1 EU) eU) as P2. pose proof (proj2 DU eU) as P3. pose proof (proj2 (proj1 EF) eF) as P4.
  pose proof (Rmult_le_pos _ _ (Rlt_le _ _ C1) P1) as Q1. pose proof (Rmult_le_pos _ _ (Rlt_le _ _ C2) P2) as Q2. pose proof (Rmult_le_pos _ _ LP P3) as Q3. pose proof (Rmult_le_pos (2 * mu_f b) _ ltac:(lra) P4) as Q4.
  assert (R0 : 0 / dt b = 0) by (unfold Rdiv; ring). rewrite R0, Rmult_0_l in B.
  assert (N1 : null (nV b) eV) by (apply (proj2 MV); apply (Rmult_eq_reg_l (mu_p b / perm b)); lra).
  assert (N2 : null (nU b) eU) by (apply (proj2 EU); apply (Rmult_eq_reg_l (mu_p b / dt b)); lra).
  assert (N3 : null (nF b) eF) by (apply (proj2 EF); apply (Rmult_eq_reg_l (2 * mu_f b)); lra).
  assert (FZ : forall T u n t, null n u -> friction b T (trace2 n t u) = 0).
  { intros T u n t N. unfold friction. rewrite <- over_minus. apply rsum_zero. intros k _. rewrite trace2_null by exact N. unfold dot2. cbn [fst snd]. ring. }
  assert (Z0 : forall n t k, trace2 n t (fun _ => 0) k = (0, 0)) by (intros; apply trace2_null; intros i _; reflexivity).
  assert (PZ : forall l n t m, paired b l (trace2 n t (fun _ => 0)) m = 0).
  { intros l n t m. apply rsum_zero. intros k _. rewrite Z0. unfold dot2. cbn [fst snd]. ring. }
  assert (XZ : forall T m, paired b (fun _ => 0) T m = 0).
  { intros T m. apply rsum_zero. intros k _. unfold XI. rewrite rsum_zero by (intros; ring). ring. }
  assert (FR : forall T n t, friction b (trace2 n t (fun _ => 0)) T = 0) by (intros; rewrite friction_sym; apply FZ; intros i _; reflexivity).
  assert (FL : forall n m G x, form n m G x (fun _ => 0) = 0) by (intros; apply form_null_r; intros i _; reflexivity).
  assert (FM : forall n m G x, form n m G (fun _ => 0) x = 0) by (intros; apply form_null; intros i _; reflexivity).
  destruct (SE eQ eP eX) as (N4 & N5 & N6).
  - intros vp. pose proof (Z vp (fun _ => 0) (fun _ => 0) (fun _ => 0) (fun _ => 0) (fun _ => 0)) as E. unfold AA, row0, row1, row2, row3, row4, row5, TV, TU, TF in E. unfold TV.
    rewrite !FL, !FM, !PZ, !XZ, !FR in E. rewrite (form_null _ _ _ eV) in E by exact N1. lra.
  - intros ep. pose proof (Z (fun _ => 0) (fun _ => 0) ep (fun _ => 0) (fun _ => 0) (fun _ => 0)) as E. unfold AA, row0, row1, row2, row3, row4, row5, TV, TU, TF in E. unfold TU.
    rewrite !FL, !FM, !PZ, !XZ, !FR in E. rewrite !(form_null _ _ _ eU) in E by exact N2. rewrite !FZ in E by assumption. lra.
  - intros vf. pose proof (Z (fun _ => 0) (fun _ => 0) (fun _ => 0) vf (fun _ => 0) (fun _ => 0)) as E. unfold AA, row0, row1, row2, row3, row4, row5, TV, TU, TF in E. unfold TF.
    rewrite !FL, !FM, !PZ, !XZ, !FR in E. rewrite !(form_null _ _ _ eF) in E by exact N3. rewrite !FZ in E by assumption. lra.
  - repeat split; apply null_same; assumption.
Qed.

(** ** Cases *)
(** one function in each space, one point on the interface with the normal (1, 0); constants as in the script *)
Definition one_of_each (storage coupling : R) : biot :=
  Biot 1 1 storage 1 1 1 1 1 1 1 1 1 1 (fun _ _ => 1) (fun _ _ => 1) (fun _ _ => 1) (fun _ _ => 1) (fun _ _ => 1) (fun _ _ => 1) (fun _ _ => coupling) (fun _ _ => 1)
    1 (fun _ => 1) (fun _ => (1, 0)) (fun _ _ => (0, 1)) (fun _ _ => (1, 1)) (fun _ _ => (0, 1)) (fun _ _ => 1).
Lemma one_norm : norm 1 (fun _ _ => 1).
Proof.
  split; [split|].
  - intros x y. unfold form. cbn [rsum]. ring.
  - intros x. unfold form. cbn [rsum]. pose proof (pow2_ge_0 (x 0%nat)). nra.
  - intros x H i Hi. assert (i = 0%nat) by lia. subst i. unfold form in H. cbn [rsum] in H. nra.
Qed.
Lemma one_sound s c : 0 <= s -> sound (one_of_each s c).
Proof.
  intros Hs. repeat split; cbn [one_of_each dt mu_f mu_p lbd_p perm s0 b_w b_n nV nQ nU nF b_mV b_mQ b_eU b_dU b_eF]; try apply one_norm; try lra.
  unfold dot2. cbn [fst snd]. lra.
Qed.
Example C130_seen : sound (one_of_each 0 1) /\ s0 (one_of_each 0 1) = 0 /\ 1 <= dt (one_of_each 0 1) /\ seen (one_of_each 0 1).
Proof.
  split; [apply one_sound; lra|]. split; [reflexivity|]. split; [cbn; lra|]. intros pp pf lbd A B C.
  specialize (A (fun _ => 1)). specialize (B (fun _ => 1)). specialize (C (fun _ => 1)).
  unfold paired, over, XI, TV, TU, TF, trace2, n_p, n_f, neg2, dot2, form in A, B, C. cbn in A, B, C.
  repeat split; intros i Hi; assert (i = 0%nat) by (cbn in Hi; lia); subst i; lra.
Qed.
(** with storage as in the script: the sign of the mass of the pressure is that of the velocities, and the system has a solution other than zero *)
Theorem C130_unique_refuted : exists b up pp dp uf pf lbd, sound b /\ s0 b = 1 /\ dt b = 1 /\ seen b /\
  (forall vp wp ep vf wf mu, AA b up pp dp uf pf lbd vp wp ep vf wf mu = 0) /\ up 0%nat = 1 /\ (0 < nV b)%nat.
Proof.
  exists (one_of_each 1 0), (fun _ => 1), (fun _ => 1), (fun _ => 0), (fun _ => 0), (fun _ => 0), (fun _ => 0).
  split; [apply one_sound; lra|]. split; [reflexivity|]. split; [reflexivity|]. split; [|split; [|split; [reflexivity|cbn; lia]]].
  - intros pp pf lbd A B C. specialize (A (fun _ => 1)). specialize (B (fun _ => 1)). specialize (C (fun _ => 1)).
    unfold paired, over, XI, TV, TU, TF, trace2, n_p, n_f, neg2, dot2, form in A, B, C. cbn in A, B, C.
    repeat split; intros i Hi; assert (i = 0%nat) by (cbn in Hi; lia); subst i; lra.
  - intros. unfold AA, row0, row1, row2, row3, row4, row5, friction, paired, over, XI, TV, TU, TF, trace2, n_p, n_f, neg2, dot2, form. cbn. field.
Qed.
Example C130_slow : exists b S, sound b /\ dt b < 1 /\ exists k, (k < b_pts b)%nat /\ size2 (tangential (b_n b k) (S k)) <> 0.
Proof.
  exists (Biot (1 / 2) 1 1 1 1 1 1 1 1 1 1 1 1 (fun _ _ => 1) (fun _ _ => 1) (fun _ _ => 1) (fun _ _ => 1) (fun _ _ => 1) (fun _ _ => 1) (fun _ _ => 0) (fun _ _ => 1)
    1 (fun _ => 1) (fun _ => (1, 0)) (fun _ _ => (0, 1)) (fun _ _ => (1, 1)) (fun _ _ => (0, 1)) (fun _ _ => 1)), (fun _ => (0, 1)).
  split; [|split; [cbn; lra|exists 0%nat; split; [cbn; lia|]; unfold size2, tangential, dot2; cbn; lra]].
  repeat split; cbn [dt mu_f mu_p lbd_p perm s0 b_w b_n nV nQ nU nF b_mV b_mQ b_eU b_dU b_eF]; try apply one_norm; try lra. unfold dot2. cbn [fst snd]. lra.
Qed.

Print Assumptions C130_symmetric.
Print Assumptions C130_balance.
Print Assumptions C130_slip.
Print Assumptions C130_friction_partial.
Print Assumptions C130_friction_refuted.
Print Assumptions C130_unique_partial.
Print Assumptions C130_unique_refuted.
