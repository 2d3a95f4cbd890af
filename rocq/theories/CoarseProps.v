(** Property C134: Stokes with a coarse pressure *)
From Coq Require Import Reals Lra Lia.
From Verif Require Import RLin VesselModel CoarseModel CoarseProofs.
Local Open Scope R_scope.

(** The blocks multiplied by J are those of coarse pressures, and with the conditions the matrix is symmetric *)
Theorem C134_blocks S : nested S ->
  (forall i j, (j < s_C S)%nat -> b01 S i j = over S (fun k => s_phC S k j * trace_of (s_gr S k i))) /\
  (forall u v, rsum (s_V S) (fun i => v i * times (s_V S) (a00 S) u i) = energy S u v) /\
  (forall v p, rsum (s_V S) (fun i => v i * times (s_C S) (b01 S) p i) = paired S v p /\ rsum (s_C S) (fun j => p j * times (s_V S) (b10 S) v j) = paired S v p) /\
  (forall p q, rsum (s_C S) (fun i => q i * times (s_C S) (Q_inner S) p i) = mass S p q) /\
  (forall i j, A00 S i j = A00 S j i /\ A10 S j i = A01 S i j /\ V_inner S i j = V_inner S j i).
Proof.
  intros N. split; [apply b01_coarse; exact N |]. split; [intros; symmetry; apply energy_sum |].
  split; [intros; split; symmetry; [apply paired_sum | apply paired_sum_r]; exact N |]. split; [intros; symmetry; apply mass_sum |].
  assert (Y : forall i j, a00 S i j = a00 S j i) by (intros i j; apply over_ext; intros; apply inner_sym).
  intros i j. unfold A00, A01, A10, V_inner. rewrite b10_b01, (Y i j), (Nat.eqb_sym j i), (Bool.orb_comm (s_bc S j)).
  split; [reflexivity |]. split; [reflexivity |]. destruct (Nat.eqb_spec i j) as [-> |]; reflexivity.
Qed.
Print Assumptions C134_blocks.

(** The eigenvalues: the inverse numbers of cells of the dofs with conditions, 1, and others between which and 0, 1 there
    are gaps: lambda (lambda - 1) is at most 2 and at least beta^2 if the pair is stable with beta *)
Definition stable (S : coarse) (beta : R) : Prop :=
  forall p, exists v, clamped S v /\ energy S v v <= mass S p p /\ beta * mass S p p <= paired S v p.
Theorem C134_eigenvalues S beta lambda u p : sound S -> 0 <= beta -> stable S beta -> eigenpair S lambda u p ->
  (exists i, (i < s_V S)%nat /\ s_bc S i = true /\ lambda = 1 / INR (s_cells S i)) \/
  (lambda = 1 /\ forall j, (j < s_C S)%nat -> p j = 0) \/
  beta ^ 2 <= lambda * (lambda - 1) <= 2.
Proof.
  intros (N & W & EU & MP & CE) HB ST E.
  destruct (bounded (s_V S) (fun i => s_bc S i = true /\ lambda = 1 / INR (s_cells S i))) as [X | X]; [| left; exact X | right].
  { intros i. destruct (s_bc S i); [| right; intros [H _]; discriminate]. destruct (Req_dec lambda (1 / INR (s_cells S i))); [left | right]; tauto. }
  assert (C : clamped S u).
  { apply (clamped_unless S lambda u p E). intros i Hi B H. apply X. exists i. split; [exact Hi |]. split; [exact B |].
    assert (P : 0 < INR (s_cells S i)) by (apply lt_0_INR, CE; assumption). apply (Rmult_eq_reg_r (INR (s_cells S i))); [| lra]. rewrite H. field. lra. }
  destruct (rows_tested S lambda u p N E C) as [R1 R2]. destruct E as (_ & _ & NZ).
  assert (Mn : 0 <= mass S p p) by (apply over_nonneg; [exact W | intros k; apply Rle_0_sqr]).
  assert (En : 0 <= energy S u u).
  { apply over_nonneg; [exact W |]. intros k. unfold inner22. assert (Q := fun r => Rle_0_sqr r). unfold Rsqr in Q. repeat apply Rplus_le_le_0_compat; apply Q. }
  assert (S1 := R1 u C). assert (S2 := R2 p). set (a := energy S u u) in *. set (b := mass S p p) in *. set (s := paired S u p) in *.
  destruct (Req_dec b 0) as [Z | Z].
  - left. split; [| apply MP; exact Z]. destruct (Req_dec a 0) as [Za | Za].
    + exfalso. destruct NZ as [(i & Hi & H) | (j & Hj & H)]; apply H; [apply (EU u C Za i Hi) | apply (MP p Z j Hj)].
    + rewrite Z in S2. assert (s = 0) by lra. assert (K : (lambda - 1) * a = 0) by lra. apply Rmult_integral in K. destruct K; [lra | contradiction].
  - right. split.
    + destruct (ST p) as (v & Cv & L1 & L2). fold b in L1, L2. assert (T := R1 v Cv).
      assert (CS := energy_cauchy S u v W). fold a in CS.
      assert (B0 : 0 < b) by lra.
      assert (H1 : (beta * b) * (beta * b) <= paired S v p * paired S v p) by (apply Rmult_le_compat; nra).
      assert (H2 : paired S v p * paired S v p <= (lambda - 1) * (lambda - 1) * (a * b)).
      { replace (paired S v p) with ((lambda - 1) * energy S u v) by lra.
        replace ((lambda - 1) * energy S u v * ((lambda - 1) * energy S u v)) with ((lambda - 1) * (lambda - 1) * (energy S u v * energy S u v)) by ring.
        apply Rmult_le_compat_l; [apply Rle_0_sqr |]. apply Rle_trans with (1 := CS). apply Rmult_le_compat_l; assumption. }
      assert (H3 : (lambda - 1) * a = lambda * b) by lra.
      assert (H4 : (lambda - 1) * (lambda - 1) * (a * b) = lambda * (lambda - 1) * (b * b)).
      { replace ((lambda - 1) * (lambda - 1) * (a * b)) with ((lambda - 1) * ((lambda - 1) * a) * b) by ring. rewrite H3. ring. }
      apply (Rmult_le_reg_r (b * b)); [nra |]. rewrite <- H4. apply Rle_trans with (2 := H2). apply Rle_trans with (2 := H1). right. ring.
    + assert (P := paired_bound S u p W). fold a b s in P. destruct (Req_dec a 0) as [Za | Za].
      * rewrite Za in S1. assert (s = 0) by lra. assert (K : lambda * b = 0) by lra. apply Rmult_integral in K. destruct K as [-> | K]; [lra | contradiction].
      * assert (AB : 0 < a * b) by (apply Rmult_lt_0_compat; lra). assert (H3 : s = (lambda - 1) * a) by lra.
        assert (K : s * s = lambda * (lambda - 1) * (a * b)).
        { rewrite H3 at 1. rewrite S2. ring. }
        apply (Rmult_le_reg_r (a * b)); [exact AB |]. lra.
Qed.
Print Assumptions C134_eigenvalues.

(** So, apart from the dofs with conditions, what is printed is bounded: moduli are at least
    (sqrt(1 + 4 beta^2) - 1) / 2 and at most 2 *)
Theorem C134_condition S beta lambda u p : sound S -> 0 <= beta -> stable S beta -> eigenpair S lambda u p ->
  (0 < s_C S)%nat -> (forall i, (i < s_V S)%nat -> s_bc S i = true -> lambda <> 1 / INR (s_cells S i)) ->
  -1 <= lambda <= 2 /\ ((sqrt (1 + 4 * beta ^ 2) - 1) / 2 <= Rabs lambda) /\ (0 < beta -> ~ 0 <= lambda < 1).
Proof.
  intros SD HB ST E PC X. set (r := sqrt (1 + 4 * beta ^ 2)).
  assert (R0 : 0 <= r) by apply sqrt_pos. assert (R2 : r * r = 1 + 4 * beta ^ 2) by (apply sqrt_sqrt; nra).
  destruct (C134_eigenvalues S beta lambda u p SD HB ST E) as [(i & Hi & B & L) | [[-> P] | [L1 L2]]].
  - exfalso. exact (X i Hi B L).
  - assert (BB : beta ^ 2 <= 2).
    { destruct SD as (N & W & EU & MP & CE). assert (Hq : mass S (fun _ => 1) (fun _ => 1) <> 0) by (intros H; specialize (MP _ H 0%nat PC); cbv beta in MP; lra).
      set (q := fun _ : nat => 1) in *.
      destruct (ST q) as (v & Cv & H1 & H2). assert (PB := paired_bound S v q W). assert (M0 : 0 <= mass S q q) by (apply over_nonneg; [exact W | intros k; apply Rle_0_sqr]).
      assert (M1 : 0 < mass S q q) by lra. assert (K : (beta * mass S q q) * (beta * mass S q q) <= 2 * (mass S q q * mass S q q)).
      { apply Rle_trans with (paired S v q * paired S v q); [apply Rmult_le_compat; nra |]. apply Rle_trans with (1 := PB). nra. }
      apply (Rmult_le_reg_r (mass S q q * mass S q q)); nra. }
    rewrite Rabs_R1. split; [lra |]. split; [| lra]. assert (r <= 3) by (apply Rsqr_incr_0_var; unfold Rsqr; nra). lra.
  - assert (-1 <= lambda <= 2) by nra. split; [assumption |]. split.
    + assert (r <= 2 * Rabs lambda + 1); [| lra]. apply Rsqr_incr_0_var; unfold Rsqr; [| assert (H0 := Rabs_pos lambda); lra].
      rewrite R2. destruct (Rle_dec 0 lambda); [rewrite Rabs_right by lra | rewrite Rabs_left by lra]; nra.
    + intros B [H1 H2]. nra.
Qed.
Print Assumptions C134_condition.

(** Every dof with a condition gives an eigenvalue of its own, whatever the problem *)
Theorem C134_conditions S i : (i < s_V S)%nat -> s_bc S i = true -> (0 < s_cells S i)%nat ->
  eigenpair S (1 / INR (s_cells S i)) (fun j => if Nat.eqb j i then 1 else 0) (fun _ => 0).
Proof.
  intros Hi B C. assert (P : 0 < INR (s_cells S i)) by (apply lt_0_INR; exact C).
  assert (Z : forall A n j, times n A (fun _ => 0) j = 0) by (intros A n j; apply rsum_zero; intros; ring).
  split; [| split].
  - intros j Hj. rewrite Z. unfold times. rewrite (rsum_single _ i), (rsum_single (s_V S) i (fun j0 => V_inner S j j0 * _)); auto; try (intros k _ Hk; destruct (Nat.eqb_spec k i); [contradiction | ring]).
    rewrite Nat.eqb_refl. unfold A00, V_inner. rewrite B, Bool.orb_true_r. destruct (Nat.eqb_spec j i) as [-> |]; [field; lra | ring].
  - intros j Hj. rewrite Z. unfold times. rewrite (rsum_single _ i); auto; [unfold A10; rewrite B; ring |]. intros k _ Hk. destruct (Nat.eqb_spec k i); [contradiction | ring].
  - left. exists i. split; [exact Hi |]. rewrite Nat.eqb_refl. lra.
Qed.
Print Assumptions C134_conditions.

(** One point, a velocity with divergence 1 and one with a condition, in two cells; one pressure *)
Definition tiny : coarse :=
  Coarse 2 1 1 1 (fun _ => 1) (fun _ i => if Nat.eqb i 0 then ((1, 0), (0, 0)) else ((0, 0), (0, 0))) (fun _ _ => 1) (fun _ _ => 1) (fun _ _ => 1)
    (fun i => Nat.eqb i 1) (fun _ => 2%nat).
Lemma tiny_energy u v : energy tiny u v = u 0%nat * v 0%nat. Proof. unfold energy, over, grad_of, inner22. cbn. ring. Qed.
Lemma tiny_mass p q : mass tiny p q = p 0%nat * q 0%nat. Proof. unfold mass, over, press. cbn. ring. Qed.
Lemma tiny_paired v p : paired tiny v p = p 0%nat * v 0%nat. Proof. unfold paired, over, press, grad_of, trace_of. cbn. ring. Qed.
Lemma tiny_sound : sound tiny.
Proof.
  split; [intros k j _ _; cbn; ring |]. split; [intros; cbn; lra |]. split; [| split].
  - intros u C H i Hi. rewrite tiny_energy in H. apply Rmult_integral in H. destruct i as [| [| i]]; [tauto | apply C; [cbn; lia | reflexivity] | cbn in Hi; lia].
  - intros p H j Hj. rewrite tiny_mass in H. apply Rmult_integral in H. destruct j; [tauto | cbn in Hj; lia].
  - intros i _ _. cbn. lia.
Qed.
Lemma tiny_stable : stable tiny 1.
Proof.
  intros p. exists (fun i => if Nat.eqb i 0 then p 0%nat else 0). split.
  - intros i _ B. cbn in B. apply Nat.eqb_eq in B. subst i. reflexivity.
  - rewrite tiny_energy, tiny_mass, tiny_paired. cbn. lra.
Qed.
(** so the smallest modulus that is printed is not bounded by the stability: here it is 1/2 < (sqrt 5 - 1) / 2 *)
Theorem C134_smallest_refuted : exists S beta lambda u p, sound S /\ 0 <= beta /\ stable S beta /\ (0 < s_C S)%nat /\ eigenpair S lambda u p /\
  Rabs lambda < (sqrt (1 + 4 * beta ^ 2) - 1) / 2.
Proof.
  exists tiny, 1, (1 / INR 2), (fun j => if Nat.eqb j 1 then 1 else 0), (fun _ => 0). split; [exact tiny_sound |]. split; [lra |]. split; [exact tiny_stable |].
  split; [cbn; lia |]. split; [apply (C134_conditions tiny 1); cbn; [lia | reflexivity | lia] |].
  assert (R0 : 0 <= sqrt (1 + 4 * 1 ^ 2)) by apply sqrt_pos. assert (R2 : sqrt (1 + 4 * 1 ^ 2) * sqrt (1 + 4 * 1 ^ 2) = 1 + 4 * 1 ^ 2) by (apply sqrt_sqrt; nra).
  rewrite Rabs_right by (cbn; lra). cbn [INR]. nra.
Qed.
Print Assumptions C134_smallest_refuted.

(** The golden ratio is the other eigenvalue of the example *)
Example C134_ex : sound tiny /\ stable tiny 1 /\ let g := (1 + sqrt 5) / 2 in eigenpair tiny g (fun i => if Nat.eqb i 0 then g else 0) (fun _ => 1) /\ 1 ^ 2 <= g * (g - 1) <= 2.
Proof.
  split; [exact tiny_sound |]. split; [exact tiny_stable |]. cbv zeta. assert (R2 : sqrt 5 * sqrt 5 = 5) by (apply sqrt_sqrt; lra). set (r := sqrt 5) in *.
  split; [| nra]. split; [| split].
  - intros i Hi. destruct i as [| [| i]]; [| | cbn in Hi; lia]; unfold times, A00, A01, V_inner, a00, b01, a01, over, inner22, trace_of; cbn; nra.
  - intros j Hj. destruct j; [| cbn in Hj; lia]. unfold times, A10, Q_inner, b10, a10, over, trace_of; cbn; nra.
  - right. exists 0%nat. cbn. split; [lia | lra].
Qed.
