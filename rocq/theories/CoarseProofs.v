(** Lemmas for CoarseProps.v *)
From Coq Require Import Reals Lra Lia.
From Verif Require Import RLin VesselModel CoarseModel.
Local Open Scope R_scope.

(** The functions of coefficients: gradient of a velocity, value of a coarse pressure, at a point *)
Definition grad_of (S : coarse) (u : fvec) (k : nat) : (R * R) * (R * R) :=
  ((rsum (s_V S) (fun i => u i * fst (fst (s_gr S k i))), rsum (s_V S) (fun i => u i * snd (fst (s_gr S k i)))),
   (rsum (s_V S) (fun i => u i * fst (snd (s_gr S k i))), rsum (s_V S) (fun i => u i * snd (snd (s_gr S k i))))).
Definition press (S : coarse) (p : fvec) (k : nat) : R := rsum (s_C S) (fun j => p j * s_phC S k j).
(** Integrals of (grad u, grad v), p div v and p q *)
Definition energy (S : coarse) (u v : fvec) : R := over S (fun k => inner22 (grad_of S u k) (grad_of S v k)).
Definition paired (S : coarse) (v p : fvec) : R := over S (fun k => press S p k * trace_of (grad_of S v k)).
Definition mass (S : coarse) (p q : fvec) : R := over S (fun k => press S p k * press S q k).
(** Zero at the dofs of the conditions *)
Definition clamped (S : coarse) (u : fvec) : Prop := forall i, (i < s_V S)%nat -> s_bc S i = true -> u i = 0.
(** Coarse pressures are fine ones, with the columns of J as coefficients *)
Definition nested (S : coarse) : Prop :=
  forall k j, (k < s_pts S)%nat -> (j < s_C S)%nat -> s_phC S k j = rsum (s_F S) (fun l => s_phF S k l * s_J S l j).
Definition sound (S : coarse) : Prop :=
  nested S /\ (forall k, (k < s_pts S)%nat -> 0 <= s_w S k) /\
  (forall u, clamped S u -> energy S u u = 0 -> forall i, (i < s_V S)%nat -> u i = 0) /\
  (forall p, mass S p p = 0 -> forall j, (j < s_C S)%nat -> p j = 0) /\
  (forall i, (i < s_V S)%nat -> s_bc S i = true -> (0 < s_cells S i)%nat).

Section Lemmas.
Variable S : coarse.
Lemma over_ext f g : (forall k, (k < s_pts S)%nat -> f k = g k) -> over S f = over S g.
Proof. intros H. apply rsum_ext. intros k Hk. rewrite H by exact Hk. reflexivity. Qed.
Lemma over_plus f g : over S (fun k => f k + g k) = over S f + over S g.
Proof. unfold over. rewrite <- rsum_plus. apply rsum_ext. intros. ring. Qed.
Lemma over_scal a f : over S (fun k => a * f k) = a * over S f.
Proof. unfold over. rewrite <- rsum_scal. apply rsum_ext. intros. ring. Qed.
Lemma over_sum n (f : nat -> nat -> R) : over S (fun k => rsum n (fun i => f i k)) = rsum n (fun i => over S (f i)).
Proof.
  unfold over. rewrite rsum_swap. apply rsum_ext. intros k _. rewrite <- rsum_scal. reflexivity.
Qed.
Lemma over_scal_r a f : over S (fun k => f k * a) = over S f * a.
Proof. rewrite Rmult_comm, <- over_scal. apply over_ext. intros. ring. Qed.
Lemma over_nonneg f : (forall k, (k < s_pts S)%nat -> 0 <= s_w S k) -> (forall k, 0 <= f k) -> 0 <= over S f.
Proof. intros W H. apply rsum_nonneg. intros k Hk. apply Rmult_le_pos; auto. Qed.

Lemma b01_coarse : nested S -> forall i j, (j < s_C S)%nat -> b01 S i j = over S (fun k => s_phC S k j * trace_of (s_gr S k i)).
Proof.
  intros N i j Hj. unfold b01, a01.
  rewrite (rsum_ext (s_F S) _ (fun l => over S (fun k => s_phF S k l * s_J S l j * trace_of (s_gr S k i)))).
  - rewrite <- over_sum. apply over_ext. intros k Hk. rewrite N, <- rsum_scal_r by assumption. reflexivity.
  - intros l _. rewrite <- over_scal_r. apply over_ext. intros. ring.
Qed.
Lemma b10_b01 i j : b10 S j i = b01 S i j.
Proof. unfold b10, b01, a10, a01. apply rsum_ext. intros. ring. Qed.

Lemma inner_l u k G : inner22 (grad_of S u k) G = rsum (s_V S) (fun j => u j * inner22 (s_gr S k j) G).
Proof.
  unfold inner22, grad_of. cbn [fst snd]. rewrite <- !rsum_scal_r, <- !rsum_plus. apply rsum_ext. intros. ring.
Qed.
Lemma inner_sym G H : inner22 G H = inner22 H G. Proof. unfold inner22. ring. Qed.
Lemma trace_l u k : trace_of (grad_of S u k) = rsum (s_V S) (fun i => u i * trace_of (s_gr S k i)).
Proof. unfold trace_of, grad_of. cbn [fst snd]. rewrite <- rsum_plus. apply rsum_ext. intros. ring. Qed.

Lemma energy_sum u v : energy S u v = rsum (s_V S) (fun i => v i * times (s_V S) (a00 S) u i).
Proof.
  unfold energy. rewrite (over_ext _ (fun k => rsum (s_V S) (fun i => rsum (s_V S) (fun j => v i * u j * inner22 (s_gr S k j) (s_gr S k i))))).
  - rewrite over_sum. apply rsum_ext. intros i _. rewrite over_sum. unfold times. rewrite <- rsum_scal. apply rsum_ext. intros j _.
    rewrite over_scal. unfold a00. ring.
  - intros k _. rewrite inner_sym, inner_l. apply rsum_ext. intros i _. rewrite inner_sym, inner_l, <- rsum_scal. apply rsum_ext. intros. ring.
Qed.
Lemma paired_sum v p : nested S -> paired S v p = rsum (s_V S) (fun i => v i * times (s_C S) (b01 S) p i).
Proof.
  intros N. unfold paired. rewrite (over_ext _ (fun k => rsum (s_V S) (fun i => rsum (s_C S) (fun j => v i * p j * (s_phC S k j * trace_of (s_gr S k i)))))).
  - rewrite over_sum. apply rsum_ext. intros i _. rewrite over_sum. unfold times. rewrite <- rsum_scal. apply rsum_ext. intros j Hj.
    rewrite over_scal, b01_coarse by assumption. ring.
  - intros k _. rewrite trace_l, <- rsum_scal. apply rsum_ext. intros i _. unfold press. rewrite <- rsum_scal_r. apply rsum_ext. intros. ring.
Qed.
Lemma paired_sum_r v p : nested S -> paired S v p = rsum (s_C S) (fun j => p j * times (s_V S) (b10 S) v j).
Proof.
  intros N. rewrite paired_sum by exact N. unfold times.
  rewrite (rsum_ext (s_V S) _ (fun i => rsum (s_C S) (fun j => v i * (b01 S i j * p j)))) by (intros; rewrite rsum_scal; reflexivity).
  rewrite rsum_swap. apply rsum_ext. intros j _. rewrite <- rsum_scal. apply rsum_ext. intros i _. rewrite b10_b01. ring.
Qed.
Lemma mass_sum p q : mass S p q = rsum (s_C S) (fun i => q i * times (s_C S) (Q_inner S) p i).
Proof.
  unfold mass. rewrite (over_ext _ (fun k => rsum (s_C S) (fun i => rsum (s_C S) (fun j => q i * p j * (s_phC S k j * s_phC S k i))))).
  - rewrite over_sum. apply rsum_ext. intros i _. rewrite over_sum. unfold times. rewrite <- rsum_scal. apply rsum_ext. intros j _.
    rewrite over_scal. unfold Q_inner. ring.
  - intros k _. unfold press. rewrite Rmult_comm, <- rsum_scal_r. apply rsum_ext. intros i _. rewrite <- rsum_scal. apply rsum_ext. intros. ring.
Qed.

(** With conditions *)
Lemma A00_bc u i : (i < s_V S)%nat -> s_bc S i = true -> times (s_V S) (A00 S) u i = u i.
Proof.
  intros Hi B. unfold times. rewrite (rsum_single _ i); auto; unfold A00; rewrite B; cbn [orb]; [rewrite Nat.eqb_refl; ring |].
  intros j _ Hj. destruct (Nat.eqb_spec i j); [congruence | ring].
Qed.
Lemma V_bc u i : (i < s_V S)%nat -> s_bc S i = true -> times (s_V S) (V_inner S) u i = INR (s_cells S i) * u i.
Proof.
  intros Hi B. unfold times. rewrite (rsum_single _ i); auto; unfold V_inner; rewrite B; cbn [orb]; [rewrite Nat.eqb_refl; ring |].
  intros j _ Hj. destruct (Nat.eqb_spec i j); [congruence | ring].
Qed.
Lemma A01_bc p i : s_bc S i = true -> times (s_C S) (A01 S) p i = 0.
Proof. intros B. apply rsum_zero. intros j _. unfold A01. rewrite B. ring. Qed.
Lemma A00_free u i : clamped S u -> s_bc S i = false -> times (s_V S) (A00 S) u i = times (s_V S) (a00 S) u i.
Proof.
  intros C B. apply rsum_ext. intros j Hj. unfold A00. rewrite B. cbn [orb]. destruct (s_bc S j) eqn:Bj; [rewrite (C j Hj Bj); ring | reflexivity].
Qed.
Lemma V_free u i : clamped S u -> s_bc S i = false -> times (s_V S) (V_inner S) u i = times (s_V S) (a00 S) u i.
Proof.
  intros C B. apply rsum_ext. intros j Hj. unfold V_inner. rewrite B. cbn [orb]. destruct (s_bc S j) eqn:Bj; [rewrite (C j Hj Bj); ring | reflexivity].
Qed.
Lemma A01_free p i : s_bc S i = false -> times (s_C S) (A01 S) p i = times (s_C S) (b01 S) p i.
Proof. intros B. apply rsum_ext. intros j _. unfold A01. rewrite B. reflexivity. Qed.
Lemma A10_clamped u j : clamped S u -> times (s_V S) (A10 S) u j = times (s_V S) (b10 S) u j.
Proof. intros C. apply rsum_ext. intros i Hi. unfold A10. destruct (s_bc S i) eqn:B; [rewrite (C i Hi B); ring | reflexivity]. Qed.

(** The rows, tested, for clamped u *)
Definition weak_pair (lambda : R) (u p : fvec) : Prop :=
  (forall v, clamped S v -> energy S u v + paired S v p = lambda * energy S u v) /\ (forall q, paired S u q = lambda * mass S p q).
Lemma rows_tested lambda u p : nested S -> eigenpair S lambda u p -> clamped S u -> weak_pair lambda u p.
Proof.
  intros N (E1 & E2 & _) C. split.
  - intros v Cv. rewrite energy_sum, paired_sum by exact N. rewrite <- rsum_plus, <- rsum_scal. apply rsum_ext. intros i Hi.
    destruct (s_bc S i) eqn:B; [rewrite (Cv i Hi B); ring |]. specialize (E1 i Hi). rewrite A00_free, V_free, A01_free in E1 by assumption. rewrite <- Rmult_plus_distr_l, E1. ring.
  - intros q. rewrite paired_sum_r, mass_sum by exact N. rewrite <- rsum_scal. apply rsum_ext. intros j Hj. specialize (E2 j Hj). rewrite A10_clamped in E2 by exact C.
    replace (times (s_V S) (b10 S) u j) with (lambda * times (s_C S) (Q_inner S) p j) by lra. ring.
Qed.
Lemma clamped_unless lambda u p : eigenpair S lambda u p -> (forall i, (i < s_V S)%nat -> s_bc S i = true -> lambda * INR (s_cells S i) <> 1) -> clamped S u.
Proof.
  intros (E1 & _ & _) H i Hi B. specialize (E1 i Hi). rewrite A00_bc, V_bc, A01_bc in E1 by assumption. specialize (H i Hi B).
  assert (Z : (1 - lambda * INR (s_cells S i)) * u i = 0) by lra. apply Rmult_integral in Z. destruct Z; [exfalso; apply H; lra | assumption].
Qed.
End Lemmas.

(** Inequality of Cauchy and Schwarz, from a quadratic function that is not negative *)
Lemma discriminant a b c : (forall t, 0 <= a + 2 * t * b + t * t * c) -> 0 <= c -> b * b <= a * c.
Proof.
  intros H C. destruct (Req_dec c 0) as [-> | NC].
  - destruct (Req_dec b 0) as [-> | NB]; [specialize (H 0); nra |]. exfalso. specialize (H (- (a + 1) / (2 * b))).
    replace (a + 2 * (- (a + 1) / (2 * b)) * b + - (a + 1) / (2 * b) * (- (a + 1) / (2 * b)) * 0) with (-1) in H by (field; exact NB). lra.
  - specialize (H (- b / c)). replace (a + 2 * (- b / c) * b + - b / c * (- b / c) * c) with ((a * c - b * b) / c) in H by (field; exact NC).
    assert (0 <= (a * c - b * b) / c * c) by (apply Rmult_le_pos; lra). replace ((a * c - b * b) / c * c) with (a * c - b * b) in H0 by (field; exact NC). lra.
Qed.
Lemma over_cauchy S f g : (forall k, (k < s_pts S)%nat -> 0 <= s_w S k) ->
  over S (fun k => f k * g k) * over S (fun k => f k * g k) <= over S (fun k => f k * f k) * over S (fun k => g k * g k).
Proof.
  intros W. apply discriminant; [| apply over_nonneg; [exact W | intros; nra]]. intros t.
  replace (over S (fun k => f k * f k) + 2 * t * over S (fun k => f k * g k) + t * t * over S (fun k => g k * g k)) with (over S (fun k => (f k + t * g k) * (f k + t * g k))).
  - apply over_nonneg; [exact W | intros k; apply Rle_0_sqr].
  - rewrite <- !over_scal, <- !over_plus. apply over_ext. intros. ring.
Qed.
Lemma energy_cauchy S u v : (forall k, (k < s_pts S)%nat -> 0 <= s_w S k) -> energy S u v * energy S u v <= energy S u u * energy S v v.
Proof.
  intros W. apply discriminant; [| apply over_nonneg; [exact W | intros k; unfold inner22; assert (Q := fun r => Rle_0_sqr r); unfold Rsqr in Q; repeat apply Rplus_le_le_0_compat; apply Q]]. intros t.
  replace (energy S u u + 2 * t * energy S u v + t * t * energy S v v)
    with (over S (fun k => inner22 (grad_of S u k) (grad_of S u k) + 2 * t * inner22 (grad_of S u k) (grad_of S v k) + t * t * inner22 (grad_of S v k) (grad_of S v k))).
  - apply over_nonneg; [exact W |]. intros k. generalize (grad_of S u k) (grad_of S v k). intros [[a b] [c d]] [[a' b'] [c' d']]. unfold inner22. cbn [fst snd].
    replace (a * a + b * b + (c * c + d * d) + 2 * t * (a * a' + b * b' + (c * c' + d * d')) + t * t * (a' * a' + b' * b' + (c' * c' + d' * d')))
      with ((a + t * a') * (a + t * a') + (b + t * b') * (b + t * b') + ((c + t * c') * (c + t * c') + (d + t * d') * (d + t * d'))) by ring.
    generalize (a + t * a') (b + t * b') (c + t * c') (d + t * d'). intros. nra.
  - unfold energy. rewrite <- !over_scal, <- !over_plus. reflexivity.
Qed.
Lemma paired_bound S u p : (forall k, (k < s_pts S)%nat -> 0 <= s_w S k) -> paired S u p * paired S u p <= 2 * (energy S u u * mass S p p).
Proof.
  intros W. assert (H := over_cauchy S (press S p) (fun k => trace_of (grad_of S u k)) W). fold (paired S u p) in H. fold (mass S p p) in H.
  assert (D : over S (fun k => trace_of (grad_of S u k) * trace_of (grad_of S u k)) <= 2 * energy S u u).
  { assert (0 <= over S (fun k => 2 * inner22 (grad_of S u k) (grad_of S u k) + -1 * (trace_of (grad_of S u k) * trace_of (grad_of S u k)))).
    - apply over_nonneg; [exact W |]. intros k. generalize (grad_of S u k). intros [[a b] [c d]]. unfold inner22, trace_of. cbn [fst snd].
      replace (2 * (a * a + b * b + (c * c + d * d)) + -1 * ((a + d) * (a + d))) with ((a - d) * (a - d) + 2 * (b * b) + 2 * (c * c)) by ring.
      assert (Q := fun r => Rle_0_sqr r). unfold Rsqr in Q. generalize (Q (a - d)) (Q b) (Q c). intros. lra.
    - rewrite over_plus, !over_scal in H0. unfold energy. lra. }
  assert (M : 0 <= mass S p p) by (apply over_nonneg; [exact W | intros; nra]).
  apply Rle_trans with (1 := H). apply Rle_trans with (mass S p p * (2 * energy S u u)); [apply Rmult_le_compat_l; assumption | lra].
Qed.

Lemma bounded n (P : nat -> Prop) : (forall i, P i \/ ~ P i) -> (exists i, (i < n)%nat /\ P i) \/ ~ (exists i, (i < n)%nat /\ P i).
Proof.
  intros D. induction n as [| n [(i & Hi & H) | N]]; [right; intros (i & Hi & _); lia | left; exists i; split; [lia | exact H] |].
  destruct (D n) as [H | H]; [left; exists n; split; [lia | exact H] |]. right. intros (i & Hi & Q).
  destruct (Nat.eq_dec i n) as [-> | E]; [auto |]. apply N. exists i. split; [lia | exact Q].
Qed.
