(** Specification vocabulary and proofs for BiotModel.v *)
From Coq Require Import Lra Lia.
From Verif Require Import BiotModel VesselProofs LayerProofs.
Local Open Scope R_scope.

(** Norms where norms are expected, positive parameters, unit normals, positive weights *)
Definition sound (b : biot) : Prop :=
  norm (nV b) (b_mV b) /\ norm (nQ b) (b_mQ b) /\ norm (nU b) (b_eU b) /\ square (nU b) (b_dU b) /\ norm (nF b) (b_eF b) /\
  0 < dt b /\ 0 < mu_f b /\ 0 < mu_p b /\ 0 <= lbd_p b /\ 0 < perm b /\ 0 <= s0 b /\
  forall k, (k < b_pts b)%nat -> 0 < b_w b k /\ dot2 (b_n b k) (b_n b k) = 1.
(** The tangential part of a vector at a point *)
Definition tangential (n a : R * R) : R * R := (fst a - dot2 a n * fst n, snd a - dot2 a n * snd n).
Definition size2 (a : R * R) : R := dot2 a a.
Definition minus2 (a c : R * R) : R * R := (fst a - fst c, snd a - snd c).
(** What friction takes out of the system with displacements S and velocities T on the interface *)
Definition dissipated (b : biot) (S T : nat -> R * R) : R := friction b S S - friction b S T - friction b T S + dt b * friction b T T.
Definition neg (x : fvec) : fvec := fun i => - x i.

Lemma over_ext b f g : (forall k, (k < b_pts b)%nat -> f k = g k) -> over b f = over b g.
Proof. intros H. apply rsum_ext. intros k Hk. rewrite H by exact Hk. reflexivity. Qed.
Lemma over_plus b f g : over b (fun k => f k + g k) = over b f + over b g.
Proof. unfold over. rewrite <- rsum_plus. apply rsum_ext. intros. ring. Qed.
Lemma over_minus b f g : over b (fun k => f k - g k) = over b f - over b g.
Proof. unfold over. rewrite <- rsum_minus. apply rsum_ext. intros. ring. Qed.
Lemma over_scal b a f : over b (fun k => a * f k) = a * over b f.
Proof. unfold over. rewrite <- rsum_scal. apply rsum_ext. intros. ring. Qed.
Lemma over_nonneg b f : sound b -> (forall k, (k < b_pts b)%nat -> 0 <= f k) -> 0 <= over b f.
Proof. intros S H. apply rsum_nonneg. intros k Hk. apply Rmult_le_pos; [|apply H, Hk]. destruct S as (_ & _ & _ & _ & _ & _ & _ & _ & _ & _ & _ & P). left. apply P, Hk. Qed.
Lemma friction_sym b S T : friction b S T = friction b T S.
Proof. unfold friction. rewrite <- !over_minus. apply over_ext; intros; unfold dot2; ring. Qed.
Lemma friction_tangential b S T : (forall k, (k < b_pts b)%nat -> dot2 (b_n b k) (b_n b k) = 1) ->
  friction b S T = 1 / dt b * over b (fun k => dot2 (tangential (b_n b k) (S k)) (tangential (b_n b k) (T k))).
Proof.
  intros U. unfold friction. rewrite <- over_minus, <- over_scal. apply over_ext. intros k Hk. specialize (U k Hk). unfold n_f, tangential.
  destruct (b_n b k) as [n1 n2], (S k) as [a1 a2], (T k) as [c1 c2]. unfold dot2 in *. cbn [fst snd] in *. set (i := 1 / dt b).
  replace (i * ((a1 - (a1 * n1 + a2 * n2) * n1) * (c1 - (c1 * n1 + c2 * n2) * n1) + (a2 - (a1 * n1 + a2 * n2) * n2) * (c2 - (c1 * n1 + c2 * n2) * n2)))
    with (i * (a1 * c1 + a2 * c2 - (2 - (n1 * n1 + n2 * n2)) * ((a1 * n1 + a2 * n2) * (c1 * n1 + c2 * n2)))) by ring. rewrite U. ring.
Qed.
Lemma rsum_opp n f : rsum n (fun i => - f i) = - rsum n f.
Proof. induction n as [|n IH]; cbn [rsum]; [ring|rewrite IH; ring]. Qed.
Lemma trace2_minus n t u v k : trace2 n t (minus u v) k = minus2 (trace2 n t u k) (trace2 n t v k).
Proof. unfold trace2, minus2, minus. cbn [fst snd]. f_equal; rewrite <- rsum_minus; apply rsum_ext; intros; ring. Qed.
Lemma trace2_null n t u k : null n u -> trace2 n t u k = (0, 0).
Proof. intros N. unfold trace2. f_equal; apply rsum_zero; intros i Hi; rewrite N by exact Hi; ring. Qed.
Lemma XI_neg b l k : XI b (neg l) k = - XI b l k.
Proof. unfold XI, neg. rewrite <- rsum_opp. apply rsum_ext. intros; ring. Qed.
Lemma XI_minus b l m k : XI b (minus l m) k = XI b l k - XI b m k.
Proof. unfold XI, minus. rewrite <- rsum_minus. apply rsum_ext. intros; ring. Qed.
Lemma paired_neg b l T n : paired b (neg l) T n = - paired b l T n.
Proof. unfold paired. replace (- over b _) with (-1 * over b (fun k => XI b l k * dot2 (T k) (n k))) by ring. rewrite <- over_scal. apply over_ext. intros k _. rewrite XI_neg. ring. Qed.
Lemma paired_minus b l m T n : paired b (minus l m) T n = paired b l T n - paired b m T n.
Proof. unfold paired. rewrite <- over_minus. apply over_ext. intros k _. rewrite XI_minus. ring. Qed.
Lemma paired_minus_trace b l nn t u v n : paired b l (trace2 nn t (minus u v)) n = paired b l (trace2 nn t u) n - paired b l (trace2 nn t v) n.
Proof. unfold paired. rewrite <- over_minus. apply over_ext. intros k _. rewrite trace2_minus. unfold minus2, dot2. cbn [fst snd]. ring. Qed.
Lemma friction_minus b nn t u v T : friction b T (trace2 nn t (minus u v)) = friction b T (trace2 nn t u) - friction b T (trace2 nn t v).
Proof. unfold friction. rewrite <- !over_minus. apply over_ext. intros k _. rewrite trace2_minus. unfold minus2, dot2. cbn [fst snd]. ring. Qed.
Lemma form_neg_r n m F x y : form n m F x (neg y) = - form n m F x y.
Proof. unfold form. rewrite <- rsum_opp. apply rsum_ext. intros i _. unfold neg. rewrite <- rsum_opp || rewrite Ropp_mult_distr_r, <- rsum_opp. apply rsum_ext || f_equal; intros; ring. Qed.

(** ** Balance *)
Lemma balance b up pp dp uf pf lbd : AA b up pp dp uf pf lbd up (neg pp) dp uf (neg pf) (neg lbd) =
  mu_p b / perm b * form (nV b) (nV b) (b_mV b) up up - s0 b / dt b * form (nQ b) (nQ b) (b_mQ b) pp pp +
  (mu_p b / dt b * form (nU b) (nU b) (b_eU b) dp dp + lbd_p b * form (nU b) (nU b) (b_dU b) dp dp) + 2 * mu_f b * form (nF b) (nF b) (b_eF b) uf uf +
  dissipated b (TU b dp) (TF b uf).
Proof.
  unfold AA, row0, row1, row2, row3, row4, row5, dissipated. rewrite !form_neg_r, !paired_neg. ring.
Qed.
Lemma dissipated_squares b S T : sound b -> dissipated b S T =
  1 / dt b * over b (fun k => size2 (tangential (b_n b k) (minus2 (S k) (T k)))) + (1 - 1 / dt b) * over b (fun k => size2 (tangential (b_n b k) (T k))).
Proof.
  intros SO. assert (D : 0 < dt b) by apply SO. assert (U : forall k, (k < b_pts b)%nat -> dot2 (b_n b k) (b_n b k) = 1) by apply SO.
  unfold dissipated. rewrite !friction_tangential by exact U.
  assert (E : over b (fun k => size2 (tangential (b_n b k) (minus2 (S k) (T k)))) =
    over b (fun k => dot2 (tangential (b_n b k) (S k)) (tangential (b_n b k) (S k))) - over b (fun k => dot2 (tangential (b_n b k) (S k)) (tangential (b_n b k) (T k)))
    - over b (fun k => dot2 (tangential (b_n b k) (T k)) (tangential (b_n b k) (S k))) + over b (fun k => dot2 (tangential (b_n b k) (T k)) (tangential (b_n b k) (T k)))).
  { rewrite <- !over_minus, <- over_plus. apply over_ext. intros k _. unfold size2, tangential, minus2, dot2. cbn [fst snd]. ring. }
  rewrite E. unfold size2. field. lra.
Qed.
Lemma size2_nonneg a : 0 <= size2 a.
Proof. unfold size2, dot2. pose proof (pow2_ge_0 (fst a)). pose proof (pow2_ge_0 (snd a)). nra. Qed.
