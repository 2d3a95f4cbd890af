(** C117: the system of the optimal control problem *)
From Coq Require Import Field.
From Verif Require Import ControlModel MatProofs ControlProofs.
Local Close Scope Q_scope.
Local Open Scope Qc_scope.
Definition half : Qc := / (1 + 1).

Section Control.
Variables (n m : nat) (dxQQ dxQV dxVV gVV bVV : nat -> nat -> Qc) (bVf : nat -> Qc) (eps : Qc).
(** The weak form of - Delta u + u + p = 0 with grad(u).n = 0 *)
Definition state (p u : vec) : Prop := forall b, length b = m ->
  form m m gVV u b + form m m dxVV u b + form n m dxQV p b = 0.
(** c (1/2 |T u|^2 - (T u, f)) + a/2 |p|^2, that is c/2 |T u - f|^2 + a/2 |p|^2 up to c/2 |f|^2 *)
Definition cost (c a : Qc) (p u : vec) : Qc := c * (half * form m m bVV u u - linear m bVf u) + a * half * form n n dxQQ p p.
Definition sizes (p u : vec) : Prop := length p = n /\ length u = m.
Definition optimal (c a : Qc) (p u : vec) : Prop := state p u /\ forall p' u', sizes p' u' -> state p' u' -> cost c a p u <= cost c a p' u'.
(** Integrals: of products of functions *)
Definition integrals : Prop := symmetric n dxQQ /\ symmetric m dxVV /\ symmetric m gVV /\ symmetric m bVV /\ nonneg n dxQQ /\ nonneg m bVV.
End Control.

Section System.
Variables (n m : nat) (dxQQ dxQV dxVV gVV bVV : nat -> nat -> Qc) (bVf : nat -> Qc) (eps : Qc).
Notation Solves := (solves n m dxQQ dxQV dxVV gVV bVV bVf eps).
Notation State := (state n m dxQV dxVV gVV).
Notation Cost := (cost n m dxQQ bVV bVf).
Notation Optimal := (optimal n m dxQQ dxQV dxVV gVV bVV bVf).
Notation Integrals := (integrals n m dxQQ dxVV gVV bVV).

Lemma weak p u l : symmetric n dxQQ -> symmetric m bVV -> sizes n m p u -> length l = m ->
  (Solves p u l <-> (forall q, length q = n -> eps * form n n dxQQ q p + form n m dxQV q l = 0) /\
    (forall v, length v = m -> form m m bVV v u + (form m m gVV v l + form m m dxVV v l) = linear m bVf v) /\ State p u).
Proof.
  intros SQ SB [Lp Lu] Ll. unfold solves, row0, row1, row2. rewrite (rows_weak n), (rows_weak m), (rows_weak m) by (unfold vadd, mv, L0, L1, L2; rewrite ?vtab_length; reflexivity).
  assert (E0 : forall q, sumn n (fun i => vnth q i * vnth (vadd (mv (a00 n dxQQ eps) p) (mv (a02 n m dxQV) l)) i) = eps * form n n dxQQ q p + form n m dxQV q l).
  { intros q. rewrite sum_vadd by apply mv_length. change (sumn n (fun i => vnth q i * vnth (mv (a02 n m dxQV) l) i)) with (sumn (nr (a02 n m dxQV)) (fun i => vnth q i * vnth (mv (a02 n m dxQV) l) i)). rewrite mv_form.
    change (sumn n (fun i => vnth q i * vnth (mv (a00 n dxQQ eps) p) i)) with (sumn (nr (a00 n dxQQ eps)) (fun i => vnth q i * vnth (mv (a00 n dxQQ eps) p) i)). rewrite mv_form. cbn [nr nc ent a00 a02]. rewrite form_scale. rewrite (form_swap n n (fun i j => dxQQ j i)). cbv beta. change (fun i j : nat => dxQQ i j) with dxQQ. rewrite (form_sym n dxQQ p q SQ). reflexivity. }
  assert (E1 : forall v, sumn m (fun i => vnth v i * vnth (vadd (mv (a11 m bVV) u) (mv (a12 m dxVV gVV) l)) i) = form m m bVV v u + (form m m gVV v l + form m m dxVV v l)).
  { intros v. rewrite sum_vadd by apply mv_length. change (sumn m (fun i => vnth v i * vnth (mv (a11 m bVV) u) i)) with (sumn (nr (a11 m bVV)) (fun i => vnth v i * vnth (mv (a11 m bVV) u) i)). rewrite mv_form.
    change (sumn m (fun i => vnth v i * vnth (mv (a12 m dxVV gVV) l) i)) with (sumn (nr (a12 m dxVV gVV)) (fun i => vnth v i * vnth (mv (a12 m dxVV gVV) l) i)). rewrite mv_form. cbn [nr nc ent a11 a12]. rewrite form_plus. rewrite (form_swap m m (fun i j => bVV j i)). cbv beta. change (fun i j : nat => bVV i j) with bVV. rewrite (form_sym m bVV u v SB). reflexivity. }
  assert (E2 : forall b, sumn m (fun i => vnth b i * vnth (vadd (mv (a20 n m dxQV) p) (mv (a21 m dxVV gVV) u)) i) = form m m gVV u b + form m m dxVV u b + form n m dxQV p b).
  { intros b. rewrite sum_vadd by apply mv_length. change (sumn m (fun i => vnth b i * vnth (mv (a20 n m dxQV) p) i)) with (sumn (nr (a20 n m dxQV)) (fun i => vnth b i * vnth (mv (a20 n m dxQV) p) i)). rewrite mv_form.
    change (sumn m (fun i => vnth b i * vnth (mv (a21 m dxVV gVV) u) i)) with (sumn (nr (a21 m dxVV gVV)) (fun i => vnth b i * vnth (mv (a21 m dxVV gVV) u) i)). rewrite mv_form. cbn [nr nc ent a20 a21]. rewrite form_swap. rewrite (form_swap m m). cbv beta. rewrite form_plus. change (fun i j : nat => dxQV i j) with dxQV. ring. }
  split.
  - intros (H0 & H1 & H2). split; [| split].
    + intros q Lq. rewrite <- E0, (H0 q Lq). unfold L0. rewrite sum_vtab. apply linear_zero.
    + intros v Lv. rewrite <- E1, (H1 v Lv). unfold L1. apply sum_vtab.
    + intros b Lb. rewrite <- E2, (H2 b Lb). unfold L2. rewrite sum_vtab. apply linear_zero.
  - intros (H0 & H1 & H2). split; [| split].
    + intros q Lq. rewrite E0, (H0 q Lq). unfold L0. rewrite sum_vtab. symmetry. apply linear_zero.
    + intros v Lv. rewrite E1, (H1 v Lv). unfold L1. symmetry. apply sum_vtab.
    + intros b Lb. rewrite E2, (H2 b Lb). unfold L2. rewrite sum_vtab. symmetry. apply linear_zero.
Qed.
(** The change of the cost along a direction *)
Lemma along c a p u q v t : symmetric n dxQQ -> symmetric m bVV -> sizes n m p u -> sizes n m q v ->
  Cost c a (step p t q) (step u t v) = Cost c a p u + t * (c * (form m m bVV v u - linear m bVf v) + a * form n n dxQQ q p) + t * t * (c * half * form m m bVV v v + a * half * form n n dxQQ q q).
Proof.
  intros SQ SB [Lp Lu] [Lq Lv]. unfold cost. rewrite !form_step_l, !form_step_r, linear_step by (rewrite ?step_length; assumption). rewrite (form_sym m bVV u v SB), (form_sym n dxQQ p q SQ).
  assert (H : half + half = 1) by (unfold half; field; discriminate).
  transitivity (c * (half * form m m bVV u u - linear m bVf u) + a * half * form n n dxQQ p p + t * (c * ((half + half) * form m m bVV v u - linear m bVf v) + a * ((half + half) * form n n dxQQ q p)) + t * t * (c * half * form m m bVV v v + a * half * form n n dxQQ q q)); [ring | rewrite H; ring].
Qed.
Lemma direction p u p' u' : sizes n m p u -> sizes n m p' u' -> State p u -> State p' u' -> State (step p' (- (1)) p) (step u' (- (1)) u).
Proof.
  intros [Lp Lu] [Lp' Lu'] S S' b Lb. rewrite !form_step_l by assumption. specialize (S b Lb). specialize (S' b Lb).
  transitivity ((form m m gVV u' b + form m m dxVV u' b + form n m dxQV p' b) - (form m m gVV u b + form m m dxVV u b + form n m dxQV p b)); [ring | rewrite S, S'; ring].
Qed.

(** A solution of the system is optimal for 1/2 |T u - f|^2 + eps/2 |p|^2 *)
Theorem C117_optimal p u l : Integrals -> 0 <= eps -> sizes n m p u -> length l = m -> Solves p u l -> Optimal 1 eps p u.
Proof.
  intros (SQ & SV & SG & SB & NQ & NB) He Z Ll H. apply weak in H; [| assumption ..]. destruct H as (H0 & H1 & S). split; [exact S |]. intros p' u' Z' S'.
  pose proof (direction p u p' u' Z Z' S S') as D. set (q := step p' (- (1)) p) in *. set (v := step u' (- (1)) u) in *.
  assert (Lq : length q = n) by (unfold q; rewrite step_length; apply Z'). assert (Lv : length v = m) by (unfold v; rewrite step_length; apply Z').
  pose proof (along 1 eps p u q v 1 SQ SB Z (conj Lq Lv)) as A. assert (Eq : step p 1 q = p') by (apply (step_back n); [apply Z | apply Z']). assert (Ev : step u 1 v = u') by (apply (step_back m); [apply Z | apply Z']). rewrite Eq, Ev in A.
  rewrite A. apply qsub. specialize (H0 q Lq). specialize (H1 v Lv). specialize (D l Ll).
  assert (E : 1 * (form m m bVV v u - linear m bVf v) + eps * form n n dxQQ q p = 0).
  { transitivity ((form m m bVV v u + (form m m gVV v l + form m m dxVV v l) - linear m bVf v) + (eps * form n n dxQQ q p + form n m dxQV q l) - (form m m gVV v l + form m m dxVV v l + form n m dxQV q l)); [ring | rewrite H0, H1, D; ring]. }
  rewrite E. replace (_ - _) with (half * form m m bVV v v + eps * half * form n n dxQQ q q) by ring.
  rewrite <- (Qcplus_0_r 0). apply Qcplus_le_compat.
  - rewrite <- (Qcmult_0_r half), !(Qcmult_comm half). apply Qcmult_le_compat_r; [apply NB, Lv | discriminate].
  - rewrite <- (Qcmult_0_l (form n n dxQQ q q)). apply Qcmult_le_compat_r; [| apply NQ, Lq]. rewrite <- (Qcmult_0_l half). apply Qcmult_le_compat_r; [exact He | discriminate].
Qed.

(** Conversely, if the elliptic problem has solutions: an optimal pair has a multiplier with which it solves the system *)
Definition solvable : Prop :=
  (forall f : nat -> Qc, exists u, length u = m /\ forall b, length b = m -> form m m gVV u b + form m m dxVV u b = linear m f b).
Theorem C117_multiplier p u : Integrals -> solvable -> sizes n m p u -> Optimal 1 eps p u -> exists l, length l = m /\ Solves p u l.
Proof.
  intros (SQ & SV & SG & SB & NQ & NB) K Z [S O].
  destruct (K (fun i => bVf i - sumn m (fun j => bVV i j * vnth u j))) as (l & Ll & Hl). exists l. split; [exact Ll |]. apply weak; [assumption .. |].
  assert (H1 : forall v, length v = m -> form m m bVV v u + (form m m gVV v l + form m m dxVV v l) = linear m bVf v).
  { intros v Lv. specialize (Hl v Lv). rewrite (form_sym m gVV v l SG), (form_sym m dxVV v l SV), Hl. unfold linear, form. rewrite <- sumn_plus. apply sumn_ext. intros i _.
    rewrite (sumn_ext m (fun j => vnth v i * bVV i j * vnth u j) (fun j => vnth v i * (bVV i j * vnth u j))) by (intros; ring). rewrite sumn_scal. ring. }
  split; [| split; [exact H1 | exact S]]. intros q Lq.
  destruct (K (fun j => - sumn n (fun i => vnth q i * dxQV i j))) as (v & Lv & Hv).
  assert (D : State q v).
  { intros b Lb. rewrite (Hv b Lb). unfold linear. rewrite form_swap. unfold form. rewrite <- sumn_plus. apply sumn_zero. intros j _.
    rewrite (sumn_ext n (fun i => vnth b j * dxQV i j * vnth q i) (fun i => vnth b j * (vnth q i * dxQV i j))) by (intros; ring). rewrite sumn_scal. change q0 with 0. ring. }
  assert (F : 1 * (form m m bVV v u - linear m bVf v) + eps * form n n dxQQ q p = 0).
  { apply (flat _ (1 * half * form m m bVV v v + eps * half * form n n dxQQ q q)). intros t.
    assert (St : State (step p t q) (step u t v)). { intros b Lb. destruct Z as [Zp Zu]. rewrite !form_step_l by assumption. specialize (S b Lb). specialize (D b Lb). transitivity ((form m m gVV u b + form m m dxVV u b + form n m dxQV p b) + t * (form m m gVV v b + form m m dxVV v b + form n m dxQV q b)); [ring | rewrite S, D; ring]. }
    specialize (O (step p t q) (step u t v)). destruct Z as [Zp Zu]. specialize (O ltac:(split; rewrite step_length; assumption) St). rewrite (along 1 eps p u q v t SQ SB (conj Zp Zu) (conj Lq Lv)) in O.
    apply Qcle_minus_iff in O. replace (_ + _) with (t * (1 * (form m m bVV v u - linear m bVf v) + eps * form n n dxQQ q p) + t * t * (1 * half * form m m bVV v v + eps * half * form n n dxQQ q q)) in O by ring. exact O. }
  specialize (D l Ll). specialize (H1 v Lv).
  transitivity ((1 * (form m m bVV v u - linear m bVf v) + eps * form n n dxQQ q p) - (form m m bVV v u + (form m m gVV v l + form m m dxVV v l) - linear m bVf v) + (form m m gVV v l + form m m dxVV v l + form n m dxQV q l)); [ring | rewrite F, H1, D; ring].
Qed.

(** There is one solution of the system *)
Theorem C117_unique p u l p' u' l' : Integrals -> 0 < eps -> positive n dxQQ -> positive m (fun i j => gVV i j + dxVV i j) ->
  sizes n m p u -> length l = m -> sizes n m p' u' -> length l' = m -> Solves p u l -> Solves p' u' l' -> p = p' /\ u = u' /\ l = l'.
Proof.
  intros (SQ & SV & SG & SB & NQ & NB) He PQ PV Z Ll Z' Ll' H H'. apply weak in H; [| assumption ..]. apply weak in H'; [| assumption ..]. destruct H as (H0 & H1 & S). destruct H' as (H0' & H1' & S').
  pose proof (direction p u p' u' Z Z' S S') as D. destruct Z as [Lp Lu]. destruct Z' as [Lp' Lu'].
  set (q := step p' (- (1)) p) in *. set (v := step u' (- (1)) u) in *. set (k := step l' (- (1)) l) in *.
  assert (Lq : length q = n) by (unfold q; rewrite step_length; assumption). assert (Lv : length v = m) by (unfold v; rewrite step_length; assumption). assert (Lk : length k = m) by (unfold k; rewrite step_length; assumption).
  assert (D0 : forall r, length r = n -> eps * form n n dxQQ r q + form n m dxQV r k = 0).
  { intros r Lr. unfold q, k. rewrite !form_step_r by assumption. specialize (H0 r Lr). specialize (H0' r Lr). transitivity ((eps * form n n dxQQ r p' + form n m dxQV r l') - (eps * form n n dxQQ r p + form n m dxQV r l)); [ring | rewrite H0, H0'; ring]. }
  assert (D1 : forall w, length w = m -> form m m bVV w v + (form m m gVV w k + form m m dxVV w k) = 0).
  { intros w Lw. unfold v, k. rewrite !form_step_r by assumption. specialize (H1 w Lw). specialize (H1' w Lw). transitivity ((form m m bVV w u' + (form m m gVV w l' + form m m dxVV w l')) - (form m m bVV w u + (form m m gVV w l + form m m dxVV w l))); [ring | rewrite H1, H1'; ring]. }
  assert (Q : q = repeat q0 n).
  { apply PQ; [exact Lq |]. specialize (D0 q Lq). specialize (D1 v Lv). specialize (D k Lk). specialize (NB v Lv).
    assert (E : eps * form n n dxQQ q q = - form m m bVV v v).
    { transitivity ((eps * form n n dxQQ q q + form n m dxQV q k) - (form m m gVV v k + form m m dxVV v k + form n m dxQV q k) + (form m m bVV v v + (form m m gVV v k + form m m dxVV v k)) - form m m bVV v v); [ring | rewrite D0, D1, D; ring]. }
    destruct (Qclt_le_dec 0 (form n n dxQQ q q)) as [L | L]; [exfalso | exact L]. apply (Qcmult_lt_compat_r _ _ _ L) in He. rewrite Qcmult_0_l, E in He. apply (Qclt_not_le _ _ He). apply qsub. replace (0 - - form m m bVV v v) with (form m m bVV v v) by ring. exact NB. }
  assert (ZL : forall F y, form n m F (repeat q0 n) y = 0).
  { intros F y. unfold form. apply sumn_zero. intros i _. apply sumn_zero. intros j _. unfold vnth at 1. rewrite nth_repeat. change q0 with 0. ring. }
  assert (V : v = repeat q0 m).
  { apply PV; [exact Lv |]. rewrite form_plus. specialize (D v Lv). rewrite Q, ZL in D. rewrite Qcplus_0_r in D. rewrite D. apply Qcle_refl. }
  assert (K : k = repeat q0 m).
  { apply PV; [exact Lk |]. rewrite form_plus. specialize (D1 k Lk). rewrite V in D1. rewrite form_swap in D1. assert (ZM : forall F y, form m m F (repeat q0 m) y = 0) by (intros F y; unfold form; apply sumn_zero; intros i _; apply sumn_zero; intros j _; unfold vnth at 1; rewrite nth_repeat; change q0 with 0; ring). rewrite ZM, Qcplus_0_l in D1. rewrite D1. apply Qcle_refl. }
  split; [| split]; [apply (step_zero n) | apply (step_zero m) | apply (step_zero m)]; assumption.
Qed.

(** The objective of line 1, |u - f|^2 + alpha/2 |p|^2, is that of the system for alpha = 2 eps *)
Theorem C117_header_partial p u l : Integrals -> 0 <= eps -> sizes n m p u -> length l = m -> Solves p u l -> Optimal (1 + 1) (eps + eps) p u.
Proof.
  intros I He Z Ll H. destruct (C117_optimal p u l I He Z Ll H) as [S O]. split; [exact S |]. intros p' u' Z' S'. specialize (O p' u' Z' S').
  assert (E : forall p u, Cost (1 + 1) (eps + eps) p u = Cost 1 eps p u + Cost 1 eps p u) by (intros x y; unfold cost; ring). rewrite !E. apply Qcplus_le_compat; exact O.
Qed.

(** The preconditioners of 65-110 that are given to AMG are symmetric and positive definite.  [D] are the
    inverse row sums of a mass matrix *)
Variable D : nat -> Qc.
Lemma nielsen_form x : length x = m -> symmetric m bVV -> symmetric m gVV -> symmetric m dxVV ->
  form m m (ent (B11_nielsen m dxVV gVV bVV eps D)) x x = form m m bVV x x + eps * sumn m (fun k => D k * (vnth (mv (a21 m dxVV gVV) x) k * vnth (mv (a21 m dxVV gVV) x) k)).
Proof.
  intros L SB SG SV. unfold B11_nielsen. cbn [ent madd mmul mscale mdiag nc nr]. rewrite form_plus. f_equal; [rewrite form_swap; reflexivity |].
  set (A := fun v u => gVV v u + dxVV v u).
  assert (SA : symmetric m A) by (intros i j Hi Hj; unfold A; rewrite (SG i j Hi Hj), (SV i j Hi Hj); reflexivity).
  rewrite <- sumn_scal. unfold form.
  transitivity (sumn m (fun k => sumn m (fun i => sumn m (fun j => vnth x i * (eps * A i k * D k * A k j) * vnth x j)))).
  - symmetry. rewrite sumn_swap. apply sumn_ext. intros i Hi. rewrite sumn_swap. apply sumn_ext. intros j Hj. rewrite sumn_scal_r. f_equal. rewrite sumn_scal. f_equal. apply sumn_ext. intros k Hk. f_equal.
    symmetry. rewrite (sumn_single m k); [rewrite Nat.eqb_refl; reflexivity | exact Hk |]. intros k' Hk' N. destruct (Nat.eqb_spec k' k); [contradiction |]. change q0 with 0. ring.
  - apply sumn_ext. intros k Hk. rewrite vnth_mv by exact Hk. cbn [nc a21 ent].
    rewrite (sumn_ext m (fun i => sumn m (fun j => vnth x i * (eps * A i k * D k * A k j) * vnth x j)) (fun i => (gVV i k + dxVV i k) * vnth x i * (eps * D k * sumn m (fun j => A k j * vnth x j)))).
    + rewrite sumn_scal_r. rewrite (sumn_ext m (fun j => A k j * vnth x j) (fun j => (gVV j k + dxVV j k) * vnth x j)); [ring |]. intros j Hj. rewrite (SA k j Hk Hj). reflexivity.
    + intros i Hi. rewrite <- sumn_scal. rewrite <- sumn_scal. apply sumn_ext. intros j Hj. unfold A. ring.
Qed.
Lemma sum_squares_pos k f : (forall i, (i < k)%nat -> 0 < D i) -> 0 <= sumn k (fun i => D i * (f i * f i)) /\ (sumn k (fun i => D i * (f i * f i)) <= 0 -> forall i, (i < k)%nat -> f i = 0).
Proof.
  intros H. assert (T : forall i, (i < k)%nat -> 0 <= D i * (f i * f i) /\ (D i * (f i * f i) <= 0 -> f i = 0)).
  { intros i Hi. pose proof (H i Hi) as Hd. assert (SQ : 0 <= f i * f i /\ (f i <> 0 -> 0 < f i * f i)).
    { destruct (Qclt_le_dec 0 (f i)) as [P | P].
      - assert (0 < f i * f i) by (rewrite <- (Qcmult_0_l (f i)) at 1; apply Qcmult_lt_compat_r; exact P). split; [apply Qclt_le_weak |]; auto.
      - destruct (Qcle_lt_or_eq _ _ P) as [P' | E]; [| split; [rewrite E; discriminate | intros N; contradiction]].
        assert (N : 0 < - f i) by (apply Qclt_minus_iff in P'; rewrite Qcplus_0_l in P'; exact P'). assert (0 < f i * f i) by (replace (f i * f i) with (- f i * - f i) by ring; rewrite <- (Qcmult_0_l (- f i)) at 1; apply Qcmult_lt_compat_r; exact N). split; [apply Qclt_le_weak |]; auto. }
    destruct SQ as [S1 S2]. split.
    - rewrite <- (Qcmult_0_l (f i * f i)). apply Qcmult_le_compat_r; [apply Qclt_le_weak, Hd | exact S1].
    - intros Z. destruct (Qc_eq_dec (f i) 0) as [E | N]; [exact E | exfalso]. apply (Qclt_not_le 0 (D i * (f i * f i))); [| exact Z]. rewrite <- (Qcmult_0_l (f i * f i)). apply Qcmult_lt_compat_r; auto. }
  clear H. induction k as [| k IH]; [split; [discriminate | intros; lia] |]. destruct IH as [I1 I2]; [intros i Hi; apply T; lia |]. destruct (T k ltac:(lia)) as [T1 T2]. cbn [sumn]. split.
  - rewrite <- (Qcplus_0_r 0). apply Qcplus_le_compat; assumption.
  - intros Z i Hi. set (a := sumn k _) in *. set (b := D k * (f k * f k)) in *.
    assert (Za : a <= 0) by (apply (Qcle_trans _ (a + b)); [rewrite <- (Qcplus_0_r a) at 1; apply Qcplus_le_compat; [apply Qcle_refl | exact T1] | exact Z]).
    assert (Zb : b <= 0) by (apply (Qcle_trans _ (a + b)); [rewrite <- (Qcplus_0_l b) at 1; apply Qcplus_le_compat; [exact I1 | apply Qcle_refl] | exact Z]).
    destruct (Nat.eq_dec i k) as [-> | N]; [apply T2, Zb | apply I2; [exact Za | lia]].
Qed.
Theorem C117_nielsen : Integrals -> 0 < eps -> (forall i, (i < m)%nat -> 0 < D i) -> positive m (fun i j => gVV i j + dxVV i j) ->
  let B := B11_nielsen m dxVV gVV bVV eps D in nr B = m /\ nc B = m /\ symmetric m (ent B) /\ nonneg m (ent B) /\ positive m (ent B).
Proof.
  intros (SQ & SV & SG & SB & NQ & NB) He HD PA B. split; [reflexivity |]. split; [reflexivity |].
  assert (F : forall x, length x = m -> form m m (ent B) x x = form m m bVV x x + eps * sumn m (fun k => D k * (vnth (mv (a21 m dxVV gVV) x) k * vnth (mv (a21 m dxVV gVV) x) k))) by (intros x L; apply nielsen_form; assumption).
  split; [| split].
  - intros i j Hi Hj. unfold B, B11_nielsen. cbn [ent madd mmul mscale mdiag nc nr]. f_equal; [symmetry; apply SB; assumption |]. apply sumn_ext. intros k Hk.
    rewrite !(sumn_single m k); try exact Hk; [| intros k' Hk' N; destruct (Nat.eqb_spec k' k); [contradiction | change q0 with 0; ring] ..].
    rewrite Nat.eqb_refl, (SG i k Hi Hk), (SV i k Hi Hk), (SG j k Hj Hk), (SV j k Hj Hk). ring.
  - intros x L. rewrite (F x L). rewrite <- (Qcplus_0_r 0). apply Qcplus_le_compat; [apply NB, L |]. rewrite <- (Qcmult_0_r eps), !(Qcmult_comm eps). apply Qcmult_le_compat_r; [| apply Qclt_le_weak, He]. apply (sum_squares_pos m); exact HD.
  - intros x L Z. rewrite (F x L) in Z. set (s := sumn m _) in *. destruct (sum_squares_pos m (fun k => vnth (mv (a21 m dxVV gVV) x) k) HD) as [S1 S2]. fold s in S1, S2.
    assert (Zs : s <= 0). { destruct (Qclt_le_dec 0 s) as [P | P]; [exfalso | exact P]. apply (Qclt_not_le 0 (form m m bVV x x + eps * s)); [| exact Z]. apply (Qclt_le_trans _ (eps * s)).
      - rewrite <- (Qcmult_0_l s). apply Qcmult_lt_compat_r; assumption.
      - rewrite <- (Qcplus_0_l (eps * s)) at 1. apply Qcplus_le_compat; [apply NB, L | apply Qcle_refl]. }
    specialize (S2 Zs). apply PA; [exact L |]. rewrite form_swap. change (fun i j => gVV j i + dxVV j i) with (ent (a21 m dxVV gVV)).
    pose proof (mv_form (a21 m dxVV gVV) x x) as M. cbn [nr nc a21] in M. rewrite <- M. rewrite sumn_zero; [discriminate |]. intros i Hi. specialize (S2 i Hi). cbn [nr nc a21] in S2. rewrite S2. change q0 with 0. ring.
Qed.
Theorem C117_zulehner : Integrals -> 0 < eps -> positive m (fun i j => gVV i j + dxVV i j) -> nonneg m (fun i j => gVV i j + dxVV i j) ->
  let B := B11_zulehner m dxVV gVV bVV eps in nr B = m /\ nc B = m /\ symmetric m (ent B) /\ nonneg m (ent B) /\ positive m (ent B).
Proof.
  intros (SQ & SV & SG & SB & NQ & NB) He PA NA B. split; [reflexivity |]. split; [reflexivity |].
  assert (F : forall x, form m m (ent B) x x = form m m bVV x x + eps * form m m (fun i j => gVV i j + dxVV i j) x x).
  { intros x. unfold B, B11_zulehner. cbn [ent]. rewrite form_plus, form_scale. f_equal. rewrite form_swap. reflexivity. }
  split; [| split].
  - intros i j Hi Hj. unfold B, B11_zulehner. cbn [ent]. rewrite (SB i j), (SG i j), (SV i j) by assumption. reflexivity.
  - intros x L. rewrite F, <- (Qcplus_0_r 0). apply Qcplus_le_compat; [apply NB, L |]. rewrite <- (Qcmult_0_r eps), !(Qcmult_comm eps). apply Qcmult_le_compat_r; [apply NA, L | apply Qclt_le_weak, He].
  - intros x L Z. rewrite F in Z. apply PA; [exact L |]. set (s := form m m (fun i j => gVV i j + dxVV i j) x x) in *. destruct (Qclt_le_dec 0 s) as [P | P]; [exfalso | exact P]. apply (Qclt_not_le 0 (form m m bVV x x + eps * s)); [| exact Z]. apply (Qclt_le_trans _ (eps * s)).
      + rewrite <- (Qcmult_0_l s). apply Qcmult_lt_compat_r; assumption.
      + rewrite <- (Qcplus_0_l (eps * s)) at 1. apply Qcplus_le_compat; [apply NB, L | apply Qcle_refl].
Qed.
End System.
Print Assumptions C117_header_partial.
Print Assumptions C117_nielsen.
Print Assumptions C117_zulehner.
Print Assumptions C117_optimal.
Print Assumptions C117_multiplier.
Print Assumptions C117_unique.

(** ** With the norm of H^{1/2} of the boundary *)
Section Fractional.
Variables (n m k : nat) (dxQQ dxQV dxVV gVV : nat -> nat -> Qc) (eps : Qc) (T fDelta : mat) (f_vec : vec).
Hypothesis (NT : nr T = k) (CT : nc T = m) (NF : nr fDelta = k) (CF : nc fDelta = k) (Sf : symmetric k (ent fDelta)) (Nf : nonneg k (ent fDelta)).
Notation bVV := (fun u v => ent (A11_fract T fDelta) v u).
Lemma fract_form x y : form m m (ent (A11_fract T fDelta)) x y = form k k (ent fDelta) (mv T x) (mv T y).
Proof.
  transitivity (sumn m (fun i => vnth x i * vnth (mv (A11_fract T fDelta) y) i)).
  - change m with (nr (A11_fract T fDelta)) at 3 || idtac. pose proof (mv_form (A11_fract T fDelta) x y) as M. cbn [nr nc A11_fract mmul mtr] in M. rewrite CT in M. symmetry. exact M.
  - unfold A11_fract. rewrite mv_mmul by (cbn [nc mmul]; congruence). rewrite mv_mmul by (cbn [nc mtr]; congruence). rewrite <- CT at 1. pose proof (mv_form (mtr T) x (mv fDelta (mv T y))) as M. cbn [nr nc mtr] in M. rewrite M. rewrite form_swap. cbn [ent mtr].
    pose proof (mv_form T (mv fDelta (mv T y)) x) as M2. change (form (nr T) (nc T) (fun i j => ent T i j) (mv fDelta (mv T y)) x) with (form (nr T) (nc T) (ent T) (mv fDelta (mv T y)) x). rewrite <- M2.
    pose proof (mv_form fDelta (mv T x) (mv T y)) as M3. rewrite NF, CF in M3. rewrite <- M3, NT. apply sumn_ext. intros i _. ring.
Qed.
Lemma fract_swap x y : form m m bVV x y = form k k (ent fDelta) (mv T x) (mv T y).
Proof. rewrite form_swap. change (form m m (ent (A11_fract T fDelta)) y x = form k k (ent fDelta) (mv T x) (mv T y)). rewrite fract_form. apply form_sym, Sf. Qed.
Lemma fract_symmetric : symmetric m bVV.
Proof.
  intros i j Hi Hj. assert (E : forall a b, (a < m)%nat -> (b < m)%nat -> bVV a b = form m m bVV (unit_vec m a) (unit_vec m b)).
  { intros a b Ha Hb. unfold form. transitivity (sumn m (fun i => vnth (unit_vec m a) i * bVV i b)); [symmetry; apply (sum_unit m a (fun i => bVV i b) Ha) |]. apply sumn_ext. intros i' _.
    transitivity (vnth (unit_vec m a) i' * sumn m (fun j' => vnth (unit_vec m b) j' * bVV i' j')); [f_equal; symmetry; apply (sum_unit m b (fun j' => bVV i' j') Hb) |]. rewrite <- sumn_scal. apply sumn_ext. intros j' _. ring. }
  rewrite (E i j Hi Hj), (E j i Hj Hi), !fract_swap. apply form_sym, Sf.
Qed.
Lemma fract_nonneg : nonneg m bVV.
Proof. intros x _. rewrite fract_swap. apply Nf. rewrite mv_length. exact NT. Qed.
(** 1/2 |T u - T f|^2 + eps/2 |p|^2, with the norm of fDelta *)
Definition fract_cost (p u : vec) : Qc := half * form k k (ent fDelta) (step (mv T u) (- (1)) (mv T f_vec)) (step (mv T u) (- (1)) (mv T f_vec)) + eps * half * form n n dxQQ p p.
Theorem C117_fractional p u l : symmetric n dxQQ -> symmetric m dxVV -> symmetric m gVV -> nonneg n dxQQ -> 0 <= eps -> length f_vec = m -> sizes n m p u -> length l = m ->
  solves_fract n m dxQQ dxQV dxVV gVV eps T fDelta f_vec p u l ->
  state n m dxQV dxVV gVV p u /\ forall p' u', sizes n m p' u' -> state n m dxQV dxVV gVV p' u' -> fract_cost p u <= fract_cost p' u'.
Proof.
  intros SQ SV SG NQ He Lf Z Ll H. assert (I : integrals n m dxQQ dxVV gVV bVV) by (repeat split; try assumption; [exact fract_symmetric | exact fract_nonneg]).
  destruct (C117_optimal n m dxQQ dxQV dxVV gVV bVV _ eps p u l I He Z Ll H) as [S O]. split; [exact S |]. intros p' u' Z' S'. specialize (O p' u' Z' S').
  assert (E : forall p u, fract_cost p u = cost n m dxQQ bVV (fun v => vnth (b1_fract T fDelta f_vec) v) 1 eps p u + half * form k k (ent fDelta) (mv T f_vec) (mv T f_vec)).
  { intros p0 u0. unfold fract_cost, cost. rewrite !form_step_l, !form_step_r by (rewrite mv_length; exact NT). rewrite fract_swap. unfold linear, b1_fract.
    pose proof (mv_form (A11_fract T fDelta) u0 f_vec) as M. cbn [nr nc A11_fract mmul mtr] in M. rewrite CT in M. change (sumn m (fun i => vnth u0 i * vnth (mv (A11_fract T fDelta) f_vec) i) = form m m (ent (A11_fract T fDelta)) u0 f_vec) in M. rewrite M, fract_form.
    rewrite (form_sym k (ent fDelta) (mv T f_vec) (mv T u0) Sf). assert (Hh : half + half = 1) by (unfold half; field; discriminate).
    set (a := form k k (ent fDelta) (mv T u0) (mv T u0)). set (b := form k k (ent fDelta) (mv T u0) (mv T f_vec)). set (c := form k k (ent fDelta) (mv T f_vec) (mv T f_vec)). set (d := eps * half * form n n dxQQ p0 p0).
    transitivity (1 * (half * a - (half + half) * b) + d + half * c); [ring | rewrite Hh; ring]. }
  rewrite !E. apply Qcplus_le_compat; [exact O | apply Qcle_refl].
Qed.
(** What AMG gets is symmetric and positive *)
Theorem C117_fractional_preconditioner : symmetric m dxVV -> symmetric m gVV -> 0 < eps -> positive m (fun i j => gVV i j + dxVV i j) -> nonneg m (fun i j => gVV i j + dxVV i j) ->
  let B := B11_fract m dxVV gVV eps T fDelta in nr B = m /\ nc B = m /\ symmetric m (ent B) /\ nonneg m (ent B) /\ positive m (ent B).
Proof.
  intros SV SG He PA NA B. split; [unfold B; cbn; exact CT |]. split; [unfold B; cbn; exact CT |].
  assert (I : integrals 0 m (fun _ _ => 0) dxVV gVV bVV). { repeat split; try assumption; try (intros i j Hi; lia); [exact fract_symmetric | intros x _; apply Qcle_refl | exact fract_nonneg]. }
  destruct (C117_zulehner 0 m (fun _ _ => 0) dxVV gVV bVV eps I He PA NA) as (_ & _ & K). exact K.
Qed.
End Fractional.
Print Assumptions C117_fractional.
Print Assumptions C117_fractional_preconditioner.

(** Constants on the unit square, f = 1 *)
Definition one (_ _ : nat) : Qc := 1.
Definition none (_ _ : nat) : Qc := 0.
Definition four : Qc := qz 4.
Lemma case_integrals : integrals 1 1 one one none (fun _ _ => four) /\ positive 1 one /\ positive 1 (fun i j => none i j + one i j).
Proof.
  assert (SQ : forall a, 0 <= a * a /\ (a * a <= 0 -> a = 0)).
  { intros a. destruct (Qc_eq_dec a 0) as [-> | N]; [split; [discriminate | reflexivity] |]. assert (P : 0 < a * a).
    { destruct (Qclt_le_dec 0 a) as [P | P]; [rewrite <- (Qcmult_0_l a) at 1; apply Qcmult_lt_compat_r; exact P |]. destruct (Qcle_lt_or_eq _ _ P) as [P' | E]; [| contradiction].
      assert (Na : 0 < - a) by (apply Qclt_minus_iff in P'; rewrite Qcplus_0_l in P'; exact P'). replace (a * a) with (- a * - a) by ring. rewrite <- (Qcmult_0_l (- a)) at 1. apply Qcmult_lt_compat_r; exact Na. }
    split; [apply Qclt_le_weak, P | intros Z; destruct (Qclt_not_le _ _ P Z)]. }
  repeat split; try (intros [| a []] L; try discriminate; cbn [form sumn vnth nth]); try discriminate.
  - change (0 <= 0 + (0 + a * 1 * a)). replace (0 + (0 + a * 1 * a)) with (a * a) by ring. apply SQ.
  - change (0 <= 0 + (0 + a * four * a)). replace (0 + (0 + a * four * a)) with (a * a * four) by ring. rewrite <- (Qcmult_0_l four). apply Qcmult_le_compat_r; [apply SQ | discriminate].
  - intros Z. change (0 + (0 + a * 1 * a) <= 0) in Z. replace (0 + (0 + a * 1 * a)) with (a * a) in Z by ring. apply SQ in Z. subst. reflexivity.
  - intros Z. change (0 + (0 + a * (0 + 1) * a) <= 0) in Z. replace (0 + (0 + a * (0 + 1) * a)) with (a * a) in Z by ring. apply SQ in Z. subst. reflexivity.
Qed.
Example case_solution : solves 1 1 one one one none (fun _ _ => four) (fun _ => four) four [- half] [half] [1 + 1].
Proof. repeat split; apply vec_ext; try reflexivity; intros [| i] Hi; try (cbn in Hi; lia); apply Qc_is_canon; vm_compute; reflexivity. Qed.
(** With alpha = eps it is not the solution of the system that minimises the objective of line 1 *)
Theorem C117_header_refuted : integrals 1 1 one one none (fun _ _ => four) /\ solves 1 1 one one one none (fun _ _ => four) (fun _ => four) four [- half] [half] [1 + 1] /\
  ~ optimal 1 1 one one one none (fun _ _ => four) (fun _ => four) (1 + 1) four [- half] [half].
Proof.
  split; [apply case_integrals |]. split; [apply case_solution |]. intros [_ O]. specialize (O [- (qz 2 / qz 3)] [qz 2 / qz 3] (conj eq_refl eq_refl)).
  assert (S : state 1 1 one one none [- (qz 2 / qz 3)] [qz 2 / qz 3]).
  { intros [| b []] Lb; try discriminate. unfold form, one, none. cbn [sumn vnth nth]. change q0 with 0. ring. }
  specialize (O S). apply (Qcle_not_lt _ _ O). vm_compute. reflexivity.
Qed.
Print Assumptions C117_header_refuted.
Example case_solvable : solvable 1 one none.
Proof.
  intros f. exists [f 0%nat]. split; [reflexivity |]. intros [| b []] Lb; try discriminate. unfold form, linear, one, none. cbn [sumn vnth nth]. change q0 with 0. ring.
Qed.
(** The same with a trace onto two points *)
Example case_fractional : let T := Mat 2 1 one in let F := mdiag 2 (fun _ => 1 + 1) in
  symmetric 2 (ent F) /\ solves_fract 1 1 one one one none four T F [1] [- half] [half] [1 + 1].
Proof.
  split; [intros [| [| i]] [| [| j]] Hi Hj; try lia; reflexivity |].
  repeat split; apply vec_ext; try reflexivity; intros [| i] Hi; try (cbn in Hi; lia); apply Qc_is_canon; vm_compute; reflexivity.
Qed.
