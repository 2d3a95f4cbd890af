(** Optimal control: specification and lemmas (property C117) *)
From Verif Require Export ControlModel.
From Verif Require Import MatProofs.
From Coq Require Import Lqa Field.
Local Close Scope Q_scope.
Local Open Scope Qc_scope.

(** ** Specification *)
(** The value of a bilinear form at functions with coefficients x and y *)
Definition form (n m : nat) (F : nat -> nat -> Qc) (x y : vec) : Qc := sumn n (fun i => sumn m (fun j => vnth x i * F i j * vnth y j)).
Definition symmetric (n : nat) (F : nat -> nat -> Qc) : Prop := forall i j, (i < n)%nat -> (j < n)%nat -> F i j = F j i.
Definition nonneg (n : nat) (F : nat -> nat -> Qc) : Prop := forall x, length x = n -> 0 <= form n n F x x.
Definition positive (n : nat) (F : nat -> nat -> Qc) : Prop := forall x, length x = n -> form n n F x x <= 0 -> x = repeat q0 n.
Definition linear (n : nat) (f : nat -> Qc) (x : vec) : Qc := sumn n (fun i => vnth x i * f i).

(** ** Lemmas *)
Lemma form_swap n m F x y : form n m F x y = form m n (fun i j => F j i) y x.
Proof. unfold form. rewrite sumn_swap. apply sumn_ext. intros i _. apply sumn_ext. intros j _. ring. Qed.
Lemma form_sym n F x y : symmetric n F -> form n n F x y = form n n F y x.
Proof. intros S. rewrite form_swap. unfold form. apply sumn_ext. intros i Hi. apply sumn_ext. intros j Hj. rewrite (S j i Hj Hi). reflexivity. Qed.
Lemma form_plus n m F G x y : form n m (fun i j => F i j + G i j) x y = form n m F x y + form n m G x y.
Proof. unfold form. rewrite <- sumn_plus. apply sumn_ext. intros i _. rewrite <- sumn_plus. apply sumn_ext. intros j _. ring. Qed.
Lemma form_scale n m c F x y : form n m (fun i j => c * F i j) x y = c * form n m F x y.
Proof. unfold form. rewrite <- sumn_scal. apply sumn_ext. intros i _. rewrite <- sumn_scal. apply sumn_ext. intros j _. ring. Qed.
(** x + t y *)
Definition step (x : vec) (t : Qc) (y : vec) : vec := vadd x (vscale t y).
Lemma step_length x t y : length (step x t y) = length x.
Proof. apply vtab_length. Qed.
Lemma step_nth n x t y i : length x = n -> length y = n -> (i < n)%nat -> vnth (step x t y) i = vnth x i + t * vnth y i.
Proof. intros Lx Ly Hi. unfold step, vadd, vscale. rewrite vnth_vtab by congruence. rewrite vnth_vtab by congruence. reflexivity. Qed.
Lemma form_step_l n m F x t y z : length x = n -> length y = n -> form n m F (step x t y) z = form n m F x z + t * form n m F y z.
Proof.
  intros Lx Ly. unfold form. rewrite <- sumn_scal, <- sumn_plus. apply sumn_ext. intros i Hi. rewrite <- sumn_scal, <- sumn_plus. apply sumn_ext. intros j Hj.
  rewrite (step_nth n x t y i Lx Ly Hi). ring.
Qed.
Lemma form_step_r n m F x t y z : length x = m -> length y = m -> form n m F z (step x t y) = form n m F z x + t * form n m F z y.
Proof. intros Lx Ly. rewrite !(form_swap n m F z). apply form_step_l; assumption. Qed.
Lemma linear_step n f x t y : length x = n -> length y = n -> linear n f (step x t y) = linear n f x + t * linear n f y.
Proof. intros Lx Ly. unfold linear. rewrite <- sumn_scal, <- sumn_plus. apply sumn_ext. intros i Hi. rewrite (step_nth n x t y i Lx Ly Hi). ring. Qed.
Lemma step_back n x y : length x = n -> length y = n -> step x 1 (step y (- (1)) x) = y.
Proof.
  intros Lx Ly. apply vec_ext; [rewrite step_length; congruence |]. rewrite step_length. intros i Hi. rewrite (step_nth n) by (rewrite ?step_length; congruence).
  rewrite (step_nth n) by congruence. ring.
Qed.
Lemma step_zero n x y : length x = n -> length y = n -> step y (- (1)) x = repeat q0 n -> x = y.
Proof.
  intros Lx Ly E. apply vec_ext; [congruence |]. intros i Hi. assert (H : vnth (step y (- (1)) x) i = q0) by (rewrite E; unfold vnth; apply nth_repeat).
  rewrite (step_nth n) in H by congruence. change q0 with 0 in H. transitivity (vnth y i - (vnth y i + - (1) * vnth x i)); [ring | rewrite H; ring].
Qed.

(** A vector is a combination of unit vectors: the test functions *)
Definition unit_vec (n k : nat) : vec := vtab n (fun i => if Nat.eqb i k then 1 else 0).
Lemma sum_unit n k f : (k < n)%nat -> sumn n (fun i => vnth (unit_vec n k) i * f i) = f k.
Proof.
  intros Hk. rewrite (sumn_single n k); [| exact Hk |].
  - unfold unit_vec. rewrite vnth_vtab by exact Hk. rewrite Nat.eqb_refl. ring.
  - intros i Hi N. unfold unit_vec. rewrite vnth_vtab by exact Hi. destruct (Nat.eqb_spec i k); [contradiction |]. change q0 with 0. ring.
Qed.
(** Equations of rows are weak equations *)
Lemma rows_weak n (r s : vec) : length r = n -> length s = n ->
  (r = s <-> forall x, length x = n -> sumn n (fun i => vnth x i * vnth r i) = sumn n (fun i => vnth x i * vnth s i)).
Proof.
  intros Lr Ls. split; [intros -> x _; reflexivity |]. intros H. apply vec_ext; [congruence |]. intros i Hi. rewrite Lr in Hi.
  specialize (H (unit_vec n i) (vtab_length _ _)). rewrite !sum_unit in H by exact Hi. exact H.
Qed.
Lemma mv_form A x y : sumn (nr A) (fun i => vnth x i * vnth (mv A y) i) = form (nr A) (nc A) (ent A) x y.
Proof. unfold form. apply sumn_ext. intros i Hi. rewrite vnth_mv by exact Hi. rewrite <- sumn_scal. apply sumn_ext. intros j _. ring. Qed.
Lemma sum_vadd n x r s : length r = n -> sumn n (fun i => vnth x i * vnth (vadd r s) i) = sumn n (fun i => vnth x i * vnth r i) + sumn n (fun i => vnth x i * vnth s i).
Proof. intros L. rewrite <- sumn_plus. apply sumn_ext. intros i Hi. unfold vadd. rewrite vnth_vtab by congruence. ring. Qed.
Lemma sum_vtab n x f : sumn n (fun i => vnth x i * vnth (vtab n f) i) = linear n f x.
Proof. unfold linear. apply sumn_ext. intros i Hi. rewrite vnth_vtab by exact Hi. reflexivity. Qed.
Lemma linear_zero n x : linear n (fun _ => q0) x = 0.
Proof. unfold linear. apply sumn_zero. intros i _. change q0 with 0. ring. Qed.

(** ** Inequalities of Qc *)
Lemma qsub a b : 0 <= b - a -> a <= b.
Proof. intros H. apply Qcle_minus_iff. exact H. Qed.
(** A line through zero that is never far below a parabola is flat *)
Lemma flat a b : (forall t, 0 <= t * a + t * t * b) -> a = 0.
Proof.
  intros H. destruct (Qc_eq_dec a 0) as [E | N]; [exact E | exfalso].
  destruct (Qclt_le_dec 0 b) as [P | P].
  - specialize (H (- (a / (b + b)))). assert (Nb : b <> 0) by (intros ->; discriminate P). assert (Nbb : b + b <> 0) by (intros Z; apply Nb; transitivity ((b + b) / (1 + 1)); [field; discriminate | rewrite Z; field; discriminate]).
    assert (E : - (a / (b + b)) * a + - (a / (b + b)) * - (a / (b + b)) * b = - (a * a / ((1 + 1) * (1 + 1) * b))) by (field; repeat split; try assumption; discriminate).
    rewrite E in H. assert (P2 : 0 < a * a / ((1 + 1) * (1 + 1) * b)).
    { unfold Qcdiv. assert (Q1 : 0 < a * a). { destruct (Qclt_le_dec 0 a) as [Pa | Pa]. - rewrite <- (Qcmult_0_l a). apply Qcmult_lt_compat_r; exact Pa.
        - assert (Na : 0 < - a) by (destruct (Qcle_lt_or_eq _ _ Pa) as [L | L]; [| contradiction]; apply Qclt_minus_iff in L; rewrite Qcplus_0_l in L; exact L). replace (a * a) with (- a * - a) by ring. rewrite <- (Qcmult_0_l (- a)). apply Qcmult_lt_compat_r; exact Na. }
      assert (Q2 : 0 < (1 + 1) * (1 + 1) * b) by (rewrite <- (Qcmult_0_l b); apply Qcmult_lt_compat_r; [exact P | reflexivity]).
      assert (Q3 : 0 < / ((1 + 1) * (1 + 1) * b)). { destruct (Qclt_le_dec 0 (/ ((1 + 1) * (1 + 1) * b))) as [L | L]; [exact L | exfalso]. apply (Qcmult_le_compat_r _ _ ((1 + 1) * (1 + 1) * b)) in L; [| apply Qclt_le_weak, Q2]. rewrite Qcmult_0_l, Qcmult_comm, Qcmult_inv_r in L; [apply (Qclt_not_le 0 1); [reflexivity | exact L] | intros Z; rewrite Z in Q2; discriminate Q2]. }
      rewrite <- (Qcmult_0_l (/ ((1 + 1) * (1 + 1) * b))). apply Qcmult_lt_compat_r; assumption. }
    apply (Qclt_not_le _ _ P2). apply qsub. unfold Qcminus. rewrite Qcplus_0_l. exact H.
  - specialize (H (- a)). assert (Q1 : 0 < a * a). { destruct (Qclt_le_dec 0 a) as [Pa | Pa]. - rewrite <- (Qcmult_0_l a). apply Qcmult_lt_compat_r; exact Pa.
        - assert (Na : 0 < - a) by (destruct (Qcle_lt_or_eq _ _ Pa) as [L | L]; [| contradiction]; apply Qclt_minus_iff in L; rewrite Qcplus_0_l in L; exact L). replace (a * a) with (- a * - a) by ring. rewrite <- (Qcmult_0_l (- a)). apply Qcmult_lt_compat_r; exact Na. }
    assert (K : a * a <= 0). { apply (Qcmult_le_compat_r _ _ (a * a)) in P; [| apply Qclt_le_weak, Q1]. rewrite Qcmult_0_l in P. apply qsub. apply (Qcle_trans _ _ _ H). apply qsub.
      replace (0 - a * a - (- a * a + - a * - a * b)) with (0 - b * (a * a)) by ring. apply -> Qcle_minus_iff. exact P. }
    apply (Qclt_not_le _ _ Q1 K).
Qed.
