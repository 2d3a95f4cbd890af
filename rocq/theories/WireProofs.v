(** The edges of the grid of lines *)
From Coq Require Import Reals Lra Lia ZArith.
From Verif Require Import WireModel.
Local Open Scope R_scope.

(** Independent vocabulary: an edge lies on a line when both its ends do *)
Definition ends (N : nat) (e : edge) (P : pt -> Prop) : Prop := P (coords N (fst e)) /\ P (coords N (other_end e)).
Definition vertical (A B : R) (p : pt) : Prop := px p = A /\ py p = B.
Definition along_x (B C : R) (p : pt) : Prop := py p = B /\ pz p = C.
Definition along_y (A C : R) (p : pt) : Prop := px p = A /\ pz p = C.
Definition one_of (l : list R) (x : R) : Prop := In x l.
(** the lines of the grid and of its connections *)
Definition on_grid (N : nat) (e : edge) : Prop :=
  (exists A B, one_of [- / 2; 0; / 2] A /\ one_of [- / 2; 0; / 2] B /\ ends N e (vertical A B)) \/
  (exists B C, one_of [- / 2; 0; / 2] B /\ one_of [- / 2; / 2] C /\ ends N e (along_x B C)) \/
  (exists A C, one_of [- / 2; / 2] A /\ one_of [- / 2; / 2] C /\ ends N e (along_y A C)).

Section S.
Variables (h : nat) (tol : R).
Let N : nat := (2 * h)%nat.
Hypothesis H0 : (0 < h)%nat.
Hypothesis T : 0 < tol <= / INR N.
Lemma N_val : INR N = 2 * INR h. Proof. unfold N. rewrite mult_INR. simpl. lra. Qed.
Lemma h_pos : 0 < INR h. Proof. apply lt_0_INR. exact H0. Qed.
(** An even number of parts of length 1/(2 N) *)
Lemma gap : forall p : Z, Rabs (IZR p / INR N) < tol -> p = 0%Z.
Proof.
  intros p L. pose proof h_pos as P. pose proof N_val as V.
  assert (Q : 0 < / INR N) by (apply Rinv_0_lt_compat; lra).
  unfold Rdiv in L. rewrite Rabs_mult, (Rabs_pos_eq (/ INR N)), <- abs_IZR in L by lra.
  destruct (Z.eq_dec p 0) as [E|E]; [exact E|]. exfalso.
  assert (1 <= IZR (Z.abs p)) by (apply IZR_le; lia). nra.
Qed.
Definition half_values : list R := [- / 2; 0; / 2].
(** q with A = q/2 - 1 *)
Lemma values_q : forall A, In A half_values -> exists q : Z, (1 <= q <= 3)%Z /\ A = IZR q / 2 - 1.
Proof.
  intros A [<-|[<-|[<-|[]]]]; [exists 1%Z|exists 2%Z|exists 3%Z]; (split; [lia|lra]).
Qed.
Lemma near_x : forall A a, In A half_values -> near_ tol (-1 + 2 * INR a / INR N) A = true <-> -1 + 2 * INR a / INR N = A.
Proof.
  intros A a I. apply values_q in I. destruct I as (q & Q & ->). pose proof h_pos as P. pose proof N_val as V. unfold near_.
  assert (E : -1 + 2 * INR a / INR N - (IZR q / 2 - 1) = IZR (2 * Z.of_nat a - q * Z.of_nat h) / INR N).
  { rewrite minus_IZR, !mult_IZR, <- !INR_IZR_INZ, V. field. lra. }
  destruct (Rlt_dec _ _) as [L|L]; split; intros H; try easy.
  - rewrite E in L. apply gap in L. rewrite L in E. unfold Rdiv in E at 3. rewrite Rmult_0_l in E. lra.
  - exfalso. apply L. rewrite H. replace (IZR q / 2 - 1 - (IZR q / 2 - 1)) with 0 by ring. rewrite Rabs_R0. lra.
Qed.
Lemma near_z : forall A c, In A half_values -> near_ tol (-1 + 2 * INR c / INR (2 * N)) A = true <-> -1 + 2 * INR c / INR (2 * N) = A.
Proof.
  intros A a I. apply values_q in I. destruct I as (q & Q & ->). pose proof h_pos as P. pose proof N_val as V. unfold near_.
  assert (W : INR (2 * N) = 2 * INR N) by (rewrite mult_INR; simpl; lra).
  assert (E : -1 + 2 * INR a / INR (2 * N) - (IZR q / 2 - 1) = IZR (Z.of_nat a - q * Z.of_nat h) / INR N).
  { rewrite minus_IZR, !mult_IZR, <- !INR_IZR_INZ, W, V. field. lra. }
  destruct (Rlt_dec _ _) as [L|L]; split; intros H; try easy.
  - rewrite E in L. apply gap in L. rewrite L in E. unfold Rdiv in E at 3. rewrite Rmult_0_l in E. lra.
  - exfalso. apply L. rewrite H. replace (IZR q / 2 - 1 - (IZR q / 2 - 1)) with 0 by ring. rewrite Rabs_R0. lra.
Qed.
Lemma near_mid : forall x y A, near_ tol x A = true -> near_ tol y A = true -> near_ tol ((x + y) / 2) A = true.
Proof.
  intros x y A. unfold near_. destruct (Rlt_dec (Rabs (x - A)) tol) as [L1|]; [|discriminate].
  destruct (Rlt_dec (Rabs (y - A)) tol) as [L2|]; [|discriminate]. intros _ _.
  destruct (Rlt_dec _ _) as [|L]; [reflexivity|]. exfalso. apply L. apply Rabs_def2 in L1, L2. apply Rabs_def1; lra.
Qed.
Lemma marks_two : forall (f g : pt -> R) A B e, (forall p q, f (middle p q) = (f p + f q) / 2) -> (forall p q, g (middle p q) = (g p + g q) / 2) ->
  marks N (fun p => near_ tol (f p) A && near_ tol (g p) B) e = true <->
  ends N e (fun p => near_ tol (f p) A = true /\ near_ tol (g p) B = true).
Proof.
  intros f g A B e F G. unfold marks, ends. cbv zeta. rewrite !andb_true_iff, F, G. split; [tauto|].
  intros [[H1 H2] [H3 H4]]. repeat split; auto; apply near_mid; auto.
Qed.
Lemma ends_iff : forall e P Q, (forall v, P (coords N v) <-> Q (coords N v)) -> (ends N e P <-> ends N e Q).
Proof. intros e P Q H. unfold ends. rewrite !H. reflexivity. Qed.
Lemma near_px : forall v A, In A half_values -> near_ tol (px (coords N v)) A = true <-> px (coords N v) = A.
Proof. intros [[a b] c] A I. apply near_x, I. Qed.
Lemma near_py : forall v A, In A half_values -> near_ tol (py (coords N v)) A = true <-> py (coords N v) = A.
Proof. intros [[a b] c] A I. apply near_x, I. Qed.
Lemma near_pz : forall v A, In A half_values -> near_ tol (pz (coords N v)) A = true <-> pz (coords N v) = A.
Proof. intros [[a b] c] A I. apply near_z, I. Qed.
Lemma outer_in : forall x, In x [- / 2; / 2] -> In x half_values.
Proof. intros x [<-|[<-|[]]]; simpl; auto. Qed.
Lemma fold_any : forall (A : Type) (p : A -> bool) l, fold_left (fun t c => if p c then 1%nat else t) l 0%nat = 1%nat <-> exists c, In c l /\ p c = true.
Proof.
  intros A p l. assert (G : forall t, (fold_left (fun t c => if p c then 1%nat else t) l t = 1%nat) <-> t = 1%nat \/ exists c, In c l /\ p c = true).
  { induction l as [|c l IH]; intros t; simpl; [split; [auto|intros [E|(c & [] & _)]; exact E]|].
    rewrite IH. destruct (p c) eqn:E.
    - split; [intros _; right; eauto|auto].
    - split; [intros [H|(d & I & H)]; [auto|right; eauto]|]. intros [H|(d & [->|I] & H)]; [auto|congruence|right; eauto]. }
  rewrite G. split; [intros [E|E]; [discriminate E|exact E]|auto].
Qed.
Lemma gamma_iff : forall e, gamma N tol e = 1%nat <-> on_grid N e.
Proof.
  intros e. unfold gamma. rewrite fold_any. unfold conditions, on_grid, one_of. split.
  - intros (c & I & M). rewrite !in_app_iff, !in_flat_map in I. destruct I as [(A & IA & I)|[(C & IC & I)|(C & IC & I)]].
    + left. apply in_map_iff in I. destruct I as (B & <- & IB). exists A, B. split; [exact IA|split; [exact IB|]].
      apply (marks_two px py) in M; [|reflexivity|reflexivity].
      revert M. apply ends_iff. intros v. rewrite (near_px v A IA), (near_py v B IB). reflexivity.
    + right; left. apply in_map_iff in I. destruct I as (B & <- & IB). exists B, C. split; [exact IB|split; [exact IC|]].
      apply (marks_two py pz) in M; [|reflexivity|reflexivity].
      revert M. apply ends_iff. intros v. rewrite (near_py v B IB), (near_pz v C (outer_in C IC)). reflexivity.
    + right; right. apply in_map_iff in I. destruct I as (A & <- & IA). exists A, C. split; [exact IA|split; [exact IC|]].
      apply (marks_two px pz) in M; [|reflexivity|reflexivity].
      revert M. apply ends_iff. intros v. rewrite (near_px v A (outer_in A IA)), (near_pz v C (outer_in C IC)). reflexivity.
  - intros [(A & B & IA & IB & M)|[(B & C & IB & IC & M)|(A & C & IA & IC & M)]].
    + exists (fun p => near_ tol (px p) A && near_ tol (py p) B). split.
      * rewrite !in_app_iff. left. apply in_flat_map. exists A. split; [exact IA|]. apply in_map_iff. exists B. auto.
      * apply (marks_two px py); [reflexivity|reflexivity|]. revert M. apply ends_iff. intros v. rewrite (near_px v A IA), (near_py v B IB). reflexivity.
    + exists (fun p => near_ tol (py p) B && near_ tol (pz p) C). split.
      * rewrite !in_app_iff. right; left. apply in_flat_map. exists C. split; [exact IC|]. apply in_map_iff. exists B. auto.
      * apply (marks_two py pz); [reflexivity|reflexivity|]. revert M. apply ends_iff. intros v. rewrite (near_py v B IB), (near_pz v C (outer_in C IC)). reflexivity.
    + exists (fun p => near_ tol (px p) A && near_ tol (pz p) C). split.
      * rewrite !in_app_iff. right; right. apply in_flat_map. exists C. split; [exact IC|]. apply in_map_iff. exists A. auto.
      * apply (marks_two px pz); [reflexivity|reflexivity|]. revert M. apply ends_iff. intros v. rewrite (near_px v A (outer_in A IA)), (near_pz v C (outer_in C IC)). reflexivity.
Qed.
End S.
