(** The marks of the divided square *)
From Coq Require Import Reals Lra Lia.
From Verif Require Import HalvesModel InnerProofs.
Local Open Scope R_scope.

(** Independent vocabulary: [xs], [ys] of InnerProofs.v say a property of the coordinates of all vertices.  What each
    tag of a facet stands for *)
Definition means (n : nat) (t : nat) (vs : list (nat * nat)) : Prop :=
  match t with
  | 1%nat => xs n vs (fun x => x = 0)
  | 2%nat => xs n vs (fun x => x = 1)
  | 3%nat => ys n vs (fun y => y = 0) /\ xs n vs (fun x => x <= / 2)
  | 4%nat => ys n vs (fun y => y = 0) /\ xs n vs (fun x => / 2 <= x)
  | 5%nat => ys n vs (fun y => y = 1) /\ xs n vs (fun x => x <= / 2)
  | 6%nat => ys n vs (fun y => y = 1) /\ xs n vs (fun x => / 2 <= x)
  | 7%nat => xs n vs (fun x => x = / 2)
  | _ => False
  end.

Lemma rlt_iff : forall a b, rlt a b = true <-> a < b.
Proof. intros a b; unfold rlt; destruct (Rlt_dec a b); split; intros; try easy; lra. Qed.
Lemma near_to_iff : forall tol x a, near_to tol x a = true <-> a - tol < x < a + tol.
Proof.
  intros tol x a. unfold near_to. rewrite rlt_iff. split; intros H.
  - apply Rabs_def2 in H. lra.
  - apply Rabs_def1; lra.
Qed.
(** Midpoints *)
Lemma midpoint2 : forall n u v, midpoint n [u; v] =
  ((INR (fst u) / INR n + INR (fst v) / INR n) / 2, (INR (snd u) / INR n + INR (snd v) / INR n) / 2).
Proof. intros n u v. unfold midpoint, rsum. cbn [map fold_right point fst snd length INR]. f_equal; [generalize (INR (fst u) / INR n) (INR (fst v) / INR n)|generalize (INR (snd u) / INR n) (INR (snd v) / INR n)]; intros; field. Qed.
Lemma midpoint3 : forall n u v w, fst (midpoint n [u; v; w]) = (INR (fst u) / INR n + INR (fst v) / INR n + INR (fst w) / INR n) / 3.
Proof. intros n u v w. unfold midpoint, rsum. cbn [map fold_right point fst snd length INR]. generalize (INR (fst u) / INR n) (INR (fst v) / INR n) (INR (fst w) / INR n). intros; field. Qed.

(** A condition that is convex is decided by the vertices *)
Definition convex (p : R * R -> bool) : Prop := forall a b c d, p (a, b) = true -> p (c, d) = true -> p ((a + c) / 2, (b + d) / 2) = true.
Lemma marked2 : forall n p u v, convex p -> (marked n p [u; v] = true <-> p (point n u) = true /\ p (point n v) = true).
Proof.
  intros n p u v C. unfold marked. cbn [map forallb]. rewrite !andb_true_iff. split; [tauto|]. intros [H1 H2].
  split; [auto|]. rewrite midpoint2. apply C; assumption.
Qed.
Lemma convex_x : forall tol a, convex (fun p => near_to tol (fst p) a).
Proof. intros tol a x y z w. cbn [fst]. rewrite !near_to_iff. lra. Qed.
Lemma convex_l : forall tol a b, convex (fun p => near_to tol (snd p) a && rlt (fst p) b).
Proof. intros tol a b x y z w. cbn [fst snd]. rewrite !andb_true_iff, !near_to_iff, !rlt_iff. lra. Qed.
Lemma convex_r : forall tol a b, convex (fun p => near_to tol (snd p) a && rlt b (fst p)).
Proof. intros tol a b x y z w. cbn [fst snd]. rewrite !andb_true_iff, !near_to_iff, !rlt_iff. lra. Qed.

(** On the grid a tolerance up to the distance of its lines makes no difference *)
Section Grid.
Variables (k : nat) (tol : R).
Let n : nat := (2 * k)%nat.
Hypothesis K : (0 < k)%nat.
Hypothesis T : 0 < tol <= / INR n.
Lemma n_pos : (0 < n)%nat. Proof. unfold n; lia. Qed.
Lemma step_le : forall a b, (b < a)%nat -> INR b / INR n <= INR a / INR n - / INR n.
Proof.
  intros a b H. pose proof (lt_0_INR _ n_pos) as P.
  assert (E : INR a / INR n - / INR n - INR b / INR n = (INR a - INR b - 1) * / INR n) by (field; lra).
  assert (Q : 0 < / INR n) by (apply Rinv_0_lt_compat; lra).
  assert (INR b + 1 <= INR a) by (rewrite <- S_INR; apply le_INR; lia).
  assert (0 <= (INR a - INR b - 1) * / INR n) by (apply Rmult_le_pos; lra). lra.
Qed.
Lemma above_ : forall a b, INR a / INR n - tol < INR b / INR n <-> (a <= b)%nat.
Proof.
  intros a b; split; intros H.
  - destruct (le_lt_dec a b) as [L|L]; [exact L|]. pose proof (step_le _ _ L). lra.
  - assert (INR a / INR n <= INR b / INR n) by (apply frac_le; [exact n_pos|exact n_pos|nia]). lra.
Qed.
Lemma below_ : forall a b, INR b / INR n < INR a / INR n + tol <-> (b <= a)%nat.
Proof.
  intros a b; split; intros H.
  - destruct (le_lt_dec b a) as [L|L]; [exact L|]. pose proof (step_le _ _ L). lra.
  - assert (INR b / INR n <= INR a / INR n) by (apply frac_le; [exact n_pos|exact n_pos|nia]). lra.
Qed.
Lemma at0 : 0 = INR 0 / INR n. Proof. pose proof (lt_0_INR _ n_pos). cbn [INR]. field. lra. Qed.
Lemma at1 : 1 = INR n / INR n. Proof. pose proof (lt_0_INR _ n_pos). field. lra. Qed.
Lemma at_half : / 2 = INR k / INR n. Proof. unfold n. rewrite mult_INR. pose proof (lt_0_INR _ K). cbn [INR]. field. lra. Qed.
Lemma near_grid : forall a b, near_to tol (INR b / INR n) (INR a / INR n) = true <-> b = a.
Proof. intros a b. rewrite near_to_iff, above_, below_. lia. Qed.
Lemma eq_grid : forall a b, INR a / INR n = INR b / INR n <-> a = b.
Proof. intros a b. rewrite frac_eq by exact n_pos. pose proof n_pos. nia. Qed.
Lemma le_grid : forall a b, INR a / INR n <= INR b / INR n <-> (a <= b)%nat.
Proof. intros a b. rewrite frac_le by exact n_pos. pose proof n_pos. nia. Qed.

Lemma xs_pair : forall u v P, xs n [u; v] P <-> P (INR (fst u) / INR n) /\ P (INR (fst v) / INR n).
Proof. intros u v P. unfold xs. split; [intros H; split; apply H; simpl; auto|intros [H1 H2] w [<-|[<-|[]]]; assumption]. Qed.
Lemma ys_pair : forall u v P, ys n [u; v] P <-> P (INR (snd u) / INR n) /\ P (INR (snd v) / INR n).
Proof. intros u v P. unfold ys. split; [intros H; split; apply H; simpl; auto|intros [H1 H2] w [<-|[<-|[]]]; assumption]. Qed.
(** Each condition marks the facets its tag stands for *)
Lemma mark_means : forall u v b, In b (boundaries tol) -> (marked n (snd b) [u; v] = true <-> means n (fst b) [u; v]).
Proof.
  intros u v b I. unfold boundaries in I. cbn [In] in I.
  destruct I as [<-|[<-|[<-|[<-|[<-|[<-|[<-|[]]]]]]]]; cbn [fst snd means];
    rewrite marked2 by (apply convex_x || apply convex_l || apply convex_r); unfold point; cbn [fst snd];
    rewrite ?xs_pair, ?ys_pair, ?andb_true_iff, ?rlt_iff; cbv beta.
  - rewrite at0, !near_grid, !eq_grid. reflexivity.
  - rewrite at1 at 1 2 3 4. rewrite !near_grid, !eq_grid. reflexivity.
  - rewrite at0, at_half, !near_grid, !eq_grid, !below_, !le_grid. tauto.
  - rewrite at0, at_half, !near_grid, !eq_grid, !above_, !le_grid. tauto.
  - rewrite at1 at 1 2 3 4. rewrite at_half, !near_grid, !eq_grid, !below_, !le_grid. tauto.
  - rewrite at1 at 1 2 3 4. rewrite at_half, !near_grid, !eq_grid, !above_, !le_grid. tauto.
  - rewrite at_half, !near_grid, !eq_grid. reflexivity.
Qed.
(** No facet has two of the meanings *)
Lemma means_index : forall t f, means n t (facet_vertices f) <->
  match f, t with
  | Ver i _, 1%nat => i = 0%nat | Ver i _, 2%nat => i = n | Ver i _, 7%nat => i = k
  | Hor i j, 3%nat => j = 0%nat /\ (i < k)%nat | Hor i j, 4%nat => j = 0%nat /\ (k <= i)%nat
  | Hor i j, 5%nat => j = n /\ (i < k)%nat | Hor i j, 6%nat => j = n /\ (k <= i)%nat
  | _, _ => False
  end.
Proof.
  intros t f. destruct t as [|[|[|[|[|[|[|[|t]]]]]]]]; destruct f as [i j|i j|i j]; cbn [means facet_vertices]; rewrite ?xs_pair, ?ys_pair; cbn [fst snd]; cbv beta;
    try tauto; rewrite ?at_half, ?at0; try (rewrite at1 at 1 2); rewrite ?eq_grid, ?le_grid; try lia.
Qed.
End Grid.
