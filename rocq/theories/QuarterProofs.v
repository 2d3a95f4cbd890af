(** The marks of the test of translate_markers *)
From Coq Require Import Reals Lra Lia.
From Verif Require Import QuarterModel InnerProofs HalvesProofs.
Local Open Scope R_scope.

(** Independent vocabulary: what the tags stand for *)
Definition q_means (n t : nat) (vs : list (nat * nat)) : Prop :=
  (t = 10%nat /\ xs n vs (fun x => x = 0)) \/ (t = 20%nat /\ xs n vs (fun x => x = 1)) \/
  (t = 30%nat /\ ys n vs (fun y => y = 0)) \/ (t = 40%nat /\ ys n vs (fun y => y = 1)) \/
  (t = 1%nat /\ xs n vs (fun x => x = / 4) /\ in_square n vs) \/ (t = 2%nat /\ xs n vs (fun x => x = 3 / 4) /\ in_square n vs) \/
  (t = 3%nat /\ ys n vs (fun y => y = / 4) /\ in_square n vs) \/ (t = 4%nat /\ ys n vs (fun y => y = 3 / 4) /\ in_square n vs).

Lemma q_convex : forall tol b, In b (q_conditions tol) -> convex (snd b).
Proof.
  intros tol b I x y z w. cbn [q_conditions In] in I.
  destruct I as [<-|[<-|[<-|[<-|[<-|[<-|[<-|[<-|[]]]]]]]]]; cbn [fst snd]; unfold q_between;
    rewrite ?andb_true_iff, ?near_to_iff, ?rlt_iff; lra.
Qed.

Section Four.
Variables (n m : nat) (tol : R).
Hypothesis E : n = (2 * (2 * m))%nat.
Hypothesis M : (0 < m)%nat.
Hypothesis T : 0 < tol <= / INR n.
Lemma k_pos : (0 < 2 * m)%nat. Proof. lia. Qed.
Lemma at_quarter : / 4 = INR m / INR n. Proof. rewrite E, !mult_INR. pose proof (lt_0_INR _ M). simpl (INR 2). field. lra. Qed.
Lemma at_quarter3 : 3 / 4 = INR (3 * m) / INR n. Proof. rewrite E, !mult_INR. pose proof (lt_0_INR _ M). simpl (INR 2). simpl (INR 3). field. lra. Qed.
Lemma at_zero : 0 = INR 0 / INR n. Proof. rewrite E. exact (at0 _ k_pos). Qed.
Lemma at_one : 1 = INR n / INR n. Proof. rewrite E. exact (at1 _ k_pos). Qed.
Lemma g_above : forall a b, INR a / INR n - tol < INR b / INR n <-> (a <= b)%nat.
Proof. revert T. rewrite E. intros T. exact (above_ _ tol k_pos T). Qed.
Lemma g_below : forall a b, INR b / INR n < INR a / INR n + tol <-> (b <= a)%nat.
Proof. revert T. rewrite E. intros T. exact (below_ _ tol k_pos T). Qed.
Lemma g_near : forall a b, near_to tol (INR b / INR n) (INR a / INR n) = true <-> b = a.
Proof. revert T. rewrite E. intros T. exact (near_grid _ tol k_pos T). Qed.
Lemma g_eq : forall a b, INR a / INR n = INR b / INR n <-> a = b.
Proof. rewrite E. exact (eq_grid _ k_pos). Qed.
Lemma g_le : forall a b, INR a / INR n <= INR b / INR n <-> (a <= b)%nat.
Proof. rewrite E. exact (le_grid _ k_pos). Qed.
Lemma near0_ : forall a, near_to tol (INR a / INR n) 0 = true <-> a = 0%nat. Proof. intros a. rewrite at_zero. apply g_near. Qed.
Lemma near1_ : forall a, near_to tol (INR a / INR n) 1 = true <-> a = n. Proof. intros a. rewrite <- (g_near n a), <- at_one. reflexivity. Qed.
Lemma nearq_ : forall a, near_to tol (INR a / INR n) (/ 4) = true <-> a = m. Proof. intros a. rewrite at_quarter. apply g_near. Qed.
Lemma nearq3_ : forall a, near_to tol (INR a / INR n) (3 / 4) = true <-> a = (3 * m)%nat. Proof. intros a. rewrite at_quarter3. apply g_near. Qed.
Lemma eq0_ : forall a, INR a / INR n = 0 <-> a = 0%nat. Proof. intros a. rewrite at_zero. apply g_eq. Qed.
Lemma eq1_ : forall a, INR a / INR n = 1 <-> a = n. Proof. intros a. rewrite <- (g_eq a n), <- at_one. reflexivity. Qed.
Lemma eqq_ : forall a, INR a / INR n = / 4 <-> a = m. Proof. intros a. rewrite at_quarter. apply g_eq. Qed.
Lemma eqq3_ : forall a, INR a / INR n = 3 / 4 <-> a = (3 * m)%nat. Proof. intros a. rewrite at_quarter3. apply g_eq. Qed.
Lemma leq_ : forall a, / 4 <= INR a / INR n <= 3 / 4 <-> (m <= a <= 3 * m)%nat.
Proof. intros a. rewrite at_quarter, at_quarter3, !g_le. reflexivity. Qed.
Lemma q_between_iff : forall a, q_between tol (INR a / INR n) = true <-> (m <= a <= 3 * m)%nat.
Proof. intros a. unfold q_between. rewrite andb_true_iff, !rlt_iff, at_quarter, at_quarter3, g_above, g_below. reflexivity. Qed.
Lemma x2 : forall u v P, xs n [u; v] P <-> P (INR (fst u) / INR n) /\ P (INR (fst v) / INR n).
Proof. rewrite E. exact (xs_pair _). Qed.
Lemma y2 : forall u v P, ys n [u; v] P <-> P (INR (snd u) / INR n) /\ P (INR (snd v) / INR n).
Proof. rewrite E. exact (ys_pair _). Qed.
Lemma q_square : forall u v, in_square n [u; v] <-> ((m <= fst u <= 3 * m) /\ (m <= fst v <= 3 * m) /\ (m <= snd u <= 3 * m) /\ (m <= snd v <= 3 * m))%nat.
Proof. intros u v. unfold in_square. rewrite x2, y2. cbv beta. rewrite !leq_. tauto. Qed.
(** Each condition marks the facets its tag stands for *)
Lemma q_mark : forall u v b, In b (q_conditions tol) -> (marked n (snd b) [u; v] = true <-> q_means n (fst b) [u; v]).
Proof.
  intros u v b I. rewrite marked2 by (eapply q_convex; exact I). unfold q_means. rewrite q_square, !x2, !y2. cbv beta.
  rewrite !eq0_, !eq1_, !eqq_, !eqq3_.
  unfold q_conditions in I. cbn [In] in I.
  destruct I as [<-|[<-|[<-|[<-|[<-|[<-|[<-|[<-|[]]]]]]]]]; cbn [fst snd]; unfold point; cbn [fst snd];
    rewrite ?andb_true_iff, ?q_between_iff, ?near0_, ?near1_, ?nearq_, ?nearq3_; clear; intuition (try discriminate; try lia).
Qed.
Ltac pick := first [left; solve [repeat split; lia] | right; pick | solve [repeat split; lia]].
(** The tags by the numbers of the facet *)
Lemma q_index : forall t f, q_means n t (facet_vertices f) <->
  match f with
  | Ver i j => (t = 10 /\ i = 0) \/ (t = 20 /\ i = n) \/ (t = 1 /\ i = m /\ m <= j < 3 * m) \/ (t = 2 /\ i = 3 * m /\ m <= j < 3 * m)
  | Hor i j => (t = 30 /\ j = 0) \/ (t = 40 /\ j = n) \/ (t = 3 /\ j = m /\ m <= i < 3 * m) \/ (t = 4 /\ j = 3 * m /\ m <= i < 3 * m)
  | Dia _ _ => False
  end%nat.
Proof.
  intros t f. unfold q_means. destruct f as [i j|i j|i j]; cbn [facet_vertices]; rewrite q_square, !x2, !y2; cbn [fst snd]; cbv beta;
    rewrite !eq0_, !eq1_, !eqq_, !eqq3_; clear T.
  - split; intros H; [|destruct H as [H|[H|[H|H]]]; pick].
    destruct H as [H|[H|[H|[H|[H|[H|[H|H]]]]]]]; solve [exfalso; lia|pick].
  - split; intros H; [|destruct H as [H|[H|[H|H]]]; pick].
    destruct H as [H|[H|[H|[H|[H|[H|[H|H]]]]]]]; solve [exfalso; lia|pick].
  - split; intros H; [|destruct H].
    destruct H as [H|[H|[H|[H|[H|[H|[H|H]]]]]]]; lia.
Qed.
Lemma q_cell_iff : forall c, q_cell n tol c = 2%nat <-> (m <= ci c < 3 * m)%nat /\ (m <= cj c < 3 * m)%nat.
Proof.
  intros c. unfold q_cell.
  match goal with |- (if ?b then _ else _) = _ <-> _ => assert (B : b = true <-> ((m <= ci c < 3 * m)%nat /\ (m <= cj c < 3 * m)%nat)) end;
    [|destruct (marked _ _ _); intuition discriminate].
  unfold marked. rewrite andb_true_iff, forallb_forall. split.
  - intros [H _].
    assert (G : forall v, In v (cell_vertices c) -> (m <= fst v <= 3 * m)%nat /\ (m <= snd v <= 3 * m)%nat).
    { intros v I. apply (in_map (point n)) in I. apply H in I. unfold point in I. cbn [fst snd] in I. rewrite andb_true_iff, !q_between_iff in I. exact I. }
    destruct c as [i j|i j]; cbn [cell_vertices ci cj] in *; pose proof (G _ (or_introl eq_refl)) as G1; pose proof (G _ (or_intror (or_intror (or_introl eq_refl)))) as G2; cbn [fst snd] in *; lia.
  - intros H.
    assert (G : forall v, In v (cell_vertices c) -> (/ 4 <= INR (fst v) / INR n <= 3 / 4) /\ (/ 4 <= INR (snd v) / INR n <= 3 / 4)).
    { intros v I. rewrite !leq_. destruct c as [i j|i j]; cbn [cell_vertices ci cj In] in *; destruct I as [<-|[<-|[<-|[]]]]; cbn [fst snd]; lia. }
    split.
    + intros p I. apply in_map_iff in I. destruct I as (v & <- & I). apply G in I. unfold point. cbn [fst snd]. unfold q_between.
      rewrite !andb_true_iff, !rlt_iff. lra.
    + unfold q_between. rewrite !andb_true_iff, !rlt_iff. unfold midpoint, rsum.
      destruct c as [i j|i j]; cbn [cell_vertices] in *; cbn [map fold_right point fst snd length];
        destruct (G _ (or_introl eq_refl)) as [G1 G2]; destruct (G _ (or_intror (or_introl eq_refl))) as [G3 G4]; destruct (G _ (or_intror (or_intror (or_introl eq_refl)))) as [G5 G6];
        cbn [fst snd] in *; replace (INR 3) with 3 by (simpl; lra); lra.
Qed.
End Four.

(** Marking by a list of conditions that do what their tags stand for *)
Lemma fold_tags : forall (A : Type) (l : list (nat * A)) (mark : A -> bool) (P : nat -> Prop) t0,
  (forall b, In b l -> (mark (snd b) = true <-> P (fst b))) ->
  let r := fold_left (fun t b => if mark (snd b) then fst b else t) l t0 in
  (r = t0 /\ forall b, In b l -> ~ P (fst b)) \/ (P r /\ In r (map fst l)).
Proof.
  intros A l mark P. induction l as [|b l IH]; intros t0 I r; [left; split; [reflexivity|intros ? []]|].
  unfold r. cbn [fold_left]. clear r. pose proof (I b (or_introl eq_refl)) as MM.
  destruct (mark (snd b)).
  - destruct (IH (fst b) (fun b' H => I b' (or_intror H))) as [[-> H]|[H1 H2]]; right; [split; [apply MM; reflexivity|left; reflexivity]|split; [exact H1|right; exact H2]].
  - destruct (IH t0 (fun b' H => I b' (or_intror H))) as [[-> H]|[H1 H2]]; [left|right; split; [exact H1|right; exact H2]]. split; [reflexivity|].
    intros b' [<-|I']; [rewrite <- MM; discriminate|apply H, I'].
Qed.
