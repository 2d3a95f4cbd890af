(** C140: the geometry of the coupled problem of two, one and one dimensions *)
From Coq Require Import Reals Lra Lia.
From Verif Require Import HalvesModel InnerProofs HalvesProofs.
Local Open Scope R_scope.

Lemma side_even : forall i, exists k, (0 < k)%nat /\ cells_per_side i = (2 * k)%nat.
Proof.
  intros i. exists (2 * 2 ^ i)%nat. unfold cells_per_side. pose proof (Nat.pow_nonzero 2 i ltac:(lia)). lia.
Qed.

(** On all levels a cell has the tag 1 if it is left of the line x = 1/2 and the tag 2 if it is right of it; each cell
    is on one side only *)
Theorem C140_cells : forall i tol c, let n := cells_per_side i in 0 < tol <= / INR n -> In c (mesh_cells n n) ->
  (cell_tag n tol c = 1%nat /\ xs n (cell_vertices c) (fun x => x <= / 2) /\ ~ xs n (cell_vertices c) (fun x => / 2 <= x)) \/
  (cell_tag n tol c = 2%nat /\ xs n (cell_vertices c) (fun x => / 2 <= x) /\ ~ xs n (cell_vertices c) (fun x => x <= / 2)).
Proof.
  intros i tol c n T _. unfold n in *. clear n. destruct (side_even i) as (k & K & E). rewrite E in *. clear E i.
  assert (M : cell_tag (2 * k) tol c = if (k <=? ci c)%nat then 2%nat else 1%nat).
  { unfold cell_tag. match goal with |- (if ?b then _ else _) = _ => assert (B : b = (k <=? ci c)%nat) end; [|rewrite B; reflexivity].
    apply Bool.eq_iff_eq_true. rewrite Nat.leb_le. unfold marked. rewrite andb_true_iff, forallb_forall. split.
    - intros [H _]. specialize (H (point (2 * k) (ci c, cj c))). apply (above_ k tol K T).
      rewrite <- (at_half k K). apply rlt_iff. apply H. apply in_map. destruct c; simpl; auto.
    - intros L.
      assert (G : forall v, In v (cell_vertices c) -> / 2 - tol < INR (fst v) / INR (2 * k)).
      { intros v I. rewrite (at_half k K). apply (above_ k tol K T). destruct c; simpl in I, L; intuition; subst; simpl; lia. }
      split.
      + intros p I. apply in_map_iff in I. destruct I as (v & <- & I). apply rlt_iff, G, I.
      + apply rlt_iff. destruct c as [a b|a b]; cbn [cell_vertices] in *; rewrite midpoint3;
        pose proof (G _ (or_introl eq_refl)); pose proof (G _ (or_intror (or_introl eq_refl))); pose proof (G _ (or_intror (or_intror (or_introl eq_refl)))); lra. }
  rewrite M. destruct (Nat.leb_spec k (ci c)) as [L|L]; [right|left]; (split; [reflexivity|split]).
  - intros v I. rewrite (at_half k K). apply (le_grid k K). destruct c; simpl in I, L; intuition; subst; simpl; lia.
  - intros H. assert (I : exists b, In (S (ci c), b) (cell_vertices c)) by (destruct c; simpl; eauto). destruct I as (b & I).
    apply H in I. rewrite (at_half k K) in I. apply (le_grid k K) in I. simpl in I. lia.
  - intros v I. rewrite (at_half k K). apply (le_grid k K). destruct c; simpl in I, L; intuition; subst; simpl; lia.
  - intros H. assert (I : In (ci c, cj c) (cell_vertices c)) by (destruct c; simpl; auto).
    apply H in I. rewrite (at_half k K) in I. apply (le_grid k K) in I. simpl in I. lia.
Qed.
Print Assumptions C140_cells.

(** On all levels the tag of a facet is the one that stands for where it lies (see [means]), 0 if there is none; two
    different tags never stand for one facet, so the order of the dictionary does not matter *)
Theorem C140_facets : forall i tol f, let n := cells_per_side i in 0 < tol <= / INR n ->
  (forall t, (0 < t)%nat -> (facet_tag n tol f = t <-> means n t (facet_vertices f))) /\
  (facet_tag n tol f = 0%nat <-> forall t, ~ means n t (facet_vertices f)) /\
  (forall s t, means n s (facet_vertices f) -> means n t (facet_vertices f) -> s = t).
Proof.
  intros i tol f n T. unfold n in *. clear n. destruct (side_even i) as (k & K & E). rewrite E in *. clear E i.
  assert (U : forall s t, means (2 * k) s (facet_vertices f) -> means (2 * k) t (facet_vertices f) -> s = t).
  { intros s t Hs Ht. apply (means_index k tol K T) in Hs. apply (means_index k tol K T) in Ht.
    destruct f; destruct s as [|[|[|[|[|[|[|[|s]]]]]]]]; try contradiction; destruct t as [|[|[|[|[|[|[|[|t]]]]]]]]; try contradiction; lia. }
  assert (G : forall l t0, (forall b, In b l -> In b (boundaries tol)) ->
    let r := fold_left (fun t b => if marked (2 * k) (snd b) (facet_vertices f) then fst b else t) l t0 in
    (r = t0 /\ forall b, In b l -> ~ means (2 * k) (fst b) (facet_vertices f)) \/ (means (2 * k) r (facet_vertices f))).
  { induction l as [|b l IH]; intros t0 I r; [left; split; [reflexivity|intros ? []]|].
    unfold r. cbn [fold_left]. clear r.
    assert (MM : marked (2 * k) (snd b) (facet_vertices f) = true <-> means (2 * k) (fst b) (facet_vertices f)).
    { destruct f; apply (mark_means k tol K T); apply I; left; reflexivity. }
    destruct (marked _ _ _).
    - destruct (IH (fst b) (fun b' H => I b' (or_intror H))) as [[-> H]|H]; right; [apply MM; reflexivity|exact H].
    - destruct (IH t0 (fun b' H => I b' (or_intror H))) as [[-> H]|H]; [left|right; exact H]. split; [reflexivity|].
      intros b' [<-|I']; [rewrite <- MM; discriminate|apply H, I']. }
  specialize (G (boundaries tol) 0%nat (fun b H => H)). cbv zeta in G. fold (facet_tag (2 * k) tol f) in G.
  assert (Z : forall t, means (2 * k) t (facet_vertices f) -> facet_tag (2 * k) tol f = t).
  { intros t M. destruct G as [[_ G]|G]; [|apply U; assumption]. exfalso.
    assert (B : exists b, In b (boundaries tol) /\ fst b = t).
    { assert (I : In t (map fst (boundaries tol))).
      { destruct t as [|[|[|[|[|[|[|[|t]]]]]]]]; try contradiction M; cbn; tauto. }
      apply in_map_iff in I. destruct I as (b & E & I). eauto. }
    destruct B as (b & I & <-). exact (G b I M). }
  split; [|split; [|exact U]].
  - intros t P. split; [|apply Z]. intros E. destruct G as [[G _]|G]; [lia|]. rewrite E in G. exact G.
  - split.
    + intros E t M. pose proof (Z t M) as E2. rewrite E in E2. subst t. exact M.
    + intros H. destruct G as [[G _]|G]; [exact G|]. destruct (H _ G).
Qed.
Print Assumptions C140_facets.

(** The first level: the facet left of the middle of the bottom, a facet of the line, one inside *)
Example C140_ex : cells_per_side 0 = 4%nat /\ means 4 3 (facet_vertices (Hor 1 0)) /\ means 4 7 (facet_vertices (Ver 2 3)) /\
  (forall t, ~ means 4 t (facet_vertices (Dia 1 1))) /\ 0 < / 1000 <= / INR 4.
Proof.
  assert (T : 0 < / 1000 <= / INR (2 * 2)) by (simpl INR; split; [lra|apply Rinv_le_contravar; lra]).
  split; [reflexivity|]. pose proof (means_index 2 (/ 1000) ltac:(lia) T) as H. change (2 * 2)%nat with 4%nat in H. rewrite !H.
  split; [lia|split; [reflexivity|split; [|exact T]]].
  intros t. rewrite H. destruct t as [|[|[|[|[|[|[|[|t]]]]]]]]; tauto.
Qed.
