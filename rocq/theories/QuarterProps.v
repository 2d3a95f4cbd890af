(** C142: the marks in the test of translate_markers *)
From Coq Require Import Reals Lra Lia.
From Verif Require Import QuarterModel InnerProofs HalvesProofs QuarterProofs.
Local Open Scope R_scope.

(** For n divisible by four the tag of a facet is the one that stands for where it lies (see [q_means]), 0 if there is
    none; no facet has two, so the order of the marks does not matter *)
Theorem C142_tags : forall m tol f, (0 < m)%nat -> let n := (4 * m)%nat in 0 < tol <= / INR n ->
  (forall t, (0 < t)%nat -> (q_tag n tol f = t <-> q_means n t (facet_vertices f))) /\
  (q_tag n tol f = 0%nat <-> forall t, ~ q_means n t (facet_vertices f)) /\
  (forall s t, q_means n s (facet_vertices f) -> q_means n t (facet_vertices f) -> s = t).
Proof.
  intros m tol f M n T. assert (E : n = (2 * (2 * m))%nat) by (unfold n; lia). clearbody n.
  assert (U : forall s t, q_means n s (facet_vertices f) -> q_means n t (facet_vertices f) -> s = t).
  { intros s t Hs Ht. apply (q_index n m tol E M T) in Hs. apply (q_index n m tol E M T) in Ht. destruct f; lia. }
  pose proof (fold_tags _ (q_conditions tol) (fun p => marked n p (facet_vertices f)) (fun t => q_means n t (facet_vertices f)) 0%nat) as G.
  cbv beta zeta in G. fold (q_tag n tol f) in G.
  assert (G' : forall b, In b (q_conditions tol) -> marked n (snd b) (facet_vertices f) = true <-> q_means n (fst b) (facet_vertices f)).
  { intros b I. destruct f; apply (q_mark n m tol E M T); exact I. }
  specialize (G G').
  assert (Z : forall t, q_means n t (facet_vertices f) -> q_tag n tol f = t).
  { intros t H. destruct G as [[_ G]|[G _]]; [|apply U; assumption]. exfalso.
    assert (B : exists b, In b (q_conditions tol) /\ fst b = t).
    { assert (I : In t (map fst (q_conditions tol))) by (unfold q_means in H; cbn; intuition).
      apply in_map_iff in I. destruct I as (b & Eb & I). eauto. }
    destruct B as (b & I & <-). exact (G b I H). }
  split; [|split; [|exact U]].
  - intros t P. split; [|apply Z]. intros Et. destruct G as [[G _]|[G _]]; [lia|]. rewrite Et in G. exact G.
  - split.
    + intros Et t H. pose proof (Z t H) as E2. rewrite Et in E2. subst t. unfold q_means in H. intuition discriminate.
    + intros H. destruct G as [[G _]|[G _]]; [exact G|]. destruct (H _ G).
Qed.
Print Assumptions C142_tags.

(** For n divisible by four the embedded mesh has the cells in [1/4, 3/4]^2, the assertion on the values holds, and for
    each of the tags 1 to 4 the facets with the tag are the same in the mesh and in the embedded mesh *)
Theorem C142_translated : forall m tol, (0 < m)%nat -> let n := (4 * m)%nat in 0 < tol <= / INR n ->
  (forall c, In c (q_inside n tol) <-> In c (mesh_cells n n) /\ in_square n (cell_vertices c)) /\
  q_assert n tol /\
  (forall t f, In t [1; 2; 3; 4]%nat -> (facet_of n f /\ q_tag n tol f = t <-> In f (q_facets n tol) /\ q_values n tol f = t)).
Proof.
  intros m tol M n T. pose proof (fun f => C142_tags m tol f M T) as C. fold n in C. cbv zeta in C.
  assert (E : n = (2 * (2 * m))%nat) by (unfold n; lia). clearbody n.
  assert (I : forall c, In c (q_inside n tol) <-> (m <= ci c < 3 * m)%nat /\ (m <= cj c < 3 * m)%nat).
  { intros c. unfold q_inside. rewrite filter_In, Nat.eqb_eq, (q_cell_iff n m tol E M T), in_cells. lia. }
  assert (F : forall f, In f (q_facets n tol) <-> (match f with
    | Hor i j => m <= i < 3 * m /\ m <= j <= 3 * m | Ver i j => m <= i <= 3 * m /\ m <= j < 3 * m | Dia i j => m <= i < 3 * m /\ m <= j < 3 * m end)%nat).
  { intros f. unfold q_facets. rewrite in_flat_map. split.
    - intros (c & Ic & If). apply I in Ic. destruct c as [a b|a b]; cbn [ci cj cell_facets In] in *; destruct If as [<-|[<-|[<-|[]]]]; lia.
    - intros H. destruct f as [i j|i j|i j].
      + destruct (le_lt_dec (3 * m) j) as [L|L].
        * exists (Upper i (j - 1)). rewrite I. cbn [ci cj cell_facets In]. replace (S (j - 1)) with j by lia. split; [lia|auto].
        * exists (Lower i j). rewrite I. cbn [ci cj cell_facets In]. split; [lia|auto].
      + destruct (le_lt_dec (3 * m) i) as [L|L].
        * exists (Lower (i - 1) j). rewrite I. cbn [ci cj cell_facets In]. replace (S (i - 1)) with i by lia. split; [lia|auto].
        * exists (Upper i j). rewrite I. cbn [ci cj cell_facets In]. split; [lia|auto].
      + exists (Lower i j). rewrite I. cbn [ci cj cell_facets In]. split; [lia|auto]. }
  assert (Q : forall t f, q_means n t (facet_vertices f) <-> _) by exact (q_index n m tol E M T).
  assert (TG : forall f, q_tag n tol f = 0%nat \/ In (q_tag n tol f) [1; 2; 3; 4; 10; 20; 30; 40]%nat).
  { intros f. destruct (Nat.eq_dec (q_tag n tol f) 0) as [Z|Z]; [left; exact Z|right].
    destruct (C f) as (C1 & _). pose proof (proj1 (C1 (q_tag n tol f) ltac:(lia)) eq_refl) as H. unfold q_means in H. cbn. intuition. }
  assert (V : forall f, q_values n tol f = q_tag n tol f).
  { intros f. unfold q_values. destruct (existsb _ _) eqn:X; [reflexivity|]. destruct (TG f) as [H|H]; [auto|].
    exfalso. assert (Y : existsb (Nat.eqb (q_tag n tol f)) [1; 2; 3; 4; 10; 20; 30; 40]%nat = true) by (apply existsb_exists; exists (q_tag n tol f); rewrite Nat.eqb_refl; auto). congruence. }
  split; [|split].
  - intros c. rewrite I, in_cells. unfold in_square, xs, ys.
    assert (S : (forall v, In v (cell_vertices c) -> / 4 <= INR (fst v) / INR n <= 3 / 4) <-> (m <= ci c < 3 * m)%nat).
    { destruct c as [i j|i j]; cbn [cell_vertices ci]; split; intros H;
      [pose proof (H _ (or_introl eq_refl)) as H1; pose proof (H _ (or_intror (or_introl eq_refl))) as H2|intros v [<-|[<-|[<-|[]]]]
      |pose proof (H _ (or_introl eq_refl)) as H1; pose proof (H _ (or_intror (or_intror (or_introl eq_refl)))) as H2|intros v [<-|[<-|[<-|[]]]]];
      cbn [fst] in *; try (rewrite (leq_ n m E M) in H1); try (rewrite (leq_ n m E M) in H2); try rewrite (leq_ n m E M); lia. }
    assert (S2 : (forall v, In v (cell_vertices c) -> / 4 <= INR (snd v) / INR n <= 3 / 4) <-> (m <= cj c < 3 * m)%nat).
    { destruct c as [i j|i j]; cbn [cell_vertices cj]; split; intros H;
      [pose proof (H _ (or_introl eq_refl)) as H1; pose proof (H _ (or_intror (or_intror (or_introl eq_refl)))) as H2|intros v [<-|[<-|[<-|[]]]]
      |pose proof (H _ (or_introl eq_refl)) as H1; pose proof (H _ (or_intror (or_introl eq_refl))) as H2|intros v [<-|[<-|[<-|[]]]]];
      cbn [snd] in *; try (rewrite (leq_ n m E M) in H1); try (rewrite (leq_ n m E M) in H2); try rewrite (leq_ n m E M); lia. }
    rewrite S, S2. lia.
  - intros t. split.
    + intros (f & If & <-). rewrite V. apply F in If. destruct (TG f) as [Z|H]; [rewrite Z; left; reflexivity|].
      assert (P : (0 < q_tag n tol f)%nat) by (revert H; generalize (q_tag n tol f); intros x H; cbn in H; lia).
      destruct (C f) as (C1 & _). pose proof (proj1 (C1 _ P) eq_refl) as K. apply Q in K.
      revert K. clear - If M E. generalize (q_tag n tol f). intros x K. cbn. destruct f; lia.
    + intros H.
      assert (W : forall f, (0 < t)%nat -> q_means n t (facet_vertices f) -> q_values n tol f = t).
      { intros f P K. rewrite V. destruct (C f) as (C1 & _). apply C1; assumption. }
      destruct H as [<-|[<-|[<-|[<-|[<-|[]]]]]].
      * exists (Dia m m). split; [apply F; lia|]. rewrite V. destruct (C (Dia m m)) as (_ & C2 & _). apply C2. intros t K. apply Q in K. exact K.
      * exists (Ver m m). split; [apply F; lia|]. apply W; [lia|]. apply Q. lia.
      * exists (Ver (3 * m) m). split; [apply F; lia|]. apply W; [lia|]. apply Q. lia.
      * exists (Hor m m). split; [apply F; lia|]. apply W; [lia|]. apply Q. lia.
      * exists (Hor m (3 * m)). split; [apply F; lia|]. apply W; [lia|]. apply Q. lia.
  - intros t f It. rewrite V. split; intros [H1 H2]; (split; [|exact H2]).
    + apply F. assert (P : (0 < t)%nat) by (cbn in It; lia). destruct (C f) as (C1 & _). apply (proj1 (C1 t P)) in H2. apply Q in H2. cbn in It. destruct f; lia.
    + unfold q_facets in H1. apply in_flat_map in H1. destruct H1 as (c & Ic & If). exists c. split; [|exact If].
      unfold q_inside in Ic. apply filter_In in Ic. tauto.
Qed.
Print Assumptions C142_translated.

(** If n is not divisible by four no facet gets one of the tags 1 to 4, so the assertion fails *)
Theorem C142_other_n : forall n tol, (n mod 4 <> 0)%nat -> 0 < tol <= / INR (4 * n) ->
  (forall f, ~ In (q_tag n tol f) [1; 2; 3; 4]%nat) /\ ~ q_assert n tol.
Proof.
  intros n tol N T. assert (N0 : (0 < n)%nat) by (destruct n; [easy|lia]).
  assert (P : 0 < INR n) by (apply lt_0_INR; lia).
  assert (NQ : forall a, near_to tol (INR a / INR n) (/ 4) = false /\ near_to tol (INR a / INR n) (3 / 4) = false).
  { intros a. assert (D : (4 * a <> n)%nat /\ (4 * a <> 3 * n)%nat).
    { assert (X := Nat.div_mod n 4 ltac:(lia)). pose proof (Nat.mod_upper_bound n 4 ltac:(lia)). lia. }
    assert (Qn : 0 < / INR (4 * n)) by lra.
    assert (K : forall z, INR a / INR n - INR z / 4 = (INR (4 * a) - INR (z * n)) * / INR (4 * n)).
    { intros z. rewrite !mult_INR. simpl (INR 4). field. lra. }
    assert (G : forall z, (4 * a <> z * n)%nat -> near_to tol (INR a / INR n) (INR z / 4) = false).
    { intros z Z. apply Bool.not_true_is_false. rewrite near_to_iff. intros H. specialize (K z).
      destruct (le_lt_dec (4 * a) (z * n)) as [L|L].
      - assert (INR (4 * a) + 1 <= INR (z * n)) by (rewrite <- S_INR; apply le_INR; lia). nra.
      - assert (INR (z * n) + 1 <= INR (4 * a)) by (rewrite <- S_INR; apply le_INR; lia). nra. }
    split.
    - pose proof (G 1%nat ltac:(lia)) as H. replace (INR 1 / 4) with (/ 4) in H by (simpl; lra). exact H.
    - pose proof (G 3%nat ltac:(lia)) as H. replace (INR 3 / 4) with (3 / 4) in H by (simpl; lra). exact H. }
  assert (A : forall f, ~ In (q_tag n tol f) [1; 2; 3; 4]%nat).
  { intros f. unfold q_tag, q_conditions. cbn [fold_left fst snd].
    assert (M0 : forall p : R * R -> bool, (forall v, p (point n v) = false) -> marked n p (facet_vertices f) = false).
    { intros p H. unfold marked. destruct f; cbn [facet_vertices map forallb]; rewrite H; reflexivity. }
    rewrite (M0 (fun p => near_to tol (fst p) (/ 4) && q_between tol (snd p))) by (intros v; unfold point; cbn [fst snd]; rewrite (proj1 (NQ (fst v))); reflexivity).
    rewrite (M0 (fun p => near_to tol (fst p) (3 / 4) && q_between tol (snd p))) by (intros v; unfold point; cbn [fst snd]; rewrite (proj2 (NQ (fst v))); reflexivity).
    rewrite (M0 (fun p => near_to tol (snd p) (/ 4) && q_between tol (fst p))) by (intros v; unfold point; cbn [fst snd]; rewrite (proj1 (NQ (snd v))); reflexivity).
    rewrite (M0 (fun p => near_to tol (snd p) (3 / 4) && q_between tol (fst p))) by (intros v; unfold point; cbn [fst snd]; rewrite (proj2 (NQ (snd v))); reflexivity).
    repeat match goal with |- context [if ?b then _ else _] => destruct b end; cbn; lia. }
  split; [exact A|]. intros H. destruct (proj2 (H 1%nat) ltac:(cbn; auto)) as (f & _ & V). unfold q_values in V.
  destruct (existsb _ _); [|discriminate V]. apply (A f). rewrite V. cbn. auto.
Qed.
Print Assumptions C142_other_n.

(** The size of the test is divisible by four; a facet of tag 1, and a size that is not *)
Example C142_ex : (32 = 4 * 8)%nat /\ q_means 32 1 (facet_vertices (Ver 8 8)) /\ (forall t, ~ q_means 32 t (facet_vertices (Dia 8 8))) /\
  0 < / 1000 <= / INR (4 * 8) /\ (30 mod 4 <> 0)%nat /\ 0 < / 1000 <= / INR (4 * 30).
Proof.
  assert (T : 0 < / 1000 <= / INR 32) by (replace (INR 32) with 32 by (simpl; lra); split; [lra|apply Rinv_le_contravar; lra]).
  pose proof (q_index 32 8 (/ 1000) eq_refl ltac:(lia) T) as Q.
  split; [reflexivity|split; [apply Q; lia|split; [intros t H; apply Q in H; exact H|split; [exact T|split; [discriminate|]]]]].
  change (4 * 30)%nat with 120%nat. replace (INR 120) with 120 by (rewrite INR_IZR_INZ; reflexivity). split; [lra|apply Rinv_le_contravar; lra].
Qed.
