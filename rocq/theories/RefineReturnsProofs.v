(** When refinement by centroids returns: proofs for RefineModel.v *)
From Verif Require Import RefineModel GeomProofs RefineProofs RefineCentroidProofs BaseProofs.
From Coq Require Import Psatz Permutation Sorted.
Local Open Scope R_scope.

(** MeshEditor leaves cells alone whose vertices are in order *)
Definition keeps_sorted (order : list nat -> list nat) : Prop := forall c, StronglySorted lt c -> order c = c.
Definition sorted_cells (m : mesh) : Prop := Forall (StronglySorted lt) (m_cells m).
Definition larger_than (eps : R) (m : mesh) : Prop := forall c, (c < length (m_cells m))%nat -> exists a, simplex_area (corners m c) = Ok a /\ eps < a.

Section ManyReturns.
Variables (tdim gdim n : nat) (once : mesh -> res (mesh * maps)) (Q : nat -> mesh -> Prop).
Hypothesis NZ : n <> 0%nat.
Hypothesis STEP : forall m m' mp, mesh_ok tdim gdim m -> once m = Ok (m', mp) -> mesh_ok tdim gdim m' /\ tracks n m m' mp.
Hypothesis RET : forall k m, mesh_ok tdim gdim m -> Q (S k) m -> exists m' mp, once m = Ok (m', mp) /\ Q k m'.
Lemma loop_returns m k : forall j m0 map0, mesh_ok tdim gdim m0 -> tracks (n ^ j) m m0 map0 -> Q k m0 -> exists r, refine_loop once k m0 map0 (seq 0 (length (m_x m))) (seq 0 (length (m_x m))) = Ok r.
Proof.
  induction k as [|k IH]; intros j m0 map0 OK TR HQ; cbn [refine_loop]; [eexists; reflexivity|].
  destruct (RET k m0 OK HQ) as [m1 [map1 [O Q1]]]. rewrite O. cbn [bind]. destruct (STEP _ _ _ OK O) as [OK1 [L1 [C1 [V1 X1]]]]. destruct TR as [L0 [C0 [V0 X0]]]. rewrite C0, C1, V1.
  rewrite (compose_maps n) by (intros i I; apply div_bound; [exact NZ|]; rewrite <- L1; exact I). cbn [bind]. assert (LX : (length (m_x m) <= length (m_x m0))%nat) by (pose proof (f_equal (@length _) X0) as H; rewrite firstn_length in H; lia). rewrite keep_roots by exact LX. unfold py_assert. rewrite Nat.eqb_refl. cbn [bind].
  apply (IH (S j)); [exact OK1| |exact Q1]. unfold tracks. cbn [cmap vmap]. split; [rewrite L1, L0; cbn [Nat.pow]; lia|]. split; [|split; [apply combine_seq|]].
  - apply map_ext. intros i. f_equal. rewrite Nat.div_div; [reflexivity|exact NZ|apply Nat.pow_nonzero, NZ].
  - transitivity (firstn (length (m_x m)) (firstn (length (m_x m0)) (m_x m1))); [rewrite firstn_firstn; f_equal; lia|]. rewrite X1. exact X0.
Qed.
Lemma many_returns m k : mesh_ok tdim gdim m -> m_x m <> [] -> Q (S (k - 1)) m -> exists r, refine_many once k m = Ok r.
Proof.
  intros OK NE HQ. destruct (RET (k - 1) m OK HQ) as [m0 [map0 [O Q0]]]. unfold refine_many. rewrite O. cbn [bind]. destruct (STEP _ _ _ OK O) as [OK0 TR]. pose proof TR as [_ [_ [V0 _]]]. rewrite V0.
  destruct (map (fun v => (v, v)) (seq 0 (length (m_x m)))) eqn:E; [destruct (m_x m); [congruence|discriminate E]|]. rewrite <- E, !map_map. cbn [fst snd]. rewrite map_id. apply (loop_returns m (k - 1) 1); [exact OK0|rewrite Nat.pow_1_r; exact TR|exact Q0].
Qed.
End ManyReturns.

(** ** One refinement with centroids *)
Lemma nth_sorted cell i j : StronglySorted lt cell -> (i < j < length cell)%nat -> (nth i cell 0 < nth j cell 0)%nat.
Proof.
  intros S. revert i j. induction S as [|a l S IH F]; intros i j H; [cbn in H; lia|]. destruct j as [|j]; [lia|]. destruct i as [|i]; cbn; [rewrite Forall_forall in F; apply F, nth_In; cbn in H; lia|]. apply IH. cbn in H. lia.
Qed.
Lemma basis_sorted n : (2 <= n <= 4)%nat -> Forall (StronglySorted lt) (basis n).
Proof.
  intros H. assert (C : n = 2%nat \/ n = 3%nat \/ n = 4%nat) by lia. destruct C as [-> |[-> | ->]]; cbn; repeat (constructor; try lia).
Qed.
Lemma child_sorted n cell k c : (2 <= n <= 4)%nat -> length cell = n -> StronglySorted lt cell -> Forall (fun v => (v < k)%nat) cell -> In c (children n cell k) -> StronglySorted lt c.
Proof.
  intros N L S F I. unfold children in I. apply in_map_iff in I. destruct I as [b [<- B]]. destruct (basis_length n N) as [_ FB]. rewrite Forall_forall in FB. destruct (FB b B) as [_ LB]. pose proof (basis_sorted n N) as SB. rewrite Forall_forall in SB. specialize (SB b B). clear FB B.
  rewrite Forall_forall in F. induction SB as [|j b SB IH FJ]; cbn; [repeat constructor|]. apply Forall_cons_iff in LB. destruct LB as [L1 LB]. constructor; [apply IH, LB|]. apply Forall_app. split; [|constructor; [apply F, nth_In; lia|constructor]].
  apply Forall_forall. intros v V. apply in_map_iff in V. destruct V as [i [<- I]]. rewrite Forall_forall in FJ, LB. apply nth_sorted; [exact S|]. specialize (FJ i I). specialize (LB i I). lia.
Qed.
Lemma child_points n x xnew cell k c : (2 <= n <= 4)%nat -> length cell = n -> Forall (fun v => (v < length x)%nat) cell -> In c (children n cell (length x + k)) ->
  exists base, In base (basis n) /\ pts (x ++ xnew) c = map (fun j => nth j (pts x cell) []) base ++ [nth k xnew []].
Proof.
  intros N L F I. unfold children in I. apply in_map_iff in I. destruct I as [b [<- B]]. exists b. split; [exact B|]. unfold pts. rewrite map_app. cbn [map]. rewrite at_new. f_equal. rewrite map_map. apply map_ext_in. intros j J. destruct (basis_length n N) as [_ FB]. rewrite Forall_forall in FB. destruct (FB b B) as [_ LB]. rewrite Forall_forall in LB. specialize (LB j J).
  rewrite (nth_map (at_vertex x) cell j 0%nat) by lia. apply at_old. rewrite Forall_forall in F. apply F, nth_In. lia.
Qed.
Lemma fine_cells_returns n x cells : forall pc center, (forall k c, (k < length cells)%nat -> In c (children n (nth k cells []) (center + k)) -> exists a, simplex_area (pts x c) = Ok a /\ 1 / 10 ^ 15 < a) -> exists r, fine_cells n x cells pc center = Ok r.
Proof.
  induction cells as [|cell cells IH]; intros pc center H; cbn [fine_cells]; [eexists; reflexivity|].
  assert (M : exists l, mapM (fun c => do a <- simplex_area (pts x c); do _ <- py_assert (if Rlt_dec (1 / 10 ^ 15) a then true else false); Ok c) (children n cell center) = Ok l).
  { assert (H0 : forall c, In c (children n cell center) -> exists a, simplex_area (pts x c) = Ok a /\ 1 / 10 ^ 15 < a) by (intros c C; apply (H 0%nat c); [cbn; lia|rewrite Nat.add_0_r; exact C]). revert H0. generalize (children n cell center) as l. clear. induction l as [|c l IH]; intros H; [eexists; reflexivity|]. rewrite mapM_cons. destruct (H c (or_introl eq_refl)) as [a [-> L]]. cbn [bind]. destruct (Rlt_dec (1 / 10 ^ 15) a); [|contradiction]. cbn [py_assert bind]. destruct IH as [l' ->]; [intros d D; apply H; right; exact D|]. eexists. reflexivity. }
  destruct M as [l ->]. cbn [bind]. destruct (IH (S pc) (S center)) as [r ->]; [intros k c K C; apply (H (S k) c); [cbn; lia|]; cbn [nth]; replace (center + S k)%nat with (S center + k)%nat by lia; exact C|]. eexists. reflexivity.
Qed.
Lemma centroid_inside_test n gdim cell a tol : supported n gdim -> is_cell n gdim cell -> simplex_area cell = Ok a -> 0 < tol -> point_is_inside (centroid gdim cell) cell tol = Ok true.
Proof.
  intros S IC A T. pose proof (split_all n gdim cell S IC a A) as F. unfold point_is_inside, area_diff. rewrite A. cbn [bind]. unfold simplices. rewrite (proj1 IC). fold (basis n).
  assert (M : mapM simplex_area (map (fun other => centroid gdim cell :: map (fun i => nth i cell []) other) (basis n)) = Ok (map (fun _ => a / INR n) (basis n))). { clear - F. induction F as [|b l [_ H] _ IH]; [reflexivity|]. cbn [map]. rewrite mapM_cons, H. cbn [bind]. rewrite IH. reflexivity. }
  rewrite M. cbn [bind]. assert (N : (2 <= n <= 4)%nat) by (destruct S as [[-> _]|[[-> _]|[-> _]]]; lia). assert (E : lsum (map (fun _ : list nat => a / INR n) (basis n)) = a).
  { assert (G : forall (l : list (list nat)) c, lsum (map (fun _ => c) l) = INR (length l) * c). { intros l c. unfold lsum. induction l as [|b l IH]; [cbn; ring|]. cbn [map fold_right length]. rewrite IH, S_INR. ring. } rewrite G, (proj1 (basis_length n N)). field. apply not_0_INR. lia. }
  rewrite E. replace (a - a) with 0 by ring. rewrite Rabs_R0. destruct (Rlt_dec 0 tol); [reflexivity|contradiction].
Qed.

Section Centroid.
Variables (order : list nat -> list nat) (hmin : mesh -> R) (strict : R) (tdim gdim : nat).
Hypothesis ORD : reorders order.
Hypothesis KEEP : keeps_sorted order.
Hypothesis HPOS : forall m, 0 < hmin m.
Hypothesis SUP : supported (S tdim) gdim.
Lemma corners_is_cell m c : mesh_ok tdim gdim m -> (c < length (m_cells m))%nat -> is_cell (S tdim) gdim (corners m c).
Proof.
  intros [_ [_ [_ [FX FC]]]] H. rewrite Forall_forall in FC, FX. destruct (FC (nth c (m_cells m) [])) as [L F]; [apply nth_In, H|]. rewrite Forall_forall in F. unfold corners. split; [rewrite map_length; exact L|]. apply Forall_forall. intros p P. apply in_map_iff in P. destruct P as [v [<- V]]. apply FX, nth_In, F, V.
Qed.
Lemma centroid_once_returns e m : 1 / 10 ^ 15 <= e -> mesh_ok tdim gdim m -> sorted_cells m -> larger_than (INR (S tdim) * e) m ->
  exists m' mp, refine_once order hmin centroids strict m = Ok (m', mp) /\ sorted_cells m' /\ larger_than e m'.
Proof.
  intros E OK SC BIG. pose proof OK as [T [G [NV [FX FC]]]]. assert (N : (2 <= S tdim <= 4)%nat) by (destruct SUP as [[? _]|[[? _]|[? _]]]; lia). assert (PN : 0 < INR (S tdim)) by (apply lt_0_INR; lia).
  assert (CH : forall k c, (k < length (m_cells m))%nat -> In c (children (S tdim) (nth k (m_cells m) []) (length (m_x m) + k)) -> exists a, simplex_area (pts (m_x m ++ centroids m) c) = Ok a /\ e < a).
  { intros k c K C. rewrite Forall_forall in FC. destruct (FC (nth k (m_cells m) [])) as [LK FK]; [apply nth_In, K|]. destruct (child_points (S tdim) (m_x m) (centroids m) _ k c N LK FK C) as [b [B ->]]. destruct (BIG k K) as [a [A L]]. pose proof (split_all (S tdim) gdim _ SUP (corners_is_cell m k OK K) a A) as SP. rewrite Forall_forall in SP. destruct (SP b B) as [SP1 _].
    unfold centroids. rewrite (nth_map _ _ _ []) by exact K. rewrite G. exists (a / INR (S tdim)). split; [exact SP1|]. apply (Rmult_lt_reg_r (INR (S tdim))); [exact PN|]. unfold Rdiv. rewrite Rmult_assoc, Rinv_l by lra. lra. }
  assert (R : exists r, refine_once order hmin centroids strict m = Ok r).
  { unfold refine_once. rewrite NV, T.
    assert (AS : py_assert (((S tdim =? 2) || (S tdim =? 3) || ((S tdim =? 4) && (tdim =? 3)))%nat) = Ok tt). { assert (C : (tdim = 1 \/ tdim = 2 \/ tdim = 3)%nat) by lia. destruct C as [-> |[-> | ->]]; reflexivity. } rewrite AS. cbn [bind].
    assert (IN : (if Rlt_dec 0 strict then points_are_inside (centroids m) (map (pts (m_x m)) (m_cells m)) (hmin m * strict) else Ok true) = Ok true).
    { destruct (Rlt_dec 0 strict) as [P|]; [|reflexivity]. assert (TOL : 0 < hmin m * strict) by (apply Rmult_lt_0_compat; [apply HPOS|exact P]). unfold centroids. rewrite G.
      assert (A : Forall (fun c => exists a, is_cell (S tdim) gdim (pts (m_x m) c) /\ simplex_area (pts (m_x m) c) = Ok a) (m_cells m)). { apply Forall_forall. intros c C. apply (In_nth _ _ []) in C. destruct C as [k [K <-]]. destruct (BIG k K) as [a [A _]]. exists a. split; [apply (corners_is_cell m k OK K)|exact A]. }
      revert A. generalize (m_cells m) as l. induction l as [|c l IH]; intros A; [reflexivity|]. apply Forall_cons_iff in A. destruct A as [[a [IC A1]] A]. cbn [map points_are_inside]. rewrite (centroid_inside_test _ _ _ a _ SUP IC A1 TOL). cbn [bind]. apply IH, A. }
    rewrite IN. cbn [bind py_assert]. destruct (fine_cells_returns (S tdim) (m_x m ++ centroids m) (m_cells m) 0 (length (m_x m))) as [r ->]; [|eexists; reflexivity].
    intros k c K C. destruct (CH k c K C) as [a [A L]]. exists a. split; [exact A|lra]. }
  destruct R as [[m' mp] R]. exists m', mp. split; [exact R|]. apply refine_once_inv in R. cbv zeta in R. rewrite NV in R. destruct R as [_ [-> _]]. set (cs := flat_map _ _).
  assert (SO : forall d, In d cs -> StronglySorted lt d). { intros d D. unfold cs in D. apply in_flat_map in D. destruct D as [k [K D]]. apply in_seq in K. rewrite Forall_forall in FC. destruct (FC (nth k (m_cells m) [])) as [LK FK]; [apply nth_In; lia|]. apply (child_sorted (S tdim) _ (length (m_x m) + k) d N LK); [|apply (Forall_impl (P := fun v => (v < length (m_x m))%nat)); [intros v HV; lia|exact FK]|exact D]. unfold sorted_cells in SC. rewrite Forall_forall in SC. apply SC, nth_In. lia. }
  split.
  - unfold sorted_cells, make_mesh. cbn [m_cells]. apply Forall_forall. intros c C. apply in_map_iff in C. destruct C as [d [<- D]]. rewrite (KEEP d (SO d D)). apply SO, D.
  - intros i Hi. cbn [make_mesh m_cells] in Hi. rewrite map_length in Hi. rewrite (corners_make order _ cs _ _ i Hi). rewrite (KEEP _ (SO _ (nth_In _ _ Hi))). assert (LC : length cs = (length (m_cells m) * S tdim)%nat) by (unfold cs; apply length_blocks; intros; apply children_length, N). rewrite LC in Hi.
    assert (D : (i / S tdim < length (m_cells m))%nat) by (apply div_bound; [lia|exact Hi]). unfold cs. rewrite (nth_blocks _ (S tdim)); [|lia|intros; apply children_length, N|exact Hi]. fold (at_vertex (m_x m ++ centroids m)). apply (CH (i / S tdim)%nat); [exact D|]. apply nth_In. rewrite children_length by exact N. apply Nat.mod_upper_bound. lia.
Qed.
Lemma centroid_refine_returns k m : mesh_ok tdim gdim m -> m_x m <> [] -> sorted_cells m -> larger_than (INR (S tdim) ^ Nat.max 1 k / 10 ^ 15) m -> exists r, centroid_refine order hmin strict k m = Ok r.
Proof.
  intros OK NE SC BIG. assert (PN : 1 <= INR (S tdim)) by (rewrite S_INR; pose proof (pos_INR tdim); lra). assert (P15 : 0 < 10 ^ 15) by (apply pow_lt; lra).
  set (Q := fun j m => sorted_cells m /\ larger_than (INR (S tdim) ^ j / 10 ^ 15) m).
  assert (RET : forall j m, mesh_ok tdim gdim m -> Q (S j) m -> exists m' mp, refine_once order hmin centroids strict m = Ok (m', mp) /\ Q j m').
  { intros j m0 OK0 [S0 B0]. destruct (centroid_once_returns (INR (S tdim) ^ j / 10 ^ 15) m0) as [m' [mp [A [B C]]]]; [|exact OK0|exact S0|replace (INR (S tdim) * (INR (S tdim) ^ j / 10 ^ 15)) with (INR (S tdim) ^ S j / 10 ^ 15) by (cbn [pow]; field; lra); exact B0|exists m', mp; repeat split; assumption].
    unfold Rdiv. apply Rmult_le_compat_r; [apply Rlt_le, Rinv_0_lt_compat, P15|]. apply pow_R1_Rle, PN. }
  unfold centroid_refine, inner_point_refine. destruct (1 <? k)%nat eqn:K.
  - apply Nat.ltb_lt in K. apply (many_returns tdim gdim (S tdim) (refine_once order hmin centroids strict) Q); [lia| |exact RET|exact OK|exact NE|].
    + intros m0 m' mp OK0 E. eapply refine_once_tracks; [exact ORD|exact OK0|apply centroids_one_per_cell|exact E].
    + split; [exact SC|]. replace (S (k - 1)) with (Nat.max 1 k) by lia. exact BIG.
  - apply Nat.ltb_ge in K. destruct (RET 0%nat m OK) as [m' [mp [E _]]]; [split; [exact SC|]; replace (Nat.max 1 k) with 1%nat in BIG by lia; exact BIG|]. exists (m', mp). exact E.
Qed.
End Centroid.
