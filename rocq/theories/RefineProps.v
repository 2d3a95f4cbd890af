(** C43: refinements know the ancestors of their cells *)
From Verif Require Import RefineModel GeomProofs GeomProps RefineProofs RefineCentroidProofs RefineReturnsProofs BaseProofs.
From Coq Require Import Psatz Permutation Sorted.
Local Open Scope R_scope.

(** Every fine cell has one root cell, each root cell [n] descendants; root vertices keep
    number and place *)
Definition descends (n : nat) (m fine : mesh) (mp : maps) : Prop :=
  map fst (cmap mp) = seq 0 (length (m_cells fine)) /\
  (forall i r, In (i, r) (cmap mp) -> (r < length (m_cells m))%nat) /\
  (forall r, (r < length (m_cells m))%nat -> length (filter (fun kv => (snd kv =? r)%nat) (cmap mp)) = n) /\
  map fst (vmap mp) = seq 0 (length (m_x m)) /\
  forall v w, In (v, w) (vmap mp) -> w = v /\ nth v (m_x fine) [] = nth v (m_x m) [].
(** Every fine cell lies in the root cell it is mapped to *)
Definition inside_ancestor (gdim : nat) (m fine : mesh) (mp : maps) : Prop :=
  forall i r x, In (i, r) (cmap mp) -> in_simplex gdim (corners fine i) x -> in_simplex gdim (corners m r) x.

Lemma count_div n N r : n <> 0%nat -> (r < N)%nat -> length (filter (fun kv : nat * nat => (snd kv =? r)%nat) (map (fun i => (i, i / n)%nat) (seq 0 (N * n)))) = n.
Proof.
  intros NZ H. assert (E : length (filter (fun kv : nat * nat => (snd kv =? r)%nat) (map (fun i => (i, i / n)%nat) (seq 0 (N * n)))) = count_occ Nat.eq_dec (flat_map (fun k => repeat k n) (seq 0 N)) r).
  { rewrite blocks_div by exact NZ. generalize (seq 0 (N * n)) as l. induction l as [|i l IH]; [reflexivity|]. cbn [map filter snd count_occ]. destruct (Nat.eq_dec (i / n) r) as [e|e]; [apply Nat.eqb_eq in e|apply Nat.eqb_neq in e]; rewrite e; cbn [length]; rewrite IH; reflexivity. }
  rewrite E. assert (R : forall k, count_occ Nat.eq_dec (repeat k n) r = if Nat.eq_dec k r then n else 0%nat).
  { intros k. clear. induction n as [|n IH]; cbn [repeat count_occ]; [destruct (Nat.eq_dec k r); reflexivity|]. rewrite IH. destruct (Nat.eq_dec k r); reflexivity. }
  assert (Z : forall s M, (r < s)%nat -> count_occ Nat.eq_dec (flat_map (fun k => repeat k n) (seq s M)) r = 0%nat). { intros s M. revert s. induction M as [|M IH]; intros s S; cbn [seq flat_map]; [reflexivity|]. rewrite count_occ_app, R, IH by lia. destruct (Nat.eq_dec s r); [lia|reflexivity]. }
  assert (G : forall s M, (s <= r < s + M)%nat -> count_occ Nat.eq_dec (flat_map (fun k => repeat k n) (seq s M)) r = n). { intros s M. revert s. induction M as [|M IH]; intros s S; [lia|]. cbn [seq flat_map]. rewrite count_occ_app, R. destruct (Nat.eq_dec s r) as [-> |D]; [rewrite Z by lia; lia|]. apply IH. lia. }
  apply G. lia.
Qed.
Lemma tracks_descends n m fine mp : n <> 0%nat -> tracks n m fine mp -> descends n m fine mp.
Proof.
  intros NZ [L [C [V X]]]. split; [rewrite C, map_map; cbn; apply map_id|]. split; [|split; [|split]].
  - intros i r I. rewrite C in I. apply in_map_iff in I. destruct I as [j [E J]]. injection E as <- <-. apply in_seq in J. apply div_bound; [exact NZ|]. rewrite <- L. lia.
  - intros r H. rewrite C, L. apply count_div; assumption.
  - rewrite V, map_map. cbn. apply map_id.
  - intros v w I. rewrite V in I. apply in_map_iff in I. destruct I as [u [E U]]. injection E as <- <-. apply in_seq in U. split; [reflexivity|]. transitivity (nth u (firstn (length (m_x m)) (m_x fine)) []); [|rewrite X; reflexivity]. clear - U. revert u U. generalize (m_x fine) as l. generalize (length (m_x m)) as k. induction k as [|k IH]; intros l u U; [lia|]. destruct l as [|a l]; [destruct u; reflexivity|]. destruct u as [|u]; [reflexivity|]. cbn. apply IH. lia.
Qed.
Lemma contained_inside n gdim m fine mp : tracks n m fine mp -> contained n gdim m fine -> inside_ancestor gdim m fine mp.
Proof. intros [_ [C _]] H i r x I. rewrite C in I. apply in_map_iff in I. destruct I as [j [E J]]. injection E as <- <-. apply in_seq in J. apply H. lia. Qed.

(** Refinement by any new points, one per cell, as often as wanted: the maps are right.  If
    the points lie in their cells, so do the cells. *)
Theorem C43_partial : forall order hmin new_pts strict nrefs tdim gdim m fine mp, reorders order -> mesh_ok tdim gdim m -> one_per_cell tdim gdim new_pts -> (1 <= nrefs)%nat ->
  inner_point_refine order hmin new_pts strict nrefs m = Ok (fine, mp) -> mesh_ok tdim gdim fine /\ descends (S tdim ^ nrefs) m fine mp /\ (inside_cells tdim gdim new_pts -> inside_ancestor gdim m fine mp).
Proof.
  intros order hmin new_pts strict nrefs tdim gdim m fine mp ORD OK ONE N E.
  assert (STEP : forall m m' mp, mesh_ok tdim gdim m -> refine_once order hmin new_pts strict m = Ok (m', mp) -> mesh_ok tdim gdim m' /\ tracks (S tdim) m m' mp) by (intros; eapply refine_once_tracks; eassumption).
  assert (G : mesh_ok tdim gdim fine /\ tracks (S tdim ^ nrefs) m fine mp).
  { unfold inner_point_refine in E. destruct (Nat.ltb_spec 1 nrefs) as [L|L].
    - replace nrefs with (Nat.max 1 nrefs) at 1 by lia. apply (refine_many_tracks tdim gdim (S tdim) (refine_once order hmin new_pts strict)); try assumption; lia.
    - replace nrefs with 1%nat by lia. rewrite Nat.pow_1_r. apply STEP; assumption. }
  destruct G as [G T]. split; [exact G|]. split; [apply tracks_descends; [apply Nat.pow_nonzero; lia|exact T]|]. intros IN. apply (contained_inside _ _ _ _ _ T).
  assert (CONT : forall m m' mp, mesh_ok tdim gdim m -> refine_once order hmin new_pts strict m = Ok (m', mp) -> contained (S tdim) gdim m m') by (intros m0 m' mp' OK0 E0; eapply refine_once_contained; [exact ORD|exact OK0|exact ONE|intros c H; apply IN; assumption|exact E0]).
  unfold inner_point_refine in E. destruct (Nat.ltb_spec 1 nrefs) as [L|L].
  - replace nrefs with (Nat.max 1 nrefs) by lia. eapply (refine_many_contained tdim gdim (S tdim) (refine_once order hmin new_pts strict)); try eassumption; lia.
  - replace nrefs with 1%nat by lia. rewrite Nat.pow_1_r. eapply CONT; eassumption.
Qed.
Print Assumptions C43_partial.
(** With centroids all of the claim holds *)
Theorem C43_centroid : forall order hmin strict nrefs tdim gdim m fine mp, reorders order -> mesh_ok tdim gdim m -> (1 <= nrefs)%nat -> centroid_refine order hmin strict nrefs m = Ok (fine, mp) ->
  mesh_ok tdim gdim fine /\ descends (S tdim ^ nrefs) m fine mp /\ inside_ancestor gdim m fine mp.
Proof.
  intros order hmin strict nrefs tdim gdim m fine mp ORD OK N E. destruct (C43_partial order hmin centroids strict nrefs tdim gdim m fine mp ORD OK (centroids_one_per_cell tdim gdim) N E) as [A [B C]]. split; [exact A|]. split; [exact B|]. apply C, centroids_inside.
Qed.
Print Assumptions C43_centroid.
(** and the refinement returns as long as the cells are not too small *)
Theorem C43_centroid_returns : forall order hmin strict nrefs tdim gdim m, reorders order -> keeps_sorted order -> (forall m, 0 < hmin m) -> supported (S tdim) gdim -> mesh_ok tdim gdim m -> m_x m <> [] -> sorted_cells m ->
  larger_than (INR (S tdim) ^ Nat.max 1 nrefs / 10 ^ 15) m -> exists fine mp, centroid_refine order hmin strict nrefs m = Ok (fine, mp).
Proof.
  intros order hmin strict nrefs tdim gdim m ORD K H S OK NE SC B. destruct (centroid_refine_returns order hmin strict tdim gdim ORD K H S nrefs m OK NE SC B) as [[fine mp] E]. exists fine, mp. exact E.
Qed.
Print Assumptions C43_centroid_returns.
(** nrefs = 0 still refines once *)
Theorem C43_zero_refuted : ~ forall order hmin strict nrefs tdim gdim m fine mp, reorders order -> mesh_ok tdim gdim m -> centroid_refine order hmin strict nrefs m = Ok (fine, mp) -> descends (S tdim ^ nrefs) m fine mp.
Proof.
  intros H. set (m := {| m_x := [[0]; [1]]; m_cells := [[0; 1]%nat]; m_nvtx := 2; m_tdim := 1; m_gdim := 1 |}).
  assert (OK : mesh_ok 1 1 m) by (unfold mesh_ok, m; cbn; repeat split; repeat (constructor; try lia)).
  destruct (C43_centroid_returns (fun c => c) (fun _ => 1) 0 0 1 1 m) as [fine [mp E]]; [intros c; apply Permutation_refl|intros c _; reflexivity|intros; lra|left; lia|exact OK|discriminate|repeat constructor| |].
  - intros [|c] C; [|cbn in C; lia]. exists 1. split; [|cbn; lra]. cbn. unfold rnorm. cbn. replace ((1 - 0) * (1 - 0) + 0) with (1 * 1) by ring. rewrite sqrt_square by lra. reflexivity.
  - destruct (H _ _ _ _ 1%nat 1%nat m fine mp (fun c => Permutation_refl c) OK E) as [_ [_ [D _]]]. specialize (D 0%nat ltac:(cbn; lia)). destruct (C43_centroid (fun c => c) (fun _ => 1) 0 1 1 1 m fine mp (fun c => Permutation_refl c) OK ltac:(lia) E) as [_ [[_ [_ [D' _]]] _]]. specialize (D' 0%nat ltac:(cbn; lia)). rewrite D in D'. discriminate D'.
Qed.
Print Assumptions C43_zero_refuted.

(** With a small strict > 0 a point outside of its cell is noticed *)
Lemma points_outside gdim tol c : forall xs cells, length xs = length cells -> Forall (fun x => length x = gdim) xs -> Forall (good_cell gdim) cells -> (c < length cells)%nat -> point_is_inside (nth c xs []) (nth c cells []) tol = Ok false -> points_are_inside xs cells tol = Ok false.
Proof.
  induction c as [|c IH]; intros [|x xs] [|cell cells] L FX FC H E; cbn [length] in *; try lia; cbn [nth] in E; cbn [points_are_inside]; [rewrite E; reflexivity|]. apply Forall_cons_iff in FX, FC. destruct FX as [FX1 FX], FC as [FC1 FC]. destruct (good_exact gdim cell x FC1 FX1) as [d [D _]]. unfold point_is_inside at 1. rewrite D. cbn [bind]. destruct (if Rlt_dec d tol then true else false); [|reflexivity]. apply IH; try assumption; lia.
Qed.
Theorem C43_strict : forall order hmin new_pts nrefs tdim gdim m c, mesh_ok tdim gdim m -> (tdim = 1 \/ tdim = 2 \/ tdim = 3)%nat -> one_per_cell tdim gdim new_pts -> (forall c, (c < length (m_cells m))%nat -> good_cell gdim (corners m c)) -> 0 < hmin m ->
  (c < length (m_cells m))%nat -> ~ in_simplex gdim (corners m c) (nth c (new_pts m) []) -> exists eps, 0 < eps /\ forall strict, 0 < strict <= eps -> inner_point_refine order hmin new_pts strict nrefs m = Err AssertionError.
Proof.
  intros order hmin new_pts nrefs tdim gdim m c OK TD ONE GOOD HP HC NI. pose proof OK as [T [G [NV [FX FC]]]]. destruct (ONE m OK) as [LP FP].
  assert (LX : length (nth c (new_pts m) []) = gdim) by (rewrite Forall_forall in FP; apply FP, nth_In; rewrite LP; exact HC). destruct (proj2 (C49_partial gdim (corners m c) (nth c (new_pts m) []) (GOOD c HC) LX) NI) as [eps [EP EF]].
  exists (eps / hmin m). split; [apply Rdiv_lt_0_compat; assumption|]. intros strict [S0 S1]. assert (TOL : hmin m * strict <= eps). { apply (Rmult_le_compat_l (hmin m)) in S1; [|lra]. replace (hmin m * (eps / hmin m)) with eps in S1 by (field; lra). exact S1. }
  assert (PI : points_are_inside (new_pts m) (map (pts (m_x m)) (m_cells m)) (hmin m * strict) = Ok false).
  { apply (points_outside gdim _ c); [rewrite map_length; exact LP|exact FP| |rewrite map_length; exact HC|rewrite (nth_map _ _ _ []) by exact HC; apply EF, TOL].
    apply Forall_forall. intros cell I. apply in_map_iff in I. destruct I as [d [<- D]]. apply (In_nth _ _ []) in D. destruct D as [k [K <-]]. apply (GOOD k K). }
  assert (O : refine_once order hmin new_pts strict m = Err AssertionError). { unfold refine_once. rewrite NV, T. replace (py_assert _) with (@Ok unit tt) by (destruct TD as [-> |[-> | ->]]; reflexivity). cbn [bind]. destruct (Rlt_dec 0 strict); [|lra]. rewrite PI. reflexivity. }
  unfold inner_point_refine, refine_many. rewrite O. destruct (1 <? nrefs)%nat; reflexivity.
Qed.
Print Assumptions C43_strict.

(** ** Circumcenters *)
Lemma circumcenters_one_per_cell lu : one_per_cell 2 2 (circumcenters lu).
Proof. intros m _. unfold circumcenters. split; [apply map_length|]. apply Forall_forall. intros x X. apply in_map_iff in X. destruct X as [c [<- _]]. reflexivity. Qed.
(** One refinement, if they lie in their cells *)
Theorem C43_circumcenter_partial : forall order hmin lu strict m fine mp, reorders order -> mesh_ok 2 2 m -> (forall c, (c < length (m_cells m))%nat -> in_simplex 2 (corners m c) (nth c (circumcenters lu m) [])) ->
  circumcenter_refine order hmin lu strict 1 m = Ok (fine, mp) -> descends 3 m fine mp /\ inside_ancestor 2 m fine mp.
Proof.
  intros order hmin lu strict m fine mp ORD OK IN E. unfold circumcenter_refine, inner_point_refine in E. cbn [Nat.ltb Nat.leb] in E. destruct (refine_once_tracks order hmin ORD 2 2 (circumcenters lu) strict m fine mp OK (circumcenters_one_per_cell lu) E) as [_ T]. split; [apply tracks_descends; [lia|exact T]|].
  apply (contained_inside _ _ _ _ _ T). eapply (refine_once_contained order hmin ORD 2 2); [exact OK|apply circumcenters_one_per_cell|exact IN|exact E].
Qed.
Print Assumptions C43_circumcenter_partial.
(** Not in general: with strict=0 the new point of an obtuse triangle lies outside of it *)
Theorem C43_circumcenter_refuted : ~ forall order hmin lu strict m fine mp, reorders order -> solves_regular lu -> mesh_ok 2 2 m -> (forall c, (c < length (m_cells m))%nat -> nondegenerate 2 (corners m c)) ->
  circumcenter_refine order hmin lu strict 1 m = Ok (fine, mp) -> inside_ancestor 2 m fine mp.
Proof.
  intros H. set (m := {| m_x := [[0; 0]; [4; 0]; [2; 1]]; m_cells := [[0; 1; 2]%nat]; m_nvtx := 3; m_tdim := 2; m_gdim := 2 |}).
  assert (OK : mesh_ok 2 2 m) by (unfold mesh_ok, m; cbn; repeat split; repeat (constructor; try lia)).
  assert (CC : circumcenters cramer m = [[2; - (3 / 2)]]) by (unfold circumcenters, m; cbn; unfold at_; cbn; f_equal; f_equal; [field|f_equal; field]).
  assert (R : exists r, refine_once (fun c => c) (fun _ => 1) (circumcenters cramer) 0 m = Ok r).
  { unfold refine_once. cbn [m_nvtx m_tdim m Nat.eqb orb andb py_assert bind]. destruct (Rlt_dec 0 0); [lra|]. cbn [bind py_assert]. rewrite CC. destruct (fine_cells_returns 3 (m_x m ++ [[2; - (3 / 2)]]) (m_cells m) 0 (length (m_x m))) as [r ->]; [|eexists; reflexivity].
    intros k c K C. destruct k as [|k]; [|cbn in K; lia]. assert (A : forall d, 1 <= Rabs (d / 2) -> 1 / 10 ^ 15 < Rabs (d / 2)) by (intros d D; apply Rlt_le_trans with 1; [lra|exact D]).
    cbn [m m_cells m_x nth length Nat.add children basis seq combos Nat.sub map app] in C. destruct C as [<-|[<-|[<-|[]]]]; eexists; (split; [cbn [pts map at_vertex nth m m_x app simplex_area length Nat.eqb]; rewrite det3; reflexivity|]); apply A.
    - rewrite Rabs_left; lra.
    - rewrite Rabs_left; lra.
    - rewrite Rabs_right; lra. }
  destruct R as [[fine mp] R]. pose proof R as R'. apply refine_once_inv in R'. cbv zeta in R'. destruct R' as [_ [EF EM]].
  assert (I : inside_ancestor 2 m fine mp).
  { eapply (H (fun c => c) (fun _ => 1) cramer 0); [intros c; apply Permutation_refl|exact cramer_regular|exact OK| |exact R]. intros [|c] C; [|cbn in C; lia]. cbn.
    intros w L T W. destruct w as [|p [|q [|r [|]]]]; try discriminate L. pose proof (W 0%nat ltac:(lia)) as W0. pose proof (W 1%nat ltac:(lia)) as W1. cbn in T, W0, W1. fall ltac:(lra). }
  specialize (I 0%nat 0%nat [2; - (3 / 2)]). assert (J : in_simplex 2 (corners m 0) [2; - (3 / 2)]).
  { apply I; [rewrite EM; cbn; auto|]. rewrite EF, CC. cbn. apply corner_in; [fall reflexivity|cbn; auto]. }
  destruct J as [_ [w [L [W [P J]]]]]. cbn in L. destruct w as [|a [|b [|c [|]]]]; try discriminate L. pose proof (J 1%nat ltac:(lia)) as J1. cbn in J1, W. apply Forall3 in P. lra.
Qed.
Print Assumptions C43_circumcenter_refuted.

(** ** Dual meshes *)
Theorem C43_dual : forall order c2f f2v centers nrefs gdim m fine mp, reorders order -> triangle_facets gdim c2f f2v -> one_per_cell 2 gdim centers -> mesh_ok 2 gdim m -> (1 <= nrefs)%nat ->
  dual_mesh order c2f f2v centers nrefs m = Ok (fine, mp) -> mesh_ok 2 gdim fine /\ descends (6 ^ nrefs) m fine mp /\ (inside_cells 2 gdim centers -> inside_ancestor gdim m fine mp).
Proof.
  intros order c2f f2v centers nrefs gdim m fine mp ORD FAC ONE OK N E. pose proof (dual_once_tracks order gdim c2f f2v centers ORD FAC ONE) as STEP.
  assert (G : mesh_ok 2 gdim fine /\ tracks (6 ^ nrefs) m fine mp).
  { unfold dual_mesh in E. destruct (Nat.eqb_spec nrefs 1) as [-> |L]; [rewrite Nat.pow_1_r; apply STEP; assumption|]. replace nrefs with (Nat.max 1 nrefs) at 1 by lia. apply (refine_many_tracks 2 gdim 6 (dual_once order c2f f2v centers)); try assumption; lia. }
  destruct G as [G T]. split; [exact G|]. split; [apply tracks_descends; [apply Nat.pow_nonzero; lia|exact T]|]. intros IN. apply (contained_inside _ _ _ _ _ T). pose proof (dual_once_contained order gdim c2f f2v centers ORD FAC ONE IN) as CONT.
  unfold dual_mesh in E. destruct (Nat.eqb_spec nrefs 1) as [-> |L]; [rewrite Nat.pow_1_r; eapply CONT; eassumption|]. replace nrefs with (Nat.max 1 nrefs) by lia. eapply (refine_many_contained 2 gdim 6 (dual_once order c2f f2v centers)); try eassumption; lia.
Qed.
Print Assumptions C43_dual.
(** It returns for every mesh of triangles with a cell, and for nothing else *)
Theorem C43_dual_returns : forall order c2f f2v centers nrefs gdim m, reorders order -> triangle_facets gdim c2f f2v -> one_per_cell 2 gdim centers -> mesh_ok 2 gdim m ->
  ((exists r, dual_mesh order c2f f2v centers nrefs m = Ok r) <-> m_cells m <> []).
Proof.
  intros order c2f f2v centers nrefs gdim m ORD FAC ONE OK. pose proof (dual_once_tracks order gdim c2f f2v centers ORD FAC ONE) as STEP.
  assert (RET : forall (j : nat) m, mesh_ok 2 gdim m -> m_cells m <> [] -> exists m' mp, dual_once order c2f f2v centers m = Ok (m', mp) /\ m_cells m' <> []).
  { intros _ m0 OK0 NE. assert (R : exists m' mp, dual_once order c2f f2v centers m0 = Ok (m', mp)). { unfold dual_once. rewrite (proj1 OK0). destruct (Nat.eqb_spec (length (m_cells m0)) 0) as [Z|Z]; [destruct (m_cells m0); [congruence|discriminate Z]|]. cbn [bind]. do 2 eexists. reflexivity. }
    destruct R as [m' [mp R]]. exists m', mp. split; [exact R|]. destruct (STEP _ _ _ OK0 R) as [_ [L _]]. intros Z. rewrite Z in L. cbn in L. destruct (m_cells m0); [congruence|cbn in L; lia]. }
  split.
  - intros [r E] Z. assert (O : dual_once order c2f f2v centers m = Err IndexError) by (unfold dual_once; rewrite (proj1 OK), Z; reflexivity). unfold dual_mesh, refine_many in E. rewrite O in E. destruct (nrefs =? 1)%nat; discriminate E.
  - intros NE. assert (NX : m_x m <> []). { intros Z. destruct OK as [_ [_ [_ [_ F]]]]. destruct (m_cells m) as [|c cs]; [congruence|]. apply Forall_cons_iff in F. destruct F as [[L F] _]. rewrite Z in F. destruct c as [|v c]; [discriminate L|]. apply Forall_cons_iff in F. cbn in F. lia. }
    unfold dual_mesh. destruct (nrefs =? 1)%nat; [destruct (RET 0%nat m OK NE) as [m' [mp [E _]]]; eexists; exact E|]. apply (many_returns 2 gdim 6 (dual_once order c2f f2v centers) (fun _ m => m_cells m <> [])); try assumption; lia.
Qed.
Print Assumptions C43_dual_returns.

(** The unit square, two triangles, three times by centroids: 54 cells *)
Definition square_mesh : mesh := {| m_x := [[0; 0]; [1; 0]; [0; 1]; [1; 1]]; m_cells := [[0; 1; 3]; [0; 2; 3]]%nat; m_nvtx := 3; m_tdim := 2; m_gdim := 2 |}.
Lemma square_ok : mesh_ok 2 2 square_mesh.
Proof. unfold mesh_ok, square_mesh; cbn; repeat split; repeat (constructor; try lia). Qed.
Example C43_square : exists fine mp, centroid_refine (fun c => c) (fun _ => 1) (1 / 10) 3 square_mesh = Ok (fine, mp) /\ length (m_cells fine) = 54%nat.
Proof.
  destruct (C43_centroid_returns (fun c => c) (fun _ => 1) (1 / 10) 3 2 2 square_mesh) as [fine [mp E]]; [intros c; apply Permutation_refl|intros c _; reflexivity|intros; lra|right; left; lia|exact square_ok|discriminate|repeat (constructor; try lia)| |].
  - intros c C. assert (D : (c = 0 \/ c = 1)%nat) by (cbn in C; lia). exists (1 / 2). split; [|cbn; lra]. destruct D as [-> | ->]; cbn [corners square_mesh m_x m_cells nth map simplex_area length Nat.eqb app]; f_equal; rewrite det3; [rewrite Rabs_right|rewrite Rabs_left]; lra.
  - exists fine, mp. split; [exact E|]. assert (G : tracks (3 ^ 3) square_mesh fine mp). { apply (refine_many_tracks 2 2 3 (refine_once (fun c => c) (fun _ => 1) centroids (1 / 10)) ltac:(lia)) with (k := 3%nat); [|exact square_ok|exact E]. intros; eapply (refine_once_tracks (fun c => c) (fun _ => 1) (fun c => Permutation_refl c) 2 2); [eassumption|apply centroids_one_per_cell|eassumption]. } destruct G as [L _]. exact L.
Qed.
(** Connectivity that meets the contract: every cell has facets of its own *)
Example C43_facets : triangle_facets 2 (fun _ c => [3 * c; 3 * c + 1; 3 * c + 2])%nat (fun m => flat_map (fun c => let cell := nth c (m_cells m) [] in [[nth 1 cell 0; nth 2 cell 0]; [nth 0 cell 0; nth 2 cell 0]; [nth 0 cell 0; nth 1 cell 0]])%nat (seq 0 (length (m_cells m)))).
Proof.
  intros m c [_ [_ [_ [_ F]]]] H. rewrite Forall_forall in F. destruct (F (nth c (m_cells m) [])) as [L _]; [apply nth_In, H|]. split; [reflexivity|]. intros f FI.
  assert (LB : length (flat_map (fun c => let cell := nth c (m_cells m) [] in [[nth 1 cell 0; nth 2 cell 0]; [nth 0 cell 0; nth 2 cell 0]; [nth 0 cell 0; nth 1 cell 0]])%nat (seq 0 (length (m_cells m)))) = (length (m_cells m) * 3)%nat) by (apply length_blocks; reflexivity).
  assert (FB : (f < length (m_cells m) * 3)%nat /\ (f / 3)%nat = c). { destruct FI as [<-|[<-|[<-|[]]]]; (split; [lia|]); symmetry; [apply (Nat.div_unique _ 3 c 0)|apply (Nat.div_unique _ 3 c 1)|apply (Nat.div_unique _ 3 c 2)]; lia. }
  destruct FB as [FB D]. rewrite LB. split; [exact FB|]. rewrite (nth_blocks _ 3) by (try lia; intros; reflexivity). rewrite D. cbv zeta. assert (M : (f mod 3 < 3)%nat) by (apply Nat.mod_upper_bound; lia). destruct (nth c (m_cells m) []) as [|a [|b [|d [|]]]]; try discriminate L. cbn [nth].
  destruct (f mod 3) as [|[|[|]]]; try lia; cbn [nth length]; (split; [reflexivity|]); intros v V; cbn in *; intuition.
Qed.
