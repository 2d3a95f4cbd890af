(** C85: OuterNormal given by markers, a mesh or a facet normal *)
From Verif Require Import Base BaseProofs GeomModel GeomProofs FacetModel FacetProofs FacetProps EmbedModel OuterModel.
From Coq Require Import Psatz.
Local Open Scope R_scope.

(** Each cell is a facet of the parent and has a volume *)
Definition on_facets (facets : list facet) (cells : list manifold_cell) : Prop :=
  Forall (fun c => (c_facet c < length facets)%nat /\ c_volume c <> 0) cells.
(** the values on the cells, in terms of their facets *)
Definition each_cell (facets : list facet) (cells : list manifold_cell) (vs : list (list R)) (P : facet -> list R -> Prop) : Prop :=
  Forall2 (fun c v => exists f, nth_error facets (c_facet c) = Some f /\ P f v) cells vs.

Lemma scale_back (a : R) (v : list R) : a <> 0 -> rscale (1 / a) (rscale a v) = v.
Proof. intros H. unfold rscale. rewrite map_map. rewrite <- (map_id v) at 2. apply map_ext. intros x. field. exact H. Qed.
Lemma manifold_ok facets values cells (P : facet -> list R -> Prop) : on_facets facets cells -> Forall2 P facets values ->
  exists vs, to_manifold values cells = Ok vs /\ each_cell facets cells vs P.
Proof.
  intros Hc Hv. unfold to_manifold, each_cell. induction Hc as [| c cells [Hf Hvol] Hc IH]; cbn [mapM]; [exists []; split; [reflexivity | constructor] |].
  assert (G : forall fs vs, Forall2 P fs vs -> forall i, (i < length fs)%nat -> exists f v, nth_error fs i = Some f /\ nth_error vs i = Some v /\ P f v).
  { clear. intros fs vs H. induction H as [| f v fs vs Hfv H IH]; intros i Hi; cbn in Hi; [lia |]. destruct i as [| i]; cbn; [exists f, v; auto |]. apply IH. lia. }
  destruct (G _ _ Hv (c_facet c) Hf) as [f [v [Ef [Ev Pv]]]]. rewrite Ev. cbn [opt_res bind]. destruct IH as [vs [-> H]]. cbn [bind]. eexists. split; [reflexivity |].
  constructor; [| exact H]. exists f. split; auto. rewrite scale_back; auto.
Qed.
Lemma forall2_map {A B} (P : A -> B -> Prop) (g : A -> B) l : (forall x, In x l -> P x (g x)) -> Forall2 P l (map g l).
Proof. induction l as [| x l IH]; intros H; cbn; constructor; [apply H; left; auto | apply IH; intros y Hy; apply H; right; auto]. Qed.

(** By markers: the normal of a cell next to the facet with the largest marker *)
Theorem C85_markers : forall tdim c2d marker facets cells,
  NoDup c2d -> Forall (fun i => (i < length c2d)%nat) c2d -> length marker = length c2d ->
  Forall (fun f => f_area f <> 0 /\ (f_plus f < length c2d)%nat /\ forall k, f_minus f = Some k -> (k < length c2d)%nat) facets ->
  on_facets facets cells ->
  exists vs, outer_by_markers true tdim tdim c2d marker facets cells = Ok vs /\
  each_cell facets cells vs (fun f v => exists high, seen_from f high v /\
    forall other n, seen_from f other n -> (nth other marker 0 <= nth high marker 0)%nat).
Proof.
  intros tdim c2d marker facets cells Hn Hb Hl Hf Hc. unfold outer_by_markers. cbn [negb].
  destruct (OrientedFacetNormal tdim tdim c2d marker facets) as [values | e] eqn:E.
  - cbn [bind]. apply manifold_ok; auto. apply (C75_oriented tdim c2d marker facets values); auto.
  - exfalso. unfold OrientedFacetNormal in E. destruct (C75_constant tdim tdim c2d marker Hn Hb Hl) as [_ H]. destruct (H eq_refl) as [v [E' _]]. rewrite E' in E. discriminate.
Qed.
(** so if the cells around differ in markers, it does not depend on which side dolfin takes as '+' *)
Theorem C85_markers_sides : forall known tdim dim c2d marker facets facets' cells,
  Forall2 (fun f g => f = g \/ turned f g /\ forall k values, f_minus f = Some k -> pcws_constant tdim dim c2d marker = Ok values ->
    nth (nth (f_plus f) c2d 0%nat) values 0 <> nth (nth k c2d 0%nat) values 0) facets facets' ->
  outer_by_markers known tdim dim c2d marker facets cells = outer_by_markers known tdim dim c2d marker facets' cells.
Proof.
  intros known tdim dim c2d marker facets facets' cells H. unfold outer_by_markers. destruct (negb known); auto. unfold OrientedFacetNormal.
  destruct (pcws_constant tdim dim c2d marker) as [values | e] eqn:E; cbn [bind]; [| reflexivity].
  rewrite (C75_sides_partial true _ facets facets'); [reflexivity |]. induction H as [| f g fs gs Hfg H IH]; constructor; [| exact IH].
  destruct Hfg as [-> | [Ht Hk]]; [left; auto |]. right. split; auto.
Qed.
(** By a mesh: the normal of the mesh on its boundary, *)
Theorem C85_mesh_partial : forall gdim facets cells, Forall (fun f => f_area f <> 0) facets -> on_facets facets cells ->
  exists vs, outer_by_mesh true gdim facets cells = Ok vs /\
  each_cell facets cells vs (fun f v => (f_minus f = None -> seen_from f (f_plus f) v /\ forall other n, seen_from f other n -> other = f_plus f) /\ (f_minus f <> None -> v = repeat 0 gdim)).
Proof.
  intros gdim facets cells Ha Hc. unfold outer_by_mesh. cbn [negb]. apply manifold_ok; auto. apply forall2_map. intros f Hf. rewrite Forall_forall in Ha.
  destruct (f_minus f) as [k |] eqn:E; (split; [intros H | intros H]); try congruence.
  rewrite average_id by (apply Ha; auto). split; [constructor |]. intros other n [| k' Ek]; [reflexivity | congruence].
Qed.
(** and no normal at all inside of it *)
Theorem C85_mesh_refuted : forall gdim facets cells c f, Forall (fun f => f_area f <> 0) facets -> on_facets facets cells ->
  In c cells -> nth_error facets (c_facet c) = Some f -> f_minus f <> None ->
  exists vs v, outer_by_mesh true gdim facets cells = Ok vs /\ In v vs /\ v = repeat 0 gdim /\ row_times v v = 0.
Proof.
  intros gdim facets cells c f Ha Hc Hin Ef Hm. destruct (C85_mesh_partial gdim facets cells Ha Hc) as [vs [E H]]. exists vs, (repeat 0 gdim). split; auto.
  assert (Hv : In (repeat 0 gdim) vs).
  { clear - H Hin Ef Hm. unfold each_cell in H. induction H as [| c0 v0 cs vs [f0 [E0 [_ H0]]] H IH]; [destruct Hin |]. destruct Hin as [-> | Hin]; [| right; auto].
    left. rewrite E0 in Ef. injection Ef as ->. auto. }
  split; auto. split; auto. clear. induction gdim as [| g IH]; [reflexivity |]. cbn [repeat]. unfold row_times in *. cbn. cbn in IH. rewrite IH. ring.
Qed.
(** By a facet normal: that of the '+' side *)
Theorem C85_normal_partial : forall facets cells, Forall (fun f => f_area f <> 0) facets -> on_facets facets cells ->
  exists vs, outer_by_normal true facets cells = Ok vs /\ each_cell facets cells vs (fun f v => seen_from f (f_plus f) v).
Proof.
  intros facets cells Ha Hc. unfold outer_by_normal. cbn [negb]. apply manifold_ok; auto. apply forall2_map. intros f Hf. rewrite Forall_forall in Ha.
  destruct (f_minus f); rewrite average_id by (apply Ha; auto); constructor.
Qed.
(** so that inside neighbouring cells of a flat manifold may have opposite normals: the segment
    (-2, 2) x 0 cut in two, with the sides of the second half exchanged *)
Definition half_plus : facet := Facet 0 (Some 1%nat) 2 [[-2; 0]; [0; 0]] [0; 1] [0; -1].
Definition half_minus : facet := Facet 3 (Some 2%nat) 2 [[0; 0]; [2; 0]] [0; -1] [0; 1].
Definition halves : list manifold_cell := [MCell 0 2; MCell 1 2].
Theorem C85_normal_refuted : outer_by_normal true [half_plus; half_minus] halves = Ok [[0; 1]; [0; -1]].
Proof.
  unfold outer_by_normal, to_manifold, average, rscale. cbn [negb map f_minus half_plus half_minus halves mapM c_facet c_volume f_area f_np opt_res nth_error bind].
  repeat (f_equal; try field).
Qed.
(** with markers they agree: cells 1 and 3 are below and marked 0, cells 0 and 2 above *)
Example case_markers : exists vs, outer_by_markers true 2 2 [0; 1; 2; 3]%nat [0; 7; 0; 7]%nat [half_plus; half_minus] halves = Ok vs /\
  each_cell [half_plus; half_minus] halves vs (fun f v => v = [0; -1]).
Proof.
  destruct (C85_markers 2 [0; 1; 2; 3]%nat [0; 7; 0; 7]%nat [half_plus; half_minus] halves) as [vs [E H]].
  - repeat constructor; cbn; lia.
  - repeat constructor; cbn; lia.
  - reflexivity.
  - constructor; [| constructor; [| constructor]]; (split; [cbn; lra | split; [cbn; lia | intros k Ek; injection Ek as <-; cbn; lia]]).
  - constructor; [| constructor; [| constructor]]; (split; [cbn; lia | cbn; lra]).
  - exists vs. split; auto. unfold each_cell in *. inversion H as [| c0 v0 cs vs' [f0 [E0 [high0 [S0 M0]]]] H' Eq1 Eq2]; subst. inversion H' as [| c1 v1 cs1 vs1 [f1 [E1 [high1 [S1 M1]]]] H1 Eq3 Eq4]; subst. inversion H1; subst.
    cbn in E0, E1. injection E0 as <-. injection E1 as <-. constructor; [| constructor; [| constructor]].
    + exists half_plus. split; [reflexivity |]. destruct S0 as [| k Ek]; [| reflexivity]. exfalso. specialize (M0 1%nat [0; -1] (seen_minus half_plus 1 eq_refl)). cbn in M0. lia.
    + exists half_minus. split; [reflexivity |]. destruct S1 as [| k Ek]; [reflexivity |]. exfalso. cbn in Ek. injection Ek as <-. specialize (M1 3%nat [0; -1] (seen_plus half_minus)). cbn in M1. lia.
Qed.
(** A parent that is not known is refused *)
Theorem C85_unknown : forall tdim dim c2d marker facets gdim cells, outer_by_markers false tdim dim c2d marker facets cells = Err AssertionError /\
  outer_by_mesh false gdim facets cells = Err AssertionError /\ outer_by_normal false facets cells = Err AssertionError.
Proof. intros. repeat split. Qed.

Print Assumptions C85_markers.
Print Assumptions C85_markers_sides.
Print Assumptions C85_mesh_partial.
Print Assumptions C85_mesh_refuted.
Print Assumptions C85_normal_partial.
Print Assumptions C85_normal_refuted.
Print Assumptions C85_unknown.
