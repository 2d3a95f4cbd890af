(** C97: transposed traces. *)
From Verif Require Import Base BaseProofs Mat MatProofs FillModel UflModel UflProofs BlockFormModel BlockFormProofs ReducedModel ReducedProofs ReducedProps.
From Verif Require Import EmapModel EntityModel EntityProofs RestrictModel RestrictProofs CoupledModel KindsProofs CoupledProps.
From Coq Require Import Permutation Reals.
Local Open Scope nat_scope.
Local Close Scope R_scope.
Local Close Scope Q_scope.
Local Close Scope Qc_scope.

(** The trace mesh of a transposed trace is where the function lives, or at least a mesh of the
    same dimension (transpose_trace_assembly.py:20-22), and is not its own trace mesh: trace_mat_no_restrict
    looks for the cells of the trace mesh among the facets of the mesh of [V]
    (transpose_trace_matrix.py:24, trace_matrix.py:75-94). *)
Definition on_trace_mesh (s : trace_source) : Prop :=
  ~ knows_mesh (tr_mesh s) (tr_mesh_id s) /\
  exists trace mesh locate tol, p_tdim mesh <= s_dim trace /\
    forall f tags, tr_build s (tr_mesh_id s) f tags =
      do r <- build_embedding_map trace mesh locate (Some (mf_dim f, mf_values f)) (Some tags) tol; Ok [(0, fst r); (s_dim trace, snd r)].

(** C97 is false: the matrix of a transposed trace cannot be made. *)
Theorem C97_matrix_refuted w g V TV mesh d : on_trace_mesh (g_transpose g V TV mesh d) ->
  reduction_matrix w g (AOther 0) V TV mesh d = Err AssertionError.
Proof.
  cbn [reduction_matrix]. generalize (g_transpose g V TV mesh d) as s. intros s (NK & trace & vmesh & locate & tol & LE & B).
  assert (B' : forall f tags, tr_build s (tr_mesh_id s) f tags = Err AssertionError).
  { intros f tags. rewrite B. unfold build_embedding_map. rewrite (proj2 (Nat.ltb_ge (s_dim trace) (p_tdim vmesh))) by assumption. reflexivity. }
  unfold plain_trace_matrix, trace_mat_no_restrict, get_entity_map, build_map. unfold knows_mesh in NK.
  destruct (t_maps (tr_mesh s)) as [maps|] eqn:EM.
  - destruct (t_tagged (tr_mesh s)) as [tagged|]; [|reflexivity]. destruct (lookup (tr_mesh_id s) maps) as [em|] eqn:L.
    + exfalso. apply NK. exists maps, em. split; [reflexivity|]. apply lookup_in. assumption.
    + rewrite B'. reflexivity.
  - rewrite B'. reflexivity.
Qed.

(** One integral with a transposed trace. *)
Lemma transpose_integral w g sp ord rec st ar i : an_order ord ->
  (forall V TV mesh d, on_trace_mesh (g_transpose g V TV mesh d)) ->
  exists e, reduce_integral w ord rec st (transpose_trace_module w sp (reduction_matrix w g)) ar i = Err e /\
    ((forall s, occurs s (snd i) -> getattr s (AOther 0) <> None -> exists V, of_space s V) -> e = AssertionError).
Proof.
  intros ORD G. unfold reduce_integral. set (mesh := w_imesh w (fst i)). set (cands := filter _ _).
  assert (K : mapM (fun t => do b <- asm_compat (transpose_trace_module w sp (reduction_matrix w g)) mesh t; Ok (t, b)) cands = Ok (map (fun t => (t, hasattr t (AOther 0))) cands)).
  { apply (mapM_map _ (fun t => (t, hasattr t (AOther 0)))). induction cands; constructor; [reflexivity|assumption]. }
  rewrite K. cbn [bind]. destruct (pick (map (fun t => (t, hasattr t (AOther 0))) cands)) as [ [s b] |] eqn:P; [|exists AssertionError; auto].
  assert (Hs : In (s, b) (map (fun t => (t, hasattr t (AOther 0))) cands)).
  { unfold pick in P. destruct (rev (filter snd (map (fun t => (t, hasattr t (AOther 0))) cands))) as [|x l] eqn:E.
    - destruct (rev (map (fun t => (t, hasattr t (AOther 0))) cands)) as [|y l'] eqn:E'; [discriminate|]. injection P as ->. apply in_rev. rewrite E'. left. reflexivity.
    - injection P as ->. assert (In (s, b) (filter snd (map (fun t => (t, hasattr t (AOther 0))) cands))) by (apply in_rev; rewrite E; left; reflexivity). apply filter_In in H. apply H. }
  apply in_map_iff in Hs. destruct Hs as (s' & ES & Hs). injection ES as -> <-. destruct (hasattr s (AOther 0)) eqn:H; [|exists AssertionError; auto].
  assert (O : occurs s (snd i)).
  { apply unique_In. eapply Permutation_in; [apply Permutation_sym, ORD|]. apply filter_In in Hs. apply Hs. }
  cbn [asm_attr transpose_trace_module asm_domain asm_space asm_matrix]. unfold hasattr in H. destruct (getattr s (AOther 0)) as [d|] eqn:D; [|discriminate]. cbn [opt_res bind].
  unfold own_space. destruct (space_of s) as [V|e] eqn:S; cbn [bind].
  - rewrite (C97_matrix_refuted w g) by apply G. exists AssertionError. auto.
  - exists e. split; [reflexivity|]. intros SP. destruct (SP s O) as [V SV]; [congruence|]. rewrite (space_of_ok s V SV) in S. discriminate.
Qed.

(** So no form with a transposed trace can be assembled (traces come first in the list of
    modules, so they are left out here). *)
Theorem C97_form_refuted w g sp ord dfa fuel st f i t : an_order ord ->
  (forall V TV mesh d, on_trace_mesh (g_transpose g V TV mesh d)) ->
  (forall j s, In j f -> occurs s (snd j) -> getattr s ATrace = None) ->
  In i f -> occurs t (snd i) -> getattr t (AOther 0) <> None -> (forall s, occurs s (snd i) -> tkind s = tkind t -> s = t) ->
  (exists e, xii_assemble w (modules w sp (reduction_matrix w g)) ord dfa fuel st f = Err e) /\
  (forall rest ar, f = i :: rest -> arity f = Ok ar -> 0 < fuel -> (forall s, occurs s (snd i) -> getattr s (AOther 0) <> None -> exists V, of_space s V) ->
     xii_assemble w (modules w sp (reduction_matrix w g)) ord dfa fuel st f = Err AssertionError).
Proof.
  intros ORD G NT Hi Ht D U. destruct fuel as [|fuel]; [split; [eexists; reflexivity|intros; lia]|]. cbn [xii_assemble].
  destruct (arity f) as [ar|e]; cbn [bind]; [|split; [eauto|discriminate] ].
  set (rec := xii_assemble w (modules w sp (reduction_matrix w g)) ord dfa fuel). unfold modules. cbn [dispatch].
  set (TM := trace_module w sp (reduction_matrix w g)). set (M := transpose_trace_module w sp (reduction_matrix w g)).
  assert (S0 : existsb (selects w TM) f = false).
  { apply not_true_is_false. intros E. apply existsb_exists in E. destruct E as (j & Hj & E). unfold selects in E. apply existsb_exists in E. destruct E as (s & Hs & E).
    apply unique_In in Hs. cbn [asm_sel TM trace_module] in E. unfold hasattr in E. rewrite (NT j s Hj Hs) in E. rewrite andb_false_r in E. discriminate. }
  assert (S1 : selects w M i = true).
  { unfold selects. apply existsb_exists. exists t. split.
    - destruct (set_of_cover (terminals (snd i)) t) as (s & Hs & E); [apply terminals_occurs; assumption|]. enough (s = t) by (subst; assumption). apply U; [|assumption]. apply unique_In. exact Hs.
    - cbn. unfold hasattr. destruct (getattr t (AOther 0)); [reflexivity|congruence]. }
  rewrite S0. assert (existsb (selects w M) f = true) as -> by (apply existsb_exists; eauto).
  unfold with_module.
  assert (TK : taken w M f i = true).
  { unfold taken. apply existsb_exists. exists i. split; [assumption|]. rewrite S1. cbn. unfold integral_eqb. rewrite Nat.eqb_refl. apply expr_eqb_iff, alike_refl. }
  destruct (transpose_integral w g sp ord rec st ar i ORD G) as (e & E & A). fold M in E. split.
  - destruct (mapM_err_from (fun i0 => if taken w M f i0 then reduce_integral w ord rec st M ar i0 else do r <- rec st [i0]; Ok [r]) f i e Hi) as (e' & E').
    + rewrite TK. assumption.
    + rewrite E'. eexists. reflexivity.
  - intros rest ar' -> _ _ SP. rewrite mapM_cons. rewrite TK, E. cbn [bind]. rewrite (A SP). reflexivity.
Qed.

(** What C97 has instead: were the facets found, the matrix would have the sizes of the trace
    from [V] to [TV], exchanged -- it does not map functions of [V] to those of [TV]. *)
Theorem C97_sizes_refuted w g V TV mesh d T :
  (forall S, tr_nonconforming (g_transpose g V TV mesh d) = Ok S -> nr S = w_dim w TV /\ nc S = w_dim w V) ->
  reduction_matrix w g (AOther 0) V TV mesh d = Ok T -> nr T = w_dim w V /\ nc T = w_dim w TV.
Proof.
  cbn [reduction_matrix]. generalize (g_transpose g V TV mesh d) as s. intros s NC H.
  destruct (plain_trace_matrix s (w_dim w TV) (w_dim w V)) as [E|e] eqn:P; cbn [bind] in H; [|discriminate]. injection H as <-. cbn [nr nc mtr].
  enough (nr E = w_dim w TV /\ nc E = w_dim w V) by tauto.
  unfold plain_trace_matrix, trace_mat_no_restrict in P.
  destruct (get_entity_map (tr_build s) (tr_mesh_id s) (tr_mesh s) (Some (tr_f s)) (Some (tr_tags s))) as [tm [ []|e] ]; [|discriminate]. unfold conforming in P.
  destruct (get_entity_map (tr_build s) (tr_mesh_id s) tm (Some (tr_f s)) (Some (tr_tags s))) as [tm' [ []|e] ].
  - destruct (tr_hdiv s) as [degree|].
    + destruct (negb (degree =? 0)); [discriminate|]. destruct (the_mapping _ _ tm') as [mp|e]; cbn [bind] in P; [|discriminate]. unfold dlt_trace_mat in P.
      destruct (negb _); [discriminate|]. destruct (dlt_components _ _ _ _) as [F|e]; cbn [bind] in P; [|discriminate]. injection P as <-. split; reflexivity.
    + destruct (the_mapping _ _ tm') as [mp|e]; cbn [bind] in P; [|discriminate]. unfold no_restrict in P. destruct (mapM _ _) as [fs|e]; cbn [bind] in P; [|discriminate].
      injection P as <-. destruct (tr_dg s); split; reflexivity.
  - destruct e; try discriminate; apply NC; assumption.
Qed.

(** ** Instances: v in the space 2 (triangles), u restricted from space 3, over the mesh 7 *)
Definition flat_trace : embedded := {| s_dim := 2; s_x := []; s_cells := []; s_extract := None |}.
Definition flat_mesh : parent := {| p_tdim := 2; p_x := []; p_c2v := []; p_c2e := []; p_e2v := [] |}.
Definition flat : trace_source :=
  let s := ex_trace NoRestriction 2 in
  {| tr_gdim := 3; tr_cell_mid := tr_cell_mid s; tr_trace_mid := tr_trace_mid s; tr_normal := tr_normal s; tr_facet_cells := tr_facet_cells s;
     tr_T_dofs := tr_T_dofs s; tr_V_dofs := tr_V_dofs s; tr_dof_value := tr_dof_value s;
     tr_build := fun _ f tags => do r <- build_embedding_map flat_trace flat_mesh (fun _ => []) (Some (mf_dim f, mf_values f)) (Some tags) 0%R; Ok [(0, fst r); (2, snd r)];
     tr_nonconforming := Err RuntimeError; tr_hdiv := None; tr_tdofs := []; tr_fdofs := []; tr_mesh_id := 9; tr_fdim := 2; tr_dg := false; tr_compatible := true;
     tr_has_normal := false; tr_normal_dg0 := false; tr_restriction := NoRestriction;
     tr_mesh := TraceMesh (Some [(7, [(0, [(0, 3)]); (2, [(0, 5)])])]) (Some [4]); tr_f := MeshFunction 2 [4]; tr_tags := [4] |}.
Definition flat_geometry : geometry :=
  let g := ex_geometry in
  {| g_trace := g_trace g; g_restriction := g_restriction g; g_collision := g_collision g; g_limit := g_limit g; g_basis := g_basis g; g_dofs := g_dofs g; g_shape := g_shape g;
     g_quadrature := g_quadrature g; g_lines := g_lines g; g_size := g_size g; g_line_cells := g_line_cells g; g_parents := g_parents g; g_edge_cells := g_edge_cells g;
     g_line_collision := g_line_collision g; g_components := g_components g; g_normals := g_normals g; g_transpose := fun _ _ _ _ => flat; g_patch := g_patch g; g_mean := g_mean g;
     g_point := g_point g; g_surface := g_surface g; g_injection := g_injection g |}.
Lemma flat_on_trace_mesh V TV mesh d : on_trace_mesh (g_transpose flat_geometry V TV mesh d).
Proof.
  split.
  - intros (maps & em & E & H). injection E as <-. destruct H as [H|[] ]. discriminate H.
  - exists flat_trace, flat_mesh, (fun _ => []), 0%R. split; [cbn; lia|intros; reflexivity].
Qed.
Example C97_example ord : an_order ord ->
  xii_assemble ex_w (modules ex_w ex_sp (reduction_matrix ex_w flat_geometry)) ord ex_dfa 4 [] (tl ex_form) = Err AssertionError.
Proof.
  intros ORD. eapply (proj2 (C97_form_refuted ex_w flat_geometry ex_sp ord ex_dfa 4 [] (tl ex_form) (nth 1 ex_form (0, Leaf (Term (KArg 0 2) None None None [(0, 7)]))) (Term (KArg 0 2) None None None [(0, 7)]) ORD flat_on_trace_mesh _ _ _ _ _)).
  - reflexivity.
  - reflexivity.
  - lia.
  - intros s H _. occ H; eexists; left; eexists; reflexivity.
  Unshelve.
  + intros j s [<-|[] ] H. occ H; reflexivity.
  + left. reflexivity.
  + eapply occurs_node; [left; reflexivity|constructor].
  + discriminate.
  + intros s H K. occ H; [reflexivity|discriminate K].
Qed.
(** With facets that are known (as of a mesh that is its own trace mesh) the matrix is there, 3 by 8. *)
Example C97_sizes_example : match reduction_matrix ex_w ex_geometry (AOther 0) 2 7 7 7 with Ok T => nr T = 3 /\ nc T = 8 /\ ent T 1 0 = half | Err _ => False end.
Proof. repeat split. Qed.

Print Assumptions C97_matrix_refuted.
Print Assumptions C97_form_refuted.
Print Assumptions C97_sizes_refuted.
