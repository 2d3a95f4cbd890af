(** C58: matrices that evaluate finite element functions. *)
From Verif Require Import Base BaseProofs Mat MatProofs FillModel FillProofs AverageProofs EvalModel EvalProofs.
Local Open Scope nat_scope.
Local Close Scope Q_scope.
Local Close Scope Qc_scope.

(** *** Flux averages *)
Theorem C58_flux {X N} collision limit basis V_dofs size (quadrature_normal : X -> N -> list X * list Qc * list vec) m u cells r y n dofs :
  space_ok limit basis V_dofs size (length u) -> normals_ok quadrature_normal ->
  NoDup (flat_map (fun lc => map fst (snd lc)) cells) -> r < m -> In (n, dofs) cells -> In (r, y) dofs ->
  vnth (mv (flux_average collision limit basis V_dofs size quadrature_normal m (length u) cells) u) r =
  shape_flux collision limit basis V_dofs size quadrature_normal u y n.
Proof. apply flux_average_apply. Qed.
(** The same normal component everywhere is its own average. *)
Theorem C58_flux_constant {X N} collision limit basis V_dofs size (quadrature_normal : X -> N -> list X * list Qc * list vec) m u cells r y n dofs a pts w nvs :
  space_ok limit basis V_dofs size (length u) -> normals_ok quadrature_normal ->
  NoDup (flat_map (fun lc => map fst (snd lc)) cells) -> r < m -> In (n, dofs) cells -> In (r, y) dofs ->
  quadrature_normal y n = (pts, w, nvs) -> sumn (length w) (vnth w) <> q0 ->
  (forall q, q < length pts -> collision (nth q pts y) < limit /\ normal_component collision basis V_dofs size u (nth q pts y) (nth q nvs []) = a) ->
  vnth (mv (flux_average collision limit basis V_dofs size quadrature_normal m (length u) cells) u) r = a.
Proof.
  intros SO NO ND Hr Hc Hd E W H. rewrite (C58_flux collision limit basis V_dofs size quadrature_normal m u cells r y n dofs) by assumption.
  specialize (NO y n). unfold shape_flux. rewrite E in *. destruct NO as [L _].
  rewrite (sumn_ext (length pts) _ (fun q => (vnth w q * a)%Qc)).
  - rewrite sumn_scal_r, L. field. exact W.
  - intros q Hq. destruct (H q Hq) as [I1 I2]. unfold inside. rewrite (proj2 (Nat.ltb_lt _ _) I1), I2. reflexivity.
Qed.

(** *** Evaluation at a vertex *)
Definition one_dof_row (A : mat) (m n row : nat) : Prop := nr A = m /\ nc A = n /\ forall i j, i <> row -> ent A i j = q0.

Theorem C58_point_partial V TV trace_mesh entity_collisions V_dofs TV_dofs basis_at m u first_collision limit x0 cell A :
  point_trace_mat V TV trace_mesh entity_collisions V_dofs TV_dofs basis_at m (length u) first_collision limit x0 cell = Ok A ->
  (forall v, length (basis_at v cell) = length (V_dofs cell)) -> (forall j, In j (V_dofs cell) -> j < length u) ->
  exists v row, x0 = AtVertex v /\ In cell (entity_collisions v) /\ TV_dofs cell = [row] /\ one_dof_row A m (length u) row /\
    (row < m -> row_times A u row = local_sum u (V_dofs cell) (fun l => nth l (basis_at v cell) q0)).
Proof.
  intros H L B. unfold point_trace_mat in H. destruct (negb (spaces_fit _ _ _)); [discriminate|]. destruct (fam_eqb (s_family V) Lagrange).
  - destruct x0 as [v|x]; [discriminate|]. destruct (length x =? s_gdim V); [|discriminate]. unfold point_trace_matrix_CG in H. destruct (first_collision x <? limit); discriminate.
  - destruct (negb (dg_fits V)); [discriminate|]. destruct x0 as [v|x]; [|discriminate]. unfold point_trace_matrix_DG in H.
    destruct (existsb (Nat.eqb cell) (entity_collisions v)) eqn:EC; [|discriminate]. cbn [negb] in H. destruct (negb (nonzero (basis_at v cell))); [discriminate|].
    unfold one_row in H. destruct (TV_dofs cell) as [|row [|? ?]]; try discriminate. injection H as <-. exists v, row. apply existsb_in in EC. specialize (L v).
    repeat split; try assumption.
    + intros i j N. apply coo_other_rows; assumption.
    + intros Hr. apply coo_row_times; assumption.
Qed.
(** Exactly these arguments are accepted. *)
Theorem C58_point_accepted V TV trace_mesh entity_collisions V_dofs TV_dofs basis_at m n first_collision limit x0 cell :
  (exists A, point_trace_mat V TV trace_mesh entity_collisions V_dofs TV_dofs basis_at m n first_collision limit x0 cell = Ok A) <->
  s_family TV = Real /\ s_shape TV = [] /\ s_family V = DiscontinuousLagrange /\ s_shape V = [] /\ s_tdim V = 1 /\ s_meshid V = s_meshid TV /\ s_meshid TV = trace_mesh /\
  exists v row, x0 = AtVertex v /\ In cell (entity_collisions v) /\ TV_dofs cell = [row] /\ exists b, In b (basis_at v cell) /\ b <> q0.
Proof.
  unfold point_trace_mat, spaces_fit, dg_fits. split.
  - intros [A H]. destruct (fam_eqb (s_family TV) Real) eqn:E1; [|discriminate]. destruct (shape_eqb (s_shape V) (s_shape TV)) eqn:E2; [|discriminate].
    destruct (s_meshid V =? s_meshid TV) eqn:E3; [|discriminate]. destruct (s_meshid TV =? trace_mesh) eqn:E4; [|discriminate]. cbn [andb negb] in H.
    destruct (fam_eqb (s_family V) Lagrange) eqn:E5.
    + destruct x0 as [v|x]; [discriminate|]. destruct (length x =? s_gdim V); [|discriminate]. unfold point_trace_matrix_CG in H. destruct (first_collision x <? limit); discriminate.
    + destruct (fam_eqb (s_family V) DiscontinuousLagrange) eqn:E6; [|discriminate]. destruct (s_tdim V =? 1) eqn:E7; [|discriminate].
      destruct (shape_eqb (s_shape V) []) eqn:E8; [|discriminate]. cbn [andb negb] in H. destruct x0 as [v|x]; [|discriminate]. unfold point_trace_matrix_DG, one_row in H.
      destruct (existsb (Nat.eqb cell) (entity_collisions v)) eqn:EC; [|discriminate]. cbn [negb] in H. destruct (nonzero (basis_at v cell)) eqn:EN; [|discriminate]. cbn [negb] in H.
      destruct (TV_dofs cell) as [|row [|? ?]]; try discriminate.
      apply fam_eqb_spec in E1, E6. apply shape_eqb_spec in E2, E8. apply Nat.eqb_eq in E3, E4, E7. apply existsb_in in EC. apply nonzero_spec in EN.
      repeat split; try assumption; [congruence|]. exists v, row. repeat split; assumption.
  - intros (E1 & E2 & E3 & E4 & E5 & E6 & E7 & v & row & -> & EC & ER & EB). apply existsb_in in EC. apply nonzero_spec in EB.
    rewrite E1, E3, E2, E4, E5, E6, E7, !Nat.eqb_refl. cbn [fam_eqb shape_eqb andb negb]. unfold point_trace_matrix_DG, one_row. rewrite EC, EB, ER. eexists. reflexivity.
Qed.
(** Evaluation of continuous functions is never available. *)
Theorem C58_lagrange_refuted V TV trace_mesh entity_collisions V_dofs TV_dofs basis_at m n first_collision limit x0 cell :
  s_family V = Lagrange ->
  forall A, point_trace_mat V TV trace_mesh entity_collisions V_dofs TV_dofs basis_at m n first_collision limit x0 cell <> Ok A.
Proof.
  intros EV A H. destruct (proj1 (C58_point_accepted V TV trace_mesh entity_collisions V_dofs TV_dofs basis_at m n first_collision limit x0 cell) (ex_intro _ A H)) as (_ & _ & E & _). congruence.
Qed.
(** Not even for a point inside the mesh with everything as documented: the call of evaluate_basis_all is wrong. *)
Theorem C58_lagrange_type_error V TV trace_mesh entity_collisions V_dofs TV_dofs basis_at m n first_collision limit x cell :
  s_family V = Lagrange -> s_family TV = Real -> s_shape V = s_shape TV -> s_meshid V = s_meshid TV -> s_meshid TV = trace_mesh -> length x = s_gdim V -> first_collision x < limit ->
  point_trace_mat V TV trace_mesh entity_collisions V_dofs TV_dofs basis_at m n first_collision limit (AtPoint x) cell = Err TypeError.
Proof.
  intros E1 E2 E3 E4 E5 E6 E7. unfold point_trace_mat, spaces_fit. rewrite E1, E2, E3, E4, E5, E6, !Nat.eqb_refl. cbn [fam_eqb andb negb].
  replace (shape_eqb (s_shape TV) (s_shape TV)) with true by (symmetry; apply shape_eqb_spec; reflexivity). cbn [andb negb]. unfold point_trace_matrix_CG. rewrite (proj2 (Nat.ltb_lt _ _) E7). reflexivity.
Qed.

(** *** Derivative along a tangent at a vertex: each partial derivative of the
    function is the sum over the local basis functions, [gdim] derivatives each. *)
Definition tangent_at (t : tangent) (cell : nat) : vec := match t with TauConstant a => a | TauFunction f => f cell | TauArray a => a end.
Theorem C58_gradient V TV trace_mesh entity_collisions V_dofs TV_dofs derivatives_at m u x0 cell t A :
  gradient_point_trace_mat V TV trace_mesh entity_collisions V_dofs TV_dofs derivatives_at m (length u) x0 cell t = Ok A ->
  (forall j, In j (V_dofs cell) -> j < length u) ->
  exists v row, x0 = AtVertex v /\ In cell (entity_collisions v) /\ TV_dofs cell = [row] /\ one_dof_row A m (length u) row /\
    (row < m -> row_times A u row =
       sumn (s_gdim V) (fun k => (local_sum u (V_dofs cell) (fun l => nth (l * s_gdim V + k) (derivatives_at v cell) q0) * vnth (tangent_at t cell) k)%Qc)).
Proof.
  intros H B. unfold gradient_point_trace_mat in H. destruct (negb (spaces_fit _ _ _)); [discriminate|]. destruct (fam_eqb (s_family V) Lagrange); [discriminate|].
  destruct (negb (dg_fits V)); [discriminate|]. destruct x0 as [v|x]; [|discriminate]. unfold gradient_point_trace_matrix_DG in H.
  destruct (existsb (Nat.eqb cell) (entity_collisions v)) eqn:EC; [|discriminate]. cbn [negb] in H. destruct (negb (nonzero (derivatives_at v cell))); [discriminate|].
  unfold one_row in H. destruct (TV_dofs cell) as [|row [|? ?]]; try discriminate. injection H as <-. exists v, row. apply existsb_in in EC.
  repeat split; try assumption.
  - intros i j N. apply coo_other_rows; [apply dot_rows_length|assumption].
  - intros Hr. rewrite coo_row_times by (try assumption; apply dot_rows_length). rewrite <- local_sum_swap. apply local_sum_ext. intros l Hl. rewrite dot_rows_nth by assumption. destruct t; reflexivity.
Qed.
Theorem C58_gradient_accepted V TV trace_mesh entity_collisions V_dofs TV_dofs derivatives_at m n x0 cell t :
  (exists A, gradient_point_trace_mat V TV trace_mesh entity_collisions V_dofs TV_dofs derivatives_at m n x0 cell t = Ok A) <->
  s_family TV = Real /\ s_shape TV = [] /\ s_family V = DiscontinuousLagrange /\ s_shape V = [] /\ s_tdim V = 1 /\ s_meshid V = s_meshid TV /\ s_meshid TV = trace_mesh /\
  exists v row, x0 = AtVertex v /\ In cell (entity_collisions v) /\ TV_dofs cell = [row] /\ exists b, In b (derivatives_at v cell) /\ b <> q0.
Proof.
  unfold gradient_point_trace_mat, spaces_fit, dg_fits. split.
  - intros [A H]. destruct (fam_eqb (s_family TV) Real) eqn:E1; [|discriminate]. destruct (shape_eqb (s_shape V) (s_shape TV)) eqn:E2; [|discriminate].
    destruct (s_meshid V =? s_meshid TV) eqn:E3; [|discriminate]. destruct (s_meshid TV =? trace_mesh) eqn:E4; [|discriminate]. cbn [andb negb] in H.
    destruct (fam_eqb (s_family V) Lagrange) eqn:E5; [discriminate|].
    destruct (fam_eqb (s_family V) DiscontinuousLagrange) eqn:E6; [|discriminate]. destruct (s_tdim V =? 1) eqn:E7; [|discriminate].
    destruct (shape_eqb (s_shape V) []) eqn:E8; [|discriminate]. cbn [andb negb] in H. destruct x0 as [v|x]; [|discriminate]. unfold gradient_point_trace_matrix_DG, one_row in H.
    destruct (existsb (Nat.eqb cell) (entity_collisions v)) eqn:EC; [|discriminate]. cbn [negb] in H. destruct (nonzero (derivatives_at v cell)) eqn:EN; [|discriminate]. cbn [negb] in H.
    destruct (TV_dofs cell) as [|row [|? ?]]; try discriminate.
    apply fam_eqb_spec in E1, E6. apply shape_eqb_spec in E2, E8. apply Nat.eqb_eq in E3, E4, E7. apply existsb_in in EC. apply nonzero_spec in EN.
    repeat split; try assumption; [congruence|]. exists v, row. repeat split; assumption.
  - intros (E1 & E2 & E3 & E4 & E5 & E6 & E7 & v & row & -> & EC & ER & EB). apply existsb_in in EC. apply nonzero_spec in EB.
    rewrite E1, E3, E2, E4, E5, E6, E7, !Nat.eqb_refl. cbn [fam_eqb shape_eqb andb negb]. unfold gradient_point_trace_matrix_DG, one_row. rewrite EC, EB, ER. eexists. reflexivity.
Qed.
(** Piecewise constants, whose derivatives vanish, are refused instead of giving zero. *)
Theorem C58_constants_refuted V TV trace_mesh entity_collisions V_dofs TV_dofs derivatives_at m n x0 cell t :
  (forall v b, In b (derivatives_at v cell) -> b = q0) ->
  forall A, gradient_point_trace_mat V TV trace_mesh entity_collisions V_dofs TV_dofs derivatives_at m n x0 cell t <> Ok A.
Proof.
  intros Z A H. destruct (proj1 (C58_gradient_accepted V TV trace_mesh entity_collisions V_dofs TV_dofs derivatives_at m n x0 cell t) (ex_intro _ A H)) as (_ & _ & _ & _ & _ & _ & _ & v & row & _ & _ & _ & b & Hb & N).
  apply N, (Z v b Hb).
Qed.

(** *** The nonconforming trace: the dof of the first cell of T that has it, applied
    to the function on the cell of V at the point of the dof; zero outside. *)
Theorem C58_nonconforming limit collisions V_dofs dof_value m u cells pre ds post i k :
  (forall ds', In ds' cells -> NoDup ds' /\ forall d, In d ds' -> d < m) ->
  (forall c, c < limit -> NoDup (V_dofs c) /\ forall j, In j (V_dofs c) -> j < length u) ->
  cells = pre ++ ds :: post -> nth_error ds k = Some i -> (forall ds', In ds' pre -> ~ In i ds') ->
  row_times (nonconforming_trace_mat limit collisions V_dofs dof_value m (length u) cells) u i =
  if collisions i <? limit then local_sum u (V_dofs (collisions i)) (dof_value (length pre) k (collisions i)) else q0.
Proof. apply nonconforming_apply. Qed.
Theorem C58_nonconforming_none limit collisions V_dofs dof_value m u cells i :
  (forall ds, In ds cells -> NoDup ds /\ forall d, In d ds -> d < m) ->
  (forall c, c < limit -> NoDup (V_dofs c) /\ forall j, In j (V_dofs c) -> j < length u) -> (forall ds, In ds cells -> ~ In i ds) ->
  row_times (nonconforming_trace_mat limit collisions V_dofs dof_value m (length u) cells) u i = q0.
Proof. apply nonconforming_none. Qed.
(** With point evaluations as dofs (all cells agree on the point of a dof) the
    result is the value at the point, whichever cell came first. *)
Theorem C58_nonconforming_value {X} limit (collision : X -> nat) (basis : nat -> X -> list Qc) V_dofs dof_value m u cells (point : nat -> X) i :
  (forall ds, In ds cells -> NoDup ds /\ forall d, In d ds -> d < m) ->
  (forall c, c < limit -> NoDup (V_dofs c) /\ forall j, In j (V_dofs c) -> j < length u) ->
  (forall t ds k d c l, nth_error cells t = Some ds -> nth_error ds k = Some d -> dof_value t k c l = nth l (basis c (point d)) q0) ->
  (exists ds, In ds cells /\ In i ds) ->
  row_times (nonconforming_trace_mat limit (fun d => collision (point d)) V_dofs dof_value m (length u) cells) u i =
  if inside collision limit (point i) then fe_value collision basis V_dofs 1 u 0 (point i) else q0.
Proof.
  intros HT HV HD (ds0 & H0 & H1).
  assert (F : exists pre ds post k, cells = pre ++ ds :: post /\ nth_error ds k = Some i /\ forall ds', In ds' pre -> ~ In i ds').
  { clear - H0 H1. induction cells as [|ds cells IH]; [destruct H0|]. destruct (in_dec Nat.eq_dec i ds) as [Hi|Hi].
    - destruct (In_nth_error _ _ Hi) as [k Hk]. exists [], ds, cells, k. repeat split; [assumption|intros ? []].
    - destruct H0 as [->|H0]; [contradiction|]. destruct (IH H0) as (pre & ds' & post & k & -> & B & C). exists (ds :: pre), ds', post, k.
      repeat split; [assumption|]. intros d [<-|Hd]; auto. }
  destruct F as (pre & ds & post & k & E & Hk & Hp). rewrite (C58_nonconforming limit _ V_dofs dof_value m u cells pre ds post i k) by assumption.
  unfold inside. destruct (_ <? _); [|reflexivity]. unfold local_sum, fe_value. apply sumn_ext. intros l _. rewrite Nat.mul_1_r, Nat.add_0_r. f_equal. eapply HD; [|eassumption].
  rewrite E, nth_error_app2, Nat.sub_diag by lia. reflexivity.
Qed.

(** *** Examples *)
(** Two points (one outside a mesh of one cell) with normals (1,0) and (0,1); the
    function is 3 in both components of its two basis functions. *)
Example C58_flux_example :
  let qn := fun (_ _ : nat) => ([0; 1]%nat, [qz 1; qz 1], [[qz 1; qz 0]; [qz 0; qz 1]]) in
  let basis := fun (_ : nat) (_ : nat) => [qz 1; qz 0; qz 0; qz 1] in
  let A n := flux_average (fun x : nat => x) n basis (fun _ => [0; 1]) 2 qn 1 2 [(0, [(0, 0)])] in
  to_rows (A 1) = [[(qz 1 / qz 2)%Qc; qz 0]] /\ to_rows (A 2) = [[(qz 1 / qz 2)%Qc; (qz 1 / qz 2)%Qc]] /\
  space_ok 1 basis (fun _ => [0; 1]) 2 2 /\ normals_ok qn.
Proof.
  repeat split; try (vm_compute; reflexivity).
  - repeat constructor; cbn; intuition lia.
  - intros j [<-|[<-|[]]]; lia.
Qed.
Example C58_point_example :
  let V := FSpace DiscontinuousLagrange [] 7 1 2 in let TV := FSpace Real [] 7 1 2 in
  let ec := fun _ : nat => [3; 1] in let Vd := fun c => [2 * c; 2 * c + 1] in
  let A := point_trace_mat V TV 7 ec Vd (fun _ => [0]) (fun _ _ => [qz 0; qz 1]) 1 4 (fun _ => 0) 5 (AtVertex 2) 1 in
  let G := gradient_point_trace_mat V TV 7 ec Vd (fun _ => [0]) (fun _ _ => [qz (-1); qz 0; qz 1; qz 2]) 1 4 (AtVertex 2) 1 (TauArray [qz 1; qz 1]) in
  (match A with Ok a => to_rows a = [map qz [0; 0; 0; 1]%Z] | _ => False end) /\
  (match G with Ok a => to_rows a = [map qz [0; 0; -1; 3]%Z] | _ => False end) /\
  point_trace_mat (FSpace Lagrange [] 7 2 2) TV 7 ec Vd (fun _ => [0]) (fun _ _ => [qz 0; qz 1]) 1 4 (fun _ => 0) 5 (AtPoint [qz 0; qz 1]) 1 = Err TypeError.
Proof. vm_compute. repeat split; reflexivity. Qed.
(** Three dofs of T in two cells; the second dof is shared, the last is outside. *)
Example C58_nonconforming_example :
  to_rows (nonconforming_trace_mat 2 (fun d => d) (fun c => [c; S c]) (fun t k c l => qz (Z.of_nat (100 * t + 10 * k + l + 1))) 3 3 [[0; 1]; [1; 2]]) =
  [map qz [1; 2; 0]%Z; map qz [0; 11; 12]%Z; map qz [0; 0; 0]%Z].
Proof. vm_compute. reflexivity. Qed.

Print Assumptions C58_flux.
Print Assumptions C58_flux_constant.
Print Assumptions C58_point_partial.
Print Assumptions C58_point_accepted.
Print Assumptions C58_lagrange_refuted.
Print Assumptions C58_lagrange_type_error.
Print Assumptions C58_gradient.
Print Assumptions C58_gradient_accepted.
Print Assumptions C58_constants_refuted.
Print Assumptions C58_nonconforming.
Print Assumptions C58_nonconforming_none.
Print Assumptions C58_nonconforming_value.
