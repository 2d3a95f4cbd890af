(** Traces restricted to a side of the facets (property C60). *)
From Verif Require Import Base BaseProofs Mat MatProofs FillModel FillProofs EntityModel EntityProofs EntityProps RestrictModel RestrictProofs.
Local Open Scope nat_scope.
Local Close Scope Q_scope.
Local Close Scope Qc_scope.
Local Arguments Nat.ltb : simpl never.
Local Arguments Nat.leb : simpl never.
Local Arguments Nat.eqb : simpl never.

(** ** C60 *)
(** The restricted trace: a row evaluates the functional of its dof on the function in a
    cell of the facet of the first trace cell with the dof; for '+' its midpoint is below
    the facet (with respect to the normal), for '-' it is not *)
Theorem C60_partial : forall (gdim : nat) (cell_mid trace_mid normal : nat -> vec) (facet_cells T_dofs V_dofs : nat -> list nat) (dof_value : nat -> nat -> nat -> nat -> Qc)
    (m n : nat) (plus dg : bool) (mapping : list (nat * nat)) (cells : list nat) (A : mat),
  one_restrict gdim cell_mid trace_mid normal facet_cells T_dofs V_dofs dof_value m n plus dg mapping cells = Ok A ->
  dofs_ok m T_dofs cells -> (forall f, dofs_ok n V_dofs (facet_cells f)) -> (dg = true -> dofs_apart T_dofs cells) ->
  (forall t k i u, first_with T_dofs cells t k i -> exists f c, lookup t mapping = Some f /\ In c (facet_cells f) /\
     (plus = true <-> (height gdim (normal t) (trace_mid t) (cell_mid c) < 0)%Qc) /\ vnth (mv A u) i = local_value u (V_dofs c) (dof_value t k c)) /\
  (forall i u, i < m -> (forall t, In t cells -> ~ In i (T_dofs t)) -> vnth (mv A u) i = q0).
Proof.
  intros gdim cm tm nm fc TD VD dv m n plus dg mapping cells A E TO VO AP. unfold one_restrict in E.
  set (pick := fun t => match lookup t mapping with None => 0 | Some f => match pick_cell gdim cm tm nm plus t (fc f) with Ok c => c | Err _ => 0 end end).
  assert (P : forall t, In t cells -> exists f, lookup t mapping = Some f /\ pick_cell gdim cm tm nm plus t (fc f) = Ok (pick t)).
  { intros t Ht. destruct (mapM (restricted_cell gdim cm tm nm fc TD VD dv plus mapping) cells) as [fs|] eqn:MC; [|discriminate E]. apply mapM_ok_forall in MC. clear E.
    induction MC as [|x y l ys Hxy MC IH]; [destruct Ht|]. destruct Ht as [-> |Ht].
    - unfold restricted_cell in Hxy. unfold pick. destruct (lookup t mapping) as [f|]; [|discriminate]. exists f. split; [reflexivity|]. cbn [opt_res bind] in Hxy. destruct (pick_cell gdim cm tm nm plus t (fc f)); [reflexivity|discriminate].
    - apply IH; [| |exact Ht]; [intros c Hc; apply TO; right; exact Hc|]. intros D a b ta tb i Ha Hb Ia Ib. pose proof (AP D (S a) (S b) ta tb i Ha Hb Ia Ib). lia. }
  destruct (chosen_rows TD VD dv m n dg (restricted_cell gdim cm tm nm fc TD VD dv plus mapping) pick cells A) with (5 := E) as [R1 R2]; try assumption.
  - intros t f Ht H. destruct (P t Ht) as (f' & L & Q). unfold restricted_cell in H. rewrite L in H. cbn [opt_res bind] in H. rewrite Q in H. cbn [bind] in H. injection H as <-. reflexivity.
  - intros c Hc. apply in_map_iff in Hc. destruct Hc as (t & <- & Ht). destruct (P t Ht) as (f & L & Q). apply pick_cell_spec in Q. exact (VO f _ (proj1 Q)).
  - split; [|exact R2]. intros t k i u FW. assert (Ht : In t cells) by (destruct FW as (pre & post & -> & _); apply in_elt). destruct (P t Ht) as (f & L & Q). pose proof (pick_cell_spec _ _ _ _ _ _ _ _ Q) as [Q1 Q2].
    exists f, (pick t). split; [exact L|]. split; [exact Q1|]. split; [exact Q2|]. apply R1, FW.
Qed.
Print Assumptions C60_partial.
(** The documentation takes '+' for the cell whose midpoint is above the facet.  The cell
    that is picked for '+' never is; of two cells on different sides each restriction
    gets the other one *)
Theorem C60_side_refuted : forall (gdim : nat) (cell_mid trace_mid normal : nat -> vec) (t : nat) (cells : list nat) (c : nat),
  (pick_cell gdim cell_mid trace_mid normal true t cells = Ok c -> ~ (0 < height gdim (normal t) (trace_mid t) (cell_mid c))%Qc) /\
  (forall c1 c2, (0 < height gdim (normal t) (trace_mid t) (cell_mid c1))%Qc -> (height gdim (normal t) (trace_mid t) (cell_mid c2) < 0)%Qc -> cells = [c1; c2] \/ cells = [c2; c1] ->
     pick_cell gdim cell_mid trace_mid normal true t cells = Ok c2 /\ pick_cell gdim cell_mid trace_mid normal false t cells = Ok c1).
Proof.
  intros gdim cm tm nm t cells c. split.
  - intros P. apply pick_cell_spec in P. destruct P as [_ [P _]]. specialize (P eq_refl). intros H. exact (Qclt_not_le _ _ H (Qclt_le_weak _ _ P)).
  - intros c1 c2 H1 H2 HC. assert (N : forall x y : Qc, (0 < x)%Qc -> (y < 0)%Qc -> x <> y /\ ~ (x < 0)%Qc).
    { intros x y X Y. split; [intros ->|intros Z]; [exact (Qclt_not_le _ _ X (Qclt_le_weak _ _ Y))|exact (Qclt_not_le _ _ X (Qclt_le_weak _ _ Z))]. }
    destruct (N _ _ H1 H2) as [_ N1].
    assert (P1 : plus_sign gdim cm tm nm t c1 = false). { destruct (plus_sign gdim cm tm nm t c1) eqn:X; [|reflexivity]. apply plus_sign_spec in X. contradiction. }
    assert (P2 : plus_sign gdim cm tm nm t c2 = true) by (apply plus_sign_spec, H2). unfold pick_cell.
    destruct HC as [-> | ->]; cbn [find]; rewrite P1, P2; cbn [Bool.eqb opt_res]; auto.
Qed.
Print Assumptions C60_side_refuted.
(** Cells that are simplices, with a vertex each strictly on either side of their common
    facet: both restrictions return, '+' the cell of the vertex below, '-' that of the
    vertex above *)
Theorem C60_interior : forall (gdim : nat) (cell_mid trace_mid normal : nat -> vec) (t c1 c2 : nat) (cells : list nat) (fv : list vec) (v o1 o2 : vec),
  In v fv -> midpoint_of gdim fv (trace_mid t) -> midpoint_of gdim (o1 :: fv) (cell_mid c1) -> midpoint_of gdim (o2 :: fv) (cell_mid c2) ->
  (forall v w, In v fv -> In w fv -> height gdim (normal t) v w = 0%Qc) -> (0 < height gdim (normal t) v o1)%Qc -> (height gdim (normal t) v o2 < 0)%Qc -> cells = [c1; c2] \/ cells = [c2; c1] ->
  pick_cell gdim cell_mid trace_mid normal true t cells = Ok c2 /\ pick_cell gdim cell_mid trace_mid normal false t cells = Ok c1.
Proof.
  intros gdim cm tm nm t c1 c2 cells fv v o1 o2 IV MT M1 M2 OR H1 H2 HC. assert (NE : fv <> []) by (intros ->; destruct IV).
  destruct (C60_side_refuted gdim cm tm nm t cells 0) as [_ X]. apply X; [| |exact HC].
  - apply (simplex_side gdim (nm t) fv o1 (tm t) (cm c1) NE MT M1 OR v IV), H1.
  - apply (simplex_side gdim (nm t) fv o2 (tm t) (cm c2) NE MT M2 OR v IV), H2.
Qed.
Print Assumptions C60_interior.
(** If a trace cell is on a boundary facet one of the restrictions raises *)
Theorem C60_boundary : forall (gdim : nat) (cell_mid trace_mid normal : nat -> vec) (facet_cells T_dofs V_dofs : nat -> list nat) (dof_value : nat -> nat -> nat -> nat -> Qc)
    (m n : nat) (dg : bool) (mapping : list (nat * nat)) (cells : list nat) (t f c : nat),
  In t cells -> lookup t mapping = Some f -> facet_cells f = [c] ->
  exists plus e, one_restrict gdim cell_mid trace_mid normal facet_cells T_dofs V_dofs dof_value m n plus dg mapping cells = Err e /\ (cells = [t] -> e = ValueError).
Proof.
  intros gdim cm tm nm fc TD VD dv m n dg mapping cells t f c I L F. exists (negb (plus_sign gdim cm tm nm t c)).
  assert (R : restricted_cell gdim cm tm nm fc TD VD dv (negb (plus_sign gdim cm tm nm t c)) mapping t = Err ValueError).
  { unfold restricted_cell. rewrite L. cbn [opt_res bind]. unfold pick_cell. rewrite F. cbn [find]. destruct (plus_sign gdim cm tm nm t c); reflexivity. }
  unfold one_restrict. destruct (mapM_err_from _ _ _ _ I R) as [e E]. exists e. rewrite E. split; [reflexivity|]. intros ->. rewrite mapM_cons, R in E. cbn in E. congruence.
Qed.
Print Assumptions C60_boundary.
(** The loop for two sides: with one cell the values on it, with two cells on
    different sides the mean of the values or the difference, above minus below *)
Theorem C60_two_sides : forall (gdim : nat) (cell_mid trace_mid normal : nat -> vec) (facet_cells T_dofs V_dofs : nat -> list nat) (dof_value : nat -> nat -> nat -> nat -> Qc)
    (m n : nat) (r : restriction) (mapping : list (nat * nat)) (num_cells : nat) (A : mat),
  two_fill gdim cell_mid trace_mid normal facet_cells T_dofs V_dofs dof_value m n r mapping num_cells = Ok A ->
  dofs_ok m T_dofs (seq 0 num_cells) -> (forall f, dofs_ok n V_dofs (facet_cells f)) ->
  (forall t k i u, first_with T_dofs (seq 0 num_cells) t k i -> exists f, lookup t mapping = Some f /\
     (forall c, facet_cells f = [c] -> vnth (mv A u) i = local_value u (V_dofs c) (dof_value t k c)) /\
     (forall c1 c2, (0 < height gdim (normal t) (trace_mid t) (cell_mid c1))%Qc -> (height gdim (normal t) (trace_mid t) (cell_mid c2) < 0)%Qc -> facet_cells f = [c1; c2] \/ facet_cells f = [c2; c1] ->
        let above := local_value u (V_dofs c1) (dof_value t k c1) in let below := local_value u (V_dofs c2) (dof_value t k c2) in
        (r = Avg -> vnth (mv A u) i = ((above + below) / qz 2)%Qc) /\ (r = Jump -> vnth (mv A u) i = (above - below)%Qc))) /\
  (forall i u, i < m -> (forall t, t < num_cells -> ~ In i (T_dofs t)) -> vnth (mv A u) i = q0).
Proof.
  intros gdim cm tm nm fc TD VD dv m n r mapping num A E TO VO. unfold two_fill in E. destruct (pieces r) as [ps|] eqn:PS; cbn [bind] in E; [|discriminate].
  destruct (two_loop gdim cm tm nm fc TD VD dv ps mapping (seq 0 num) (repeat false m, fun _ _ => q0)) as [s|] eqn:TL; cbn [bind] in E; [|discriminate]. injection E as <-.
  assert (VM : forall t f mcs, In t (seq 0 num) -> lookup t mapping = Some f -> two_cells gdim cm tm nm ps t (fc f) = Ok mcs -> forall mc, In mc mcs -> NoDup (VD (snd mc)) /\ forall j, In j (VD (snd mc)) -> j < n).
  { intros t f mcs _ _ TC mc Hmc. apply (VO f). unfold two_cells in TC. destruct (fc f) as [|c [|d [|]]]; try discriminate TC; [injection TC as <-; destruct Hmc as [<- |[]]; left; reflexivity|].
    destruct (qltb _ _); injection TC as <-; destruct Hmc as [<- |[<- |[]]]; cbn; auto. }
  split.
  - intros t k i u FW. assert (It : In t (seq 0 num)) by (destruct FW as (pre & post & -> & _); apply in_elt). assert (Ii : In i (TD t)) by (destruct FW as (pre & post & _ & H & _); eapply nth_error_In; exact H).
    assert (Li : i < m) by (apply (TO t It), Ii). destruct (two_loop_rows gdim cm tm nm fc TD VD dv m n ps mapping u (seq 0 num) (repeat false m, fun _ _ => q0) s (repeat_length _ _) TO VM TL) as [R _].
    destruct (R t k i FW) as (f & mcs & L & TC & RV); [cbn; apply nth_repeat_in, Li|reflexivity|]. exists f. split; [exact L|].
    assert (RW : vnth (mv (Mat m n (snd s)) u) i = row_value VD dv mcs t k u) by (rewrite vnth_mv by exact Li; exact RV).
    assert (SC : forall a ds v, local_value u ds (fun l => (v l * a)%Qc) = (local_value u ds v * a)%Qc) by (intros a ds v; unfold local_value; rewrite <- sumn_scal_r; apply sumn_ext; intros; ring).
    split.
    + intros c FC. rewrite FC in TC. cbn in TC. injection TC as <-. rewrite RW. unfold row_value. cbn [map qsum fst snd]. unfold q0. change (fun l => dv t k c l) with (dv t k c). ring.
    + intros c1 c2 H1 H2 FC above below.
      assert (MC : mcs = [(fst ps, c1); (snd ps, c2)]).
      { destruct FC as [FC|FC]; rewrite FC in TC; cbn [two_cells] in TC; rewrite inner_height in TC.
        - apply qltb_lt in H1. change (qltb q0 (height gdim (nm t) (tm t) (cm c1)) = true) in H1. rewrite H1 in TC. congruence.
        - destruct (qltb q0 (height gdim (nm t) (tm t) (cm c2))) eqn:Q; [|congruence]. apply qltb_lt in Q. exfalso. exact (Qclt_not_le _ _ Q (Qclt_le_weak _ _ H2)). }
      rewrite RW, MC. unfold row_value. cbn [map qsum fst snd]. split; intros ->; cbn in PS; injection PS as <-; cbn [fst snd].
      * assert (D : forall x, (x / (q1 + q1) = x * (/ qz 2))%Qc) by (intros x; reflexivity).
        rewrite (local_value_ext u (VD c1) _ (fun l => (dv t k c1 l * / qz 2)%Qc)) by (intros; apply D). rewrite (local_value_ext u (VD c2) _ (fun l => (dv t k c2 l * / qz 2)%Qc)) by (intros; apply D). rewrite !SC.
        unfold above, below, Qcdiv, q0. change (fun l => dv t k c1 l) with (dv t k c1). change (fun l => dv t k c2 l) with (dv t k c2). ring.
      * rewrite (local_value_ext u (VD c2) _ (fun l => (dv t k c2 l * (- (1)))%Qc)) by (intros; ring). rewrite SC. unfold above, below, q0. change (fun l => dv t k c1 l) with (dv t k c1). change (fun l => dv t k c2 l) with (dv t k c2). ring.
  - intros i u Li NI. rewrite vnth_mv by exact Li. apply sumn_zero. intros j _. cbn [ent]. destruct (two_loop_rows gdim cm tm nm fc TD VD dv m n ps mapping u (seq 0 num) (repeat false m, fun _ _ => q0) s (repeat_length _ _) TO VM TL) as [_ R].
    rewrite R; [cbn; unfold q0; ring|]. intros t Ht. apply NI. apply in_seq in Ht. lia.
Qed.
Print Assumptions C60_two_sides.
(** But the mean and the jump are never assembled: trace_mat calls the function with one
    argument too many, and the function itself always raises since it asks for a map
    without mesh function *)
Theorem C60_two_refuted : forall (gdim : nat) (cell_mid trace_mid normal : nat -> vec) (facet_cells T_dofs V_dofs : nat -> list nat) (dof_value : nat -> nat -> nat -> nat -> Qc)
    (build : nat -> mesh_function -> list nat -> res entity_map) (nonconforming : res mat) (hdiv_trace : option nat) (tdofs : list (nat -> list nat)) (fdofs : list (nat -> nat)) (m n mesh_id fdim : nat) (dg compatible has_normal normal_dg0 : bool)
    (r : restriction) (tm : trace_mesh) (f : mesh_function) (tags : list nat) (num_cells : nat) (A : mat),
  r = Avg \/ r = Jump ->
  trace_mat gdim cell_mid trace_mid normal facet_cells T_dofs V_dofs dof_value build nonconforming hdiv_trace tdofs fdofs m n mesh_id fdim dg compatible has_normal normal_dg0 r tm f tags = Err (if compatible && has_normal then TypeError else AssertionError) /\
  trace_mat_two_restrict gdim cell_mid trace_mid normal facet_cells T_dofs V_dofs dof_value build m n mesh_id fdim r num_cells tm <> Ok A.
Proof.
  intros gdim cm tmid nm fc TD VD dv build nonc hd td fd m n mid fdim dg comp hn n0 r tm f tags num A R.
  assert (X : trace_mat_two_restrict gdim cm tmid nm fc TD VD dv build m n mid fdim r num tm <> Ok A).
  { unfold trace_mat_two_restrict, get_entity_map. cbn [build_map]. destruct (t_maps tm) as [maps|]; [|discriminate]. destruct (t_tagged tm) as [tagged|]; [|discriminate]. destruct (lookup mid maps) as [old|]; [|discriminate].
    unfold must_compute. destruct (filter _ tagged); discriminate. }
  split; [|exact X]. unfold trace_mat. destruct comp; [|reflexivity]. cbn [negb]. destruct R as [-> | ->]; destruct hn; reflexivity.
Qed.
Print Assumptions C60_two_refuted.

(** Injection of facet dofs: the trace dof is the dof of the facet, the other rows are
    zero *)
Theorem C60_facet_dofs : forall (m n : nat) (tdofs : list (nat -> list nat)) (fdofs : list (nat -> nat)) (mapping : list (nat * nat)) (cells : list nat) (A : mat),
  dlt_trace_mat m n tdofs fdofs mapping cells = Ok A ->
  (forall a b ta tb da db d, nth_error tdofs a = Some da -> nth_error tdofs b = Some db -> In ta cells -> In tb cells -> da ta = [d] -> db tb = [d] -> a = b /\ ta = tb) ->
  length tdofs = length fdofs /\
  (forall a da fa t u, nth_error tdofs a = Some da -> nth_error fdofs a = Some fa -> In t cells -> exists d f, da t = [d] /\ lookup t mapping = Some f /\ (d < m -> fa f < n -> vnth (mv A u) d = vnth u (fa f))) /\
  (forall i u, i < m -> (forall da t, In da tdofs -> In t cells -> ~ In i (da t)) -> vnth (mv A u) i = q0).
Proof.
  intros m n td fd mapping cells A E INJ. unfold dlt_trace_mat in E. destruct (length td =? length fd) eqn:L; [|discriminate]. apply Nat.eqb_eq in L. cbn [negb] in E.
  destruct (dlt_components (combine td fd) mapping cells (fun _ _ => q0)) as [E1|] eqn:D; cbn [bind] in E; [|discriminate]. injection E as <-. destruct (dlt_components_spec _ _ _ _ _ D) as [EX SP]. split; [exact L|]. split.
  - intros a da fa t u Ha Fa It. assert (IC : In (da, fa) (combine td fd)) by (apply (nth_error_In _ a); rewrite nth_error_combine, Ha, Fa; reflexivity). destruct (EX _ _ IC It) as (d & f & H1 & H2). cbn [fst] in H1. exists d, f. split; [exact H1|]. split; [exact H2|]. intros Ld Lf.
    rewrite vnth_mv by exact Ld. cbn [nc ent]. rewrite (sumn_single n (fa f)); [|exact Lf|].
    + destruct (SP d (fa f)) as [[_ Q]|[N _]]; [rewrite Q; unfold q1; ring|]. exfalso. apply N. exists (da, fa), t, f. auto.
    + intros j _ NJ. destruct (SP d j) as [[C _]|[_ Q]]; [|rewrite Q; unfold q0; ring]. exfalso. apply NJ. destruct C as ((db & fb) & tb & f' & C1 & C2 & C3 & C4 & ->). cbn [fst snd] in *.
      destruct (In_nth_error _ _ C1) as [b Hb]. rewrite nth_error_combine in Hb. destruct (nth_error td b) as [db'|] eqn:B1; [|discriminate]. destruct (nth_error fd b) as [fb'|] eqn:B2; [|discriminate]. injection Hb as -> ->.
      destruct (INJ a b t tb da db d Ha B1 It C2 H1 C3) as [-> ->]. congruence.
  - intros i u Li NI. rewrite vnth_mv by exact Li. cbn [nc ent]. apply sumn_zero. intros j _. destruct (SP i j) as [[C _]|[_ Q]]; [|rewrite Q; unfold q0; ring]. exfalso. destruct C as ((db & fb) & tb & f' & C1 & C2 & C3 & _). cbn [fst] in C3.
    apply in_combine_l in C1. apply (NI db tb C1 C2). rewrite C3. left. reflexivity.
Qed.
Print Assumptions C60_facet_dofs.
(** If the search for the facets fails for want of conformity the restricted trace is
    the non-conforming one.  The trace without restriction is not: the
    exception is raised in front of the statement that would handle it *)
Theorem C60_nonconforming_refuted : forall (gdim : nat) (cell_mid trace_mid normal : nat -> vec) (facet_cells T_dofs V_dofs : nat -> list nat) (dof_value : nat -> nat -> nat -> nat -> Qc)
    (build : nat -> mesh_function -> list nat -> res entity_map) (N : mat) (hdiv_trace : option nat) (tdofs : list (nat -> list nat)) (fdofs : list (nat -> nat)) (m n mesh_id fdim : nat) (dg : bool)
    (tm : trace_mesh) (f : mesh_function) (tags : list nat) (e : exn),
  (t_maps tm = None \/ t_tagged tm <> None) -> ~ knows_mesh tm mesh_id -> build mesh_id f tags = Err e -> e = AssertionError \/ e = IndexError ->
  let tr := trace_mat gdim cell_mid trace_mid normal facet_cells T_dofs V_dofs dof_value build (Ok N) hdiv_trace tdofs fdofs m n mesh_id fdim dg true true true in
  tr Plus tm f tags = Ok N /\ tr Minus tm f tags = Ok N /\ tr NoRestriction tm f tags = Err e.
Proof.
  intros gdim cm tmid nm fc TD VD dv build N hd td fd m n mid fdim dg tm f tags e H NK B HE tr.
  assert (G : get_entity_map build mid tm (Some f) (Some tags) = (tm, Err e)).
  { unfold get_entity_map. cbn [build_map]. rewrite B. destruct (t_maps tm) as [maps|] eqn:TM; [|reflexivity]. destruct (t_tagged tm) eqn:TT; [|destruct H; congruence]. destruct (lookup mid maps) as [em|] eqn:L; [|reflexivity]. exfalso. apply NK. exists maps, em. split; [exact TM|]. apply lookup_in, L. }
  unfold tr, trace_mat. cbn [negb]. unfold trace_mat_one_restrict, trace_mat_no_restrict. cbn [negb]. unfold conforming. rewrite G. destruct HE as [-> | ->]; auto.
Qed.
Print Assumptions C60_nonconforming_refuted.
(** The non-conforming trace is never what the trace without restriction returns *)
Theorem C60_no_fallback : forall (facet_cells T_dofs V_dofs : nat -> list nat) (dof_value : nat -> nat -> nat -> nat -> Qc)
    (build : nat -> mesh_function -> list nat -> res entity_map) (N N' : res mat) (hdiv_trace : option nat) (tdofs : list (nat -> list nat)) (fdofs : list (nat -> nat)) (m n mesh_id fdim : nat) (dg : bool)
    (tdim : nat) (image : nat -> nat -> nat -> nat) (tm : trace_mesh) (f : mesh_function) (tags : list nat),
  searches tdim image build -> right tdim image tm ->
  trace_mat_no_restrict facet_cells T_dofs V_dofs dof_value build N hdiv_trace tdofs fdofs m n mesh_id fdim dg tm f tags =
  trace_mat_no_restrict facet_cells T_dofs V_dofs dof_value build N' hdiv_trace tdofs fdofs m n mesh_id fdim dg tm f tags.
Proof.
  intros fc TD VD dv build N N' hd td fd m n mid fdim dg tdim image tm f tags SE RI. unfold trace_mat_no_restrict.
  destruct (get_entity_map build mid tm (Some f) (Some tags)) as [tm' [[]|e]] eqn:G; [|reflexivity]. unfold conforming.
  destruct (get_entity_map build mid tm' (Some f) (Some tags)) as [tm2 [[]|e]] eqn:G2; [reflexivity|]. rewrite (call_again tdim image build SE mid tm f tags tm' RI G e); [reflexivity|]. rewrite G2. reflexivity.
Qed.
Print Assumptions C60_no_fallback.
(** From the trace mesh to the matrix: if the facets are found and a restricted trace of
    a space that is not one of facet functions is returned, then it takes its values
    from the cells of the facets that are the images of the trace cells *)
Theorem C60_assembled : forall (gdim : nat) (cell_mid trace_mid normal : nat -> vec) (facet_cells T_dofs V_dofs : nat -> list nat) (dof_value : nat -> nat -> nat -> nat -> Qc)
    (build : nat -> mesh_function -> list nat -> res entity_map) (N : res mat) (tdofs : list (nat -> list nat)) (fdofs : list (nat -> nat)) (m n mesh_id fdim : nat) (dg : bool)
    (image : nat -> nat -> nat -> nat) (tm : trace_mesh) (f : mesh_function) (tags : list nat) (compatible has_normal normal_dg0 : bool) (r : restriction) (A : mat),
  searches fdim image build -> right fdim image tm -> snd (get_entity_map build mesh_id tm (Some f) (Some tags)) = Ok tt ->
  trace_mat gdim cell_mid trace_mid normal facet_cells T_dofs V_dofs dof_value build N None tdofs fdofs m n mesh_id fdim dg compatible has_normal normal_dg0 r tm f tags = Ok A ->
  let cells := concat (map (fun tag => filter (fun c => nth c (mf_values f) 0 =? tag) (seq 0 (length (mf_values f)))) tags) in
  dofs_ok m T_dofs cells -> (forall f, dofs_ok n V_dofs (facet_cells f)) -> (dg = true -> dofs_apart T_dofs cells) ->
  (forall t k i u, first_with T_dofs cells t k i -> exists c, In c (facet_cells (image mesh_id fdim t)) /\ vnth (mv A u) i = local_value u (V_dofs c) (dof_value t k c) /\
    (r = NoRestriction -> nth_error (facet_cells (image mesh_id fdim t)) 0 = Some c) /\
    (r = Plus -> (height gdim (normal t) (trace_mid t) (cell_mid c) < 0)%Qc) /\ (r = Minus -> ~ (height gdim (normal t) (trace_mid t) (cell_mid c) < 0)%Qc)) /\
  (forall i u, i < m -> (forall t, In t cells -> ~ In i (T_dofs t)) -> vnth (mv A u) i = q0).
Proof.
  intros gdim cm tmid nm fc TD VD dv build N td fd m n mid fdim dg image tm f tags comp hn n0 r A SE RI G E cells TO VO AP.
  assert (MP : forall tm0 tm1 mp t0 f0, right fdim image tm0 -> fst (get_entity_map build mid tm0 (Some f) (Some tags)) = tm1 -> the_mapping mid fdim tm1 = Ok mp -> lookup t0 mp = Some f0 -> f0 = image mid fdim t0).
  { intros tm0 tm1 mp t0 f0 R0 G0 M L. pose proof (proj1 (call_spec fdim image build SE mid tm0 (Some f) (Some tags) R0)) as R1. rewrite G0 in R1. apply (proj2 R1). unfold the_mapping in M. destruct (t_maps tm1) as [maps|] eqn:T1; [|discriminate]. cbn [opt_res bind] in M.
    destruct (lookup mid maps) as [em|] eqn:T2; [|discriminate]. cbn [opt_res bind] in M. destruct (lookup fdim em) as [d|] eqn:T3; [|discriminate]. cbn in M. injection M as ->. exists maps, em, mp. split; [exact T1|]. split; [apply lookup_in, T2|]. split; [apply lookup_in, T3|apply lookup_in, L]. }
  assert (ONE : forall plus, trace_mat_one_restrict gdim cm tmid nm fc TD VD dv build N None td fd m n mid fdim dg plus n0 tm f tags = Ok A ->
    (forall t k i u, first_with TD cells t k i -> exists c, In c (fc (image mid fdim t)) /\ vnth (mv A u) i = local_value u (VD c) (dv t k c) /\ (plus = true <-> (height gdim (nm t) (tmid t) (cm c) < 0)%Qc)) /\
    (forall i u, i < m -> (forall t, In t cells -> ~ In i (TD t)) -> vnth (mv A u) i = q0)).
  { intros plus H. unfold trace_mat_one_restrict in H. destruct n0; [|discriminate]. cbn [negb] in H. unfold conforming in H. destruct (get_entity_map build mid tm (Some f) (Some tags)) as [tm' o] eqn:GE. cbn [snd] in G. rewrite G in H.
    destruct (the_mapping mid fdim tm') as [mp|] eqn:TM; cbn [bind] in H; [|discriminate]. destruct (C60_partial gdim cm tmid nm fc TD VD dv m n plus dg mp _ A H TO VO AP) as [R R0]. split; [|exact R0]. intros t k i u FW. destruct (R t k i u FW) as (f0 & c & L & I & S & V).
    rewrite (MP tm tm' mp t f0 RI) in I; [|rewrite GE; reflexivity|exact TM|exact L]. exists c. auto. }
  unfold trace_mat in E. destruct comp; [|discriminate]. cbn [negb] in E. destruct r; try discriminate E; try (destruct hn; discriminate E).
  - unfold trace_mat_no_restrict in E. destruct (get_entity_map build mid tm (Some f) (Some tags)) as [tm' o] eqn:GE. cbn [snd] in G. rewrite G in E, GE. unfold conforming in E. destruct (get_entity_map build mid tm' (Some f) (Some tags)) as [tm2 o2] eqn:G2.
    destruct o2 as [[]|e2]. 2:{ exfalso. rewrite (call_again fdim image build SE mid tm f tags tm' RI GE e2) in E by (rewrite G2; reflexivity). discriminate E. }
    destruct (the_mapping mid fdim tm2) as [mp|] eqn:TM; cbn [bind] in E; [|discriminate]. unfold no_restrict in E.
    assert (R1 : right fdim image tm') by (pose proof (proj1 (call_spec fdim image build SE mid tm (Some f) (Some tags) RI)) as R1; rewrite GE in R1; exact R1).
    set (pick := fun t => match lookup t mp with None => 0 | Some f0 => nth 0 (fc f0) 0 end).
    assert (P : forall t, In t cells -> exists f0, lookup t mp = Some f0 /\ nth_error (fc f0) 0 = Some (pick t)).
    { intros t' Ht'. destruct (mapM (first_cell fc TD VD dv mp) (trace_cells (mf_values f) tags)) as [fs|] eqn:MC; [|discriminate E]. apply mapM_ok_forall in MC. change (trace_cells (mf_values f) tags) with cells in MC. clear -MC Ht'. induction MC as [|x y l ys Hxy MC IH]; [destruct Ht'|].
      destruct Ht' as [-> |Ht']; [|exact (IH Ht')]. unfold first_cell in Hxy. unfold pick. destruct (lookup t' mp) as [f0|]; [|discriminate]. exists f0. split; [reflexivity|]. cbn [opt_res bind] in Hxy. destruct (fc f0) as [|c l']; [discriminate|reflexivity]. }
    destruct (chosen_rows TD VD dv m n dg (first_cell fc TD VD dv mp) pick cells A) with (5 := E) as [R R0]; try assumption.
    + intros t' f' Ht' H. destruct (P t' Ht') as (f0 & L & Q). unfold first_cell in H. rewrite L in H. cbn [opt_res bind] in H. rewrite Q in H. cbn in H. injection H as <-. reflexivity.
    + intros c Hc. apply in_map_iff in Hc. destruct Hc as (t' & <- & Ht'). destruct (P t' Ht') as (f0 & L & Q). apply (VO f0). eapply nth_error_In. exact Q.
    + split; [|exact R0]. intros t k i u FW. assert (It : In t cells) by (destruct FW as (pre & post & -> & _); apply in_elt). destruct (P t It) as (f0 & L & Q). rewrite (MP tm' tm2 mp t f0 R1) in Q; [|rewrite G2; reflexivity|exact TM|exact L].
      exists (pick t). split; [eapply nth_error_In; exact Q|]. split; [apply R, FW|]. split; [intros _; exact Q|]. split; discriminate.
  - destruct hn; [|discriminate E]. cbn [negb] in E. destruct (ONE true E) as [O1 O0]. split; [|exact O0]. intros t k i u FW. destruct (O1 t k i u FW) as (c & I & V & S). exists c. split; [exact I|]. split; [exact V|]. split; [discriminate|]. split; [intros _; apply S; reflexivity|discriminate].
  - destruct hn; [|discriminate E]. cbn [negb] in E. destruct (ONE false E) as [O1 O0]. split; [|exact O0]. intros t k i u FW. destruct (O1 t k i u FW) as (c & I & V & S). exists c. split; [exact I|]. split; [exact V|]. split; [discriminate|]. split; [discriminate|]. intros _ X. apply S in X. discriminate X.
Qed.
Print Assumptions C60_assembled.

(** What is known after a request that has returned *)
Lemma request_known tdim image build mesh tm f tags tm' : searches tdim image build -> right tdim image tm -> get_entity_map build mesh tm (Some f) (Some tags) = (tm', Ok tt) ->
  exists mp, the_mapping mesh tdim tm' = Ok mp /\ forall c e, knows tm' mesh tdim c e -> lookup c mp = Some e.
Proof.
  intros SE RI E. pose proof (proj1 (call_spec tdim image build SE mesh tm (Some f) (Some tags) RI)) as RI'. rewrite E in RI'. cbn [fst] in RI'.
  assert (K : exists maps em, t_maps tm' = Some maps /\ In (mesh, em) maps).
  { unfold get_entity_map in E. destruct (t_maps tm) as [maps|] eqn:TM.
    - destruct RI as [W _]. destruct (W maps TM) as (D & _ & _). destruct (t_tagged tm) as [tagged|] eqn:TT; [|discriminate]. destruct (lookup mesh maps) as [old|] eqn:LM.
      + destruct (must_compute tagged tags (Some f) old) as [[|]|e2] eqn:MC; [| |discriminate].
        * destruct (build_map build mesh (Some f) tags) as [em|] eqn:BM; [|discriminate]. destruct (update_all (map fst old) old em) as [m' r]. injection E as <- ->. eexists. exists m'. split; [reflexivity|]. apply assign_in; auto.
        * injection E as <-. exists maps, old. split; [assumption|]. apply lookup_in, LM.
      + destruct (build_map build mesh (Some f) tags) as [em|] eqn:BM; [|discriminate]. injection E as <-. eexists. exists em. split; [reflexivity|]. apply assign_in; auto.
    - destruct (build_map build mesh (Some f) tags) as [em|] eqn:BM; [|discriminate]. assert (E' : tm' = TraceMesh (Some [(mesh, em)]) (Some tags)) by (destruct (t_tagged tm) as [[|]|]; congruence).
      rewrite E'. eexists. exists em. split; [reflexivity|]. left. reflexivity. }
  destruct K as (maps & em & K1 & K2). destruct RI' as [W _]. destruct (W maps K1) as (D & _ & MO). destruct (MO mesh em K2) as (DE & KE & DD). destruct (proj2 (KE tdim) (or_intror eq_refl)) as [mp Hmp].
  exists mp. unfold the_mapping. rewrite K1. cbn [opt_res bind]. rewrite (in_lookup _ _ _ D K2). cbn [opt_res bind]. rewrite (in_lookup _ _ _ DE Hmp). split; [reflexivity|].
  intros c e (maps' & em' & d' & X1 & X2 & X3 & X4). assert (maps' = maps) as -> by congruence. rewrite (dict_fun _ _ _ _ D X2 K2) in X3. rewrite (dict_fun _ _ _ _ DE X3 Hmp) in X4. apply in_lookup; [exact (DD _ _ Hmp)|exact X4].
Qed.
(** A request that has returned does so again. *)
Lemma request_again tdim image build mesh tm f tags tm' : searches tdim image build -> right tdim image tm -> mf_dim f = tdim -> get_entity_map build mesh tm (Some f) (Some tags) = (tm', Ok tt) ->
  exists tm2, get_entity_map build mesh tm' (Some f) (Some tags) = (tm2, Ok tt).
Proof.
  intros SE RI FD E. destruct (get_entity_map build mesh tm' (Some f) (Some tags)) as [tm2 [[]|e]] eqn:E2; [eauto|]. exfalso.
  assert (e = KeyError) as -> by (apply (call_again tdim image build SE mesh tm f tags tm' RI E); rewrite E2; reflexivity).
  destruct (request_known tdim image build mesh tm f tags tm' SE RI E) as (mp & M & _). unfold the_mapping in M.
  pose proof (proj1 (call_spec tdim image build SE mesh tm (Some f) (Some tags) RI)) as RI'. rewrite E in RI'. cbn [fst] in RI'.
  unfold get_entity_map in E2. destruct (t_maps tm') as [maps|] eqn:TM; [|discriminate M]. cbn [opt_res bind] in M. destruct (lookup mesh maps) as [em|] eqn:LM; [|discriminate M]. cbn [opt_res bind] in M.
  destruct RI' as [W _]. destruct (W maps TM) as (D & TG & MO). destruct (t_tagged tm') as [tagged|] eqn:TT; [|congruence]. cbn [build_map] in E2. destruct (must_compute tagged tags (Some f) em) as [[|]|e] eqn:MC.
  - destruct (build mesh f tags) as [em'|e] eqn:BM.
    + destruct (SE _ _ _ _ BM) as (MM & _). destruct (update_all (map fst em) em em') as [m' r] eqn:UA. destruct (update_map tdim em em' m' r (MO _ _ (lookup_in _ _ _ LM)) MM UA) as (-> & _). discriminate E2.
    + assert (e = KeyError) as -> by congruence. clear E2. unfold get_entity_map in E. cbn [build_map] in E. rewrite BM in E. destruct (t_maps tm) as [maps0|] eqn:TM0; [|discriminate].
      destruct (t_tagged tm) as [tagged0|] eqn:TT0; [|discriminate]. destruct (lookup mesh maps0) as [old|] eqn:LM0; [|discriminate]. destruct (must_compute tagged0 tags (Some f) old) as [[|]|] eqn:MC0; try discriminate. injection E as <-.
      rewrite TM0 in TM. injection TM as <-. rewrite LM0 in LM. injection LM as <-. rewrite TT0 in TT. injection TT as <-. rewrite MC0 in MC. discriminate MC.
  - discriminate E2.
  - injection E2 as _ ->. unfold must_compute in MC. destruct (filter _ tagged); [discriminate|]. rewrite FD in MC. destruct (lookup tdim em); [discriminate MC|discriminate M].
Qed.
(** The trace is assembled if the search returns and covers the cells with the tags (as in
    C61), and if each of their facets has a cell on the side that is asked for *)
Theorem C60_returns : forall (gdim : nat) (cell_mid trace_mid normal : nat -> vec) (facet_cells T_dofs V_dofs : nat -> list nat) (dof_value : nat -> nat -> nat -> nat -> Qc)
    (build : nat -> mesh_function -> list nat -> res entity_map) (N : res mat) (tdofs : list (nat -> list nat)) (fdofs : list (nat -> nat)) (m n mesh_id fdim : nat) (dg : bool)
    (image : nat -> nat -> nat -> nat) (tm : trace_mesh) (f : mesh_function) (tags : list nat) (has_normal normal_dg0 : bool) (r : restriction),
  searches fdim image build -> right fdim image tm -> mf_dim f = fdim -> snd (get_entity_map build mesh_id tm (Some f) (Some tags)) = Ok tt ->
  (t_maps tm = None \/ ~ knows_mesh tm mesh_id \/
   (forall tagged t c, t_tagged tm = Some tagged -> In t tagged -> ~ In t tags -> nth_error (mf_values f) c = Some t -> exists e, knows tm mesh_id fdim c e)) ->
  r = NoRestriction \/ ((r = Plus \/ r = Minus) /\ has_normal = true /\ normal_dg0 = true) ->
  (forall t tag, nth_error (mf_values f) t = Some tag -> In tag tags -> exists c, In c (facet_cells (image mesh_id fdim t)) /\
     (r = Plus -> (height gdim (normal t) (trace_mid t) (cell_mid c) < 0)%Qc) /\ (r = Minus -> ~ (height gdim (normal t) (trace_mid t) (cell_mid c) < 0)%Qc)) ->
  exists A, trace_mat gdim cell_mid trace_mid normal facet_cells T_dofs V_dofs dof_value build N None tdofs fdofs m n mesh_id fdim dg true has_normal normal_dg0 r tm f tags = Ok A /\ nr A = m /\ nc A = n.
Proof.
  intros gdim cm tmid nm fc TD VD dv build N td fd m n mid fdim dg image tm f tags hn n0 r SE RI FD G CV HR SD.
  destruct (get_entity_map build mid tm (Some f) (Some tags)) as [tm' o] eqn:GE. cbn [snd] in G. subst o.
  assert (CE : forall t, In t (trace_cells (mf_values f) tags) -> exists tag, nth_error (mf_values f) t = Some tag /\ In tag tags).
  { intros t Ht. unfold trace_cells in Ht. apply in_concat in Ht. destruct Ht as (l & Hl & Ht). apply in_map_iff in Hl. destruct Hl as (tag & <- & HT). exists tag. split; [|exact HT].
    unfold subset_iterator in Ht. apply filter_In in Ht. destruct Ht as [H1 H2]. apply in_seq in H1. apply Nat.eqb_eq in H2. rewrite <- H2. apply nth_error_nth'. lia. }
  assert (KN : forall t, In t (trace_cells (mf_values f) tags) -> knows tm' mid fdim t (image mid fdim t)).
  { intros t Ht. destruct (CE t Ht) as (tag & H1 & H2). exact (searched fdim image build SE mid tm f tags tm' RI FD GE CV t tag H1 H2). }
  assert (RI' : right fdim image tm') by (pose proof (proj1 (call_spec fdim image build SE mid tm (Some f) (Some tags) RI)) as RI'; rewrite GE in RI'; exact RI').
  assert (ALL : forall (choose : nat -> res fcell), (forall t, In t (trace_cells (mf_values f) tags) -> exists y, choose t = Ok y) ->
    exists A, (do fs <- mapM choose (trace_cells (mf_values f) tags); Ok (if dg then trace_dg m n fs else trace_cg m n fs)) = Ok A /\ nr A = m /\ nc A = n).
  { intros choose H. assert (E : exists fs, mapM choose (trace_cells (mf_values f) tags) = Ok fs).
    { clear -H. induction (trace_cells (mf_values f) tags) as [|t l IH]; [eexists; reflexivity|]. destruct (H t (or_introl eq_refl)) as [y Hy]. destruct IH as [ys Hys]; [intros; apply H; right; assumption|]. exists (y :: ys). rewrite mapM_cons, Hy. cbn [bind]. rewrite Hys. reflexivity. }
    destruct E as [fs ->]. cbn [bind]. eexists. split; [reflexivity|]. destruct dg; split; reflexivity. }
  unfold trace_mat. cbn [negb]. destruct HR as [-> |(HR & -> & ->)].
  - unfold trace_mat_no_restrict. rewrite GE. unfold conforming. destruct (request_again fdim image build mid tm f tags tm' SE RI FD GE) as [tm2 G2]. rewrite G2.
    destruct (request_known fdim image build mid tm' f tags tm2 SE RI' G2) as (mp & M & KM). rewrite M. cbn [bind]. unfold no_restrict. apply ALL. intros t Ht. unfold first_cell.
    pose proof (proj1 (proj2 (call_spec fdim image build SE mid tm' (Some f) (Some tags) RI')) _ _ _ _ (KN t Ht)) as K2. rewrite G2 in K2. rewrite (KM _ _ K2). cbn [opt_res bind].
    destruct (CE t Ht) as (tag & H1 & H2). destruct (SD t tag H1 H2) as (c & I & _). destruct (fc (image mid fdim t)) as [|c0 l]; [destruct I|]. cbn. eauto.
  - destruct (request_known fdim image build mid tm f tags tm' SE RI GE) as (mp & M & KM).
    assert (ONE : forall plus, (forall t tag, nth_error (mf_values f) t = Some tag -> In tag tags -> exists c, In c (fc (image mid fdim t)) /\ (plus = true <-> (height gdim (nm t) (tmid t) (cm c) < 0)%Qc)) ->
      exists A, trace_mat_one_restrict gdim cm tmid nm fc TD VD dv build N None td fd m n mid fdim dg plus true tm f tags = Ok A /\ nr A = m /\ nc A = n).
    { intros plus H. unfold trace_mat_one_restrict. cbn [negb]. unfold conforming. rewrite GE, M. cbn [bind]. unfold one_restrict. apply ALL. intros t Ht. unfold restricted_cell. rewrite (KM _ _ (KN t Ht)). cbn [opt_res bind].
      destruct (CE t Ht) as (tag & H1 & H2). destruct (H t tag H1 H2) as (c & I & S). destruct (pick_cell_find gdim cm tmid nm plus t _ c I S) as [c' ->]. cbn. eauto. }
    cbn [negb]. destruct HR as [-> | ->]; apply ONE; intros t tag H1 H2; destruct (SD t tag H1 H2) as (c & I & P & Q); exists c; (split; [exact I|]); split; auto; [discriminate|intros X; elim (Q eq_refl X)].
Qed.
Print Assumptions C60_returns.

(** Two triangles (0,0) (1,0) (0,1) and (0,0) (1,0) (0,-1) with midpoints (1/3,1/3) and (1/3,-1/3),
    their common facet with normal (0,1), functions constant on cells *)
Definition two_mid (c : nat) : vec := if c =? 0 then [(qz 1 / qz 3)%Qc; (qz 1 / qz 3)%Qc] else [(qz 1 / qz 3)%Qc; (- (qz 1 / qz 3))%Qc].
Definition two_one (dg plus : bool) : res mat := one_restrict 2 two_mid (fun _ => [(qz 1 / qz 2)%Qc; qz 0]) (fun _ => [qz 0; qz 1]) (fun _ => [0; 1]) (fun _ => [0]) (fun c => [c]) (fun _ _ _ _ => q1) 1 2 plus dg [(0, 5)] [0].
Example C60_case :
  (exists A, two_one true true = Ok A /\ to_rows A = [[q0; q1]]) /\ (exists A, two_one false true = Ok A /\ to_rows A = [[q0; q1]]) /\ (exists A, two_one true false = Ok A /\ to_rows A = [[q1; q0]]) /\
  dofs_ok 1 (fun _ => [0]) [0] /\ (forall f : nat, dofs_ok 2 (fun c => [c]) [0; 1]) /\ dofs_apart (fun _ => [0]) [0] /\ first_with (fun _ => [0]) [0] 0 0 0 /\
  midpoint_of 2 [[qz 0; qz 0]; [qz 1; qz 0]] [(qz 1 / qz 2)%Qc; qz 0] /\ midpoint_of 2 [[qz 0; qz 1]; [qz 0; qz 0]; [qz 1; qz 0]] (two_mid 0) /\ (0 < height 2 [qz 0; qz 1] [qz 0; qz 0] [qz 0; qz 1])%Qc /\
  (exists A, two_fill 2 two_mid (fun _ => [(qz 1 / qz 2)%Qc; qz 0]) (fun _ => [qz 0; qz 1]) (fun _ => [1; 0]) (fun _ => [0]) (fun c => [c]) (fun _ _ _ _ => q1) 1 2 Jump [(0, 5)] 1 = Ok A /\ to_rows A = [[q1; (- q1)%Qc]]) /\
  (exists A, dlt_trace_mat 2 9 [(fun t => [t])] [(fun f => f)] [(0, 5); (1, 7)] [0; 1] = Ok A /\ ent A 1 7 = q1 /\ ent A 1 5 = q0).
Proof.
  split; [|split; [|split; [|split; [|split; [|split; [|split; [|split; [|split; [|split; [|split]]]]]]]]]].
  - eexists. split; [vm_compute; reflexivity|]. vm_compute. reflexivity.
  - eexists. split; [vm_compute; reflexivity|]. vm_compute. reflexivity.
  - eexists. split; [vm_compute; reflexivity|]. vm_compute. reflexivity.
  - intros c _. split; [constructor; [intros []|constructor]|]. intros j [<- |[]]. lia.
  - intros _ c Hc. split; [constructor; [intros []|constructor]|]. intros j [<- |[]]. destruct Hc as [<- |[<- |[]]]; lia.
  - intros a b ta tb i Ha Hb _ _. destruct a as [|[|]], b as [|[|]]; try discriminate; reflexivity.
  - exists [], []. split; [reflexivity|]. split; [reflexivity|]. intros t' [].
  - intros [|[|k]] Hk; [apply Qc_is_canon; vm_compute; reflexivity..|lia].
  - intros [|[|k]] Hk; [apply Qc_is_canon; vm_compute; reflexivity..|lia].
  - vm_compute. reflexivity.
  - eexists. split; [vm_compute; reflexivity|]. vm_compute. reflexivity.
  - eexists. split; [vm_compute; reflexivity|]. split; vm_compute; reflexivity.
Qed.
(** The hypotheses of C60_assembled are met with the trace mesh of C61 *)
Example C60_assembled_case : searches 1 three_image three_search /\ right 1 three_image embedded_three /\ snd (get_entity_map three_search 8 embedded_three (Some three_values) (Some [1])) = Ok tt /\
  (exists A, trace_mat 2 two_mid (fun _ => [(qz 1 / qz 2)%Qc; qz 0]) (fun _ => [qz 0; qz 1]) (fun _ => [0; 1]) (fun t => [t]) (fun c => [c]) (fun _ _ _ _ => q1) three_search (Err RuntimeError) None [] [] 3 2 8 1 true true true true Plus embedded_three three_values [1] = Ok A /\ to_rows A = [[q0; q1]; [q0; q0]; [q0; q0]]) /\
  (exists A, trace_mat 2 two_mid (fun _ => [(qz 1 / qz 2)%Qc; qz 0]) (fun _ => [qz 0; qz 1]) (fun _ => [0; 1]) (fun t => [t]) (fun c => [c]) (fun _ _ _ _ => q1) three_search (Err RuntimeError) None [] [] 3 2 8 1 true true true true NoRestriction embedded_three three_values [1] = Ok A /\ to_rows A = [[q1; q0]; [q0; q0]; [q0; q0]]).
Proof.
  split; [exact three_searches|]. split; [exact embedded_three_right|]. split; [vm_compute; reflexivity|]. split; eexists; (split; [vm_compute; reflexivity|]); vm_compute; reflexivity.
Qed.
Example C60_returns_case r : r = NoRestriction \/ r = Plus \/ r = Minus ->
  exists A, trace_mat 2 two_mid (fun _ => [(qz 1 / qz 2)%Qc; qz 0]) (fun _ => [qz 0; qz 1]) (fun _ => [0; 1]) (fun t => [t]) (fun c => [c]) (fun _ _ _ _ => q1) three_search (Err RuntimeError) None [] [] 3 2 8 1 true true true true r embedded_three three_values [1] = Ok A /\ nr A = 3 /\ nc A = 2.
Proof.
  intros Hr. apply C60_returns with (image := three_image).
  - exact three_searches.
  - exact embedded_three_right.
  - reflexivity.
  - vm_compute. reflexivity.
  - right. left. intros (maps & em & E & H). injection E as <-. destruct H as [H|[]]. discriminate H.
  - destruct Hr as [-> |[-> | ->]]; auto.
  - intros t tag Ht _. destruct Hr as [-> |[-> | ->]]; [exists 0|exists 1|exists 0]; (split; [cbn; auto|]); split; intros E; try discriminate E; vm_compute; [reflexivity|intros X; discriminate X].
Qed.
