(** The reductions one by one: what each of them does to a function, when it
    does, and that the matrix of CoupledModel.v does it. *)
From Verif Require Import Base BaseProofs Mat MatProofs FillModel FillProofs AverageProofs FillProps EvalModel EvalProofs EvalProps.
From Verif Require Import EntityModel EntityProofs EntityProps RestrictModel RestrictProofs RestrictProps Trace31Model Trace31Proofs Trace31Props.
From Verif Require Import PatchModel PatchProofs PatchProps MeanModel MeanProofs MeanProps InjectModel UflModel ReducedModel CoupledModel.
Local Open Scope nat_scope.
Local Close Scope Q_scope.
Local Close Scope Qc_scope.
Local Arguments Nat.ltb : simpl never.
Local Arguments Nat.leb : simpl never.
Local Arguments Nat.eqb : simpl never.

(** ** Specification vocabulary *)

(** Dof [k] of the target on cell [c], of the function with coefficients [x]:
    by linearity of the dof over the basis functions of the cell. *)
Definition cell_dof (c : fcell) (k : nat) (x : vec) : Qc :=
  sumn (length (f_cols c)) (fun l => (vnth x (nth l (f_cols c) 0%nat) * f_val c l k)%Qc).
(** [y] has on every cell the dofs of the function [x] there, and is zero away from the cells. *)
Definition on_cells (cells : list fcell) (x y : vec) : Prop :=
  (forall c k i, In c cells -> nth_error (f_rows c) k = Some i -> vnth y i = cell_dof c k x) /\
  (forall i, (forall c, In c cells -> ~ In i (f_rows c)) -> vnth y i = q0).

(** Traces.  [image] are the facets of the mesh that the trace cells are. *)
Section TraceSpec.
Variable image : nat -> nat -> nat -> nat.
Variable s : trace_source.
Variable r : restriction.
Definition tagged (t : nat) : Prop := exists tag, In tag (tr_tags s) /\ nth_error (mf_values (tr_f s)) t = Some tag.
(** [c] is a cell at the trace cell [t], for '+' below of it, for '-' not *)
Definition at_facet (t c : nat) : Prop :=
  In c (tr_facet_cells s (image (tr_mesh_id s) (tr_fdim s) t)) /\
  match r with
  | Plus => (height (tr_gdim s) (tr_normal s t) (tr_trace_mid s t) (tr_cell_mid s c) < 0)%Qc
  | Minus => ~ (height (tr_gdim s) (tr_normal s t) (tr_trace_mid s t) (tr_cell_mid s c) < 0)%Qc
  | _ => True
  end.
(** [y] has on the tagged cells the dofs of the function [x] seen from the cells at them,
    and is zero elsewhere. *)
Definition trace_of (x y : vec) : Prop :=
  (forall t k i c, tagged t -> nth_error (tr_T_dofs s t) k = Some i -> at_facet t c -> vnth y i = local_value x (tr_V_dofs s c) (tr_dof_value s t k c)) /\
  (forall i, (forall t, tagged t -> ~ In i (tr_T_dofs s t)) -> vnth y i = q0).
(** Functions have one trace: it is the same from every cell at a facet, and where
    tagged cells share a dof.  In discontinuous spaces they share none. *)
Definition trace_fine (m n : nat) : Prop :=
  tr_hdiv s = None /\ (r = NoRestriction \/ ((r = Plus \/ r = Minus) /\ tr_has_normal s = true /\ tr_normal_dg0 s = true)) /\
  searches (tr_fdim s) image (tr_build s) /\ right (tr_fdim s) image (tr_mesh s) /\ mf_dim (tr_f s) = tr_fdim s /\
  snd (get_entity_map (tr_build s) (tr_mesh_id s) (tr_mesh s) (Some (tr_f s)) (Some (tr_tags s))) = Ok tt /\
  (t_maps (tr_mesh s) = None \/ ~ knows_mesh (tr_mesh s) (tr_mesh_id s) \/
   (forall ts t c, t_tagged (tr_mesh s) = Some ts -> In t ts -> ~ In t (tr_tags s) -> nth_error (mf_values (tr_f s)) c = Some t ->
      exists e, knows (tr_mesh s) (tr_mesh_id s) (tr_fdim s) c e)) /\
  NoDup (tr_tags s) /\
  (forall t, tagged t -> NoDup (tr_T_dofs s t) /\ forall i, In i (tr_T_dofs s t) -> i < m) /\
  (forall f c, In c (tr_facet_cells s f) -> NoDup (tr_V_dofs s c) /\ forall j, In j (tr_V_dofs s c) -> j < n) /\
  (forall t, tagged t -> exists c, at_facet t c) /\
  (tr_dg s = true -> forall t t' i, tagged t -> tagged t' -> In i (tr_T_dofs s t) -> In i (tr_T_dofs s t') -> t = t') /\
  (forall t t' k k' i c c' x, tagged t -> tagged t' -> nth_error (tr_T_dofs s t) k = Some i -> nth_error (tr_T_dofs s t') k' = Some i ->
     at_facet t c -> at_facet t' c' -> local_value x (tr_V_dofs s c) (tr_dof_value s t k c) = local_value x (tr_V_dofs s c') (tr_dof_value s t' k' c')).
End TraceSpec.

(** Averages over patches: cells with a colour; a vertex without a colour (0) has zero. *)
Definition patch_integral (cells : list pcell) (color : nat) (x : vec) : Qc :=
  qsum (map (fun c => qsum (map (fun dv => (vnth x (fst dv) * snd dv)%Qc) (pc_ints c))) (filter (fun c => pc_mark c =? color) cells)).
Definition patch_of (s : patch_source) (x y : vec) : Prop :=
  match p_cells s with
  | Some cells => forall i color, nth_error (p_ids s) i = Some color ->
      vnth y i = if color =? 0 then q0 else (patch_integral cells color x / patch_vol cells color)%Qc
  | None => forall i ds col, nth_error (p_sqdists s) i = Some ds -> nth_error ds col = Some q0 -> vnth y i = vnth x col
  end.
(** Coloured vertices have patches.  A given colouring is proper, has the colours
    of the vertices, and no colour is repeated.  Without patches every vertex is at one
    dof, and the others are away from it. *)
Definition patch_fine (s : patch_source) (m n : nat) : Prop :=
  match p_cells s with
  | Some cells => length (p_ids s) = m /\ (forall color, In color (p_ids s) -> color <> 0 -> exists c, In c cells /\ pc_mark c = color) /\
      match p_coloring s with
      | None => True
      | Some coloring => proper cells coloring (p_ids s) /\
          (forall i k color, color <> 0 -> nth_error (p_ids s) i = Some color -> nth_error (p_ids s) k = Some color -> i = k) /\
          (forall color, In color (p_ids s) -> (exists g, In (color, g) coloring) <-> color <> 0)
      end
  | None => length (p_sqdists s) = m /\
      forall ds, In ds (p_sqdists s) -> length ds = n /\ exists col, nth_error ds col = Some q0 /\ forall c d, nth_error ds c = Some d -> c <> col -> (q1 / qz (10 ^ 20) <= d)%Qc
  end.

(** Means: the integral with the weight over the domain of the measure. *)
Definition mean_of (s : mean_source) (x y : vec) : Prop :=
  exists a, integral (fun p => (MeanProofs.value (e_space s) x p * match e_weight s with Some w => w p | None => 1 end)%Qc)
              (match e_measure s with Some d => d | None => e_mesh s end) a /\ y = [a].

(** Point values, and derivatives along the tangent, of the function on the given cell. *)
Definition point_of (s : point_source) (x y : vec) : Prop :=
  exists v, o_x0 s = AtVertex v /\ y = [local_sum x (o_V_dofs s (o_cell s)) (fun l => nth l (o_basis s v (o_cell s)) q0)].
Definition gradient_of (s : point_source) (x y : vec) : Prop :=
  exists v, o_x0 s = AtVertex v /\
    y = [sumn (s_gdim (o_V s)) (fun k => (local_sum x (o_V_dofs s (o_cell s)) (fun l => nth (l * s_gdim (o_V s) + k) (o_derivatives s v (o_cell s)) q0) * vnth (tangent_at (o_tangent s) (o_cell s)) k)%Qc)].
(** Scalar discontinuous functions on lines, at a vertex of the given cell; the values
    (resp. derivatives) of the basis functions there are not all zero. *)
Definition point_fine (values : nat -> nat -> list Qc) (s : point_source) (m n : nat) : Prop :=
  m = 1 /\ s_family (o_TV s) = Real /\ s_shape (o_TV s) = [] /\ s_family (o_V s) = DiscontinuousLagrange /\ s_shape (o_V s) = [] /\ s_tdim (o_V s) = 1 /\
  s_meshid (o_V s) = s_meshid (o_TV s) /\ s_meshid (o_TV s) = o_trace_mesh s /\ o_TV_dofs s (o_cell s) = [0] /\
  (forall j, In j (o_V_dofs s (o_cell s)) -> j < n) /\ (forall v, length (o_basis s v (o_cell s)) = length (o_V_dofs s (o_cell s))) /\
  exists v, o_x0 s = AtVertex v /\ In (o_cell s) (o_collisions s v) /\ exists b, In b (values v (o_cell s)) /\ b <> q0.

(** Means over surfaces: the integral of the trace divided by the area. *)
Definition surface_of (image : nat -> nat -> nat -> nat) (s : surface_source) (x y : vec) : Prop :=
  exists z a, length z = s_dim (u_space s) /\ trace_of image (u_trace s) NoRestriction x z /\ integral (MeanProofs.value (u_space s) z) (u_cells s) a /\ y = [(a / size (u_cells s))%Qc].
Definition surface_fine (image : nat -> nat -> nat -> nat) (s : surface_source) (m n : nat) : Prop :=
  m = 1 /\ u_fits s = true /\ size (u_cells s) <> 0%Qc /\ trace_fine image (u_trace s) NoRestriction (s_dim (u_space s)) n.

(** Functions on lines, from the cells that contain them. *)
Section LineSpec.
Variables (parents : option (nat -> option nat)) (edge_cells : nat -> list nat) (collision : nat -> nat) (limit : nat).
Variables (basis : nat -> vec -> list Qc) (V_dofs : nat -> list nat) (size : nat) (contains : nat -> vec -> Prop) (phi : nat -> vec -> nat -> Qc).
Variable cells : list (nat * list (nat * vec)).
Definition line_of (x y : vec) : Prop := forall c r p k, In c cells -> In (r, p) (snd c) -> k < size -> vnth y (r + k) = value_at phi x p k.
Definition line_fine (m : nat) : Prop :=
  continuous_space contains phi basis V_dofs size /\ blocked size cells /\
  (forall c, In c cells -> exists t, located parents edge_cells collision limit (fst c) (Some t) /\ forall r p, In (r, p) (snd c) -> contains t p) /\
  (forall c r p, In c cells -> In (r, p) (snd c) -> r + size <= m) /\
  (forall i, i < m -> exists c r p k, In c cells /\ In (r, p) (snd c) /\ k < size /\ i = r + k).
End LineSpec.

(** ** Proofs *)

(** The matrix is there, has the sizes of the spaces and gives the reduction of a function. *)
Definition gives (M : res mat) (m n : nat) (P : vec -> vec -> Prop) : Prop :=
  exists T, M = Ok T /\ nr T = m /\ nc T = n /\ forall x y, length x = n -> (length y = m /\ P x y <-> y = mv T x).
Lemma gives_intro M m n (P : vec -> vec -> Prop) T : M = Ok T -> nr T = m -> nc T = n -> (forall x, length x = n -> P x (mv T x)) ->
  (forall x y z, length x = n -> length y = m -> length z = m -> P x y -> P x z -> y = z) -> gives M m n P.
Proof.
  intros E Hm Hn PT U. exists T. repeat (split; [assumption|]). intros x y Hx. split.
  - intros [L H]. apply (U x); auto. rewrite mv_length. assumption.
  - intros ->. split; [rewrite mv_length; assumption|auto].
Qed.

(** *** Traces *)
Section Trace.
Variable image : nat -> nat -> nat -> nat.
Variable s : trace_source.
Let cells := concat (map (fun tag => filter (fun c => nth c (mf_values (tr_f s)) 0 =? tag) (seq 0 (length (mf_values (tr_f s))))) (tr_tags s)).

Lemma tagged_cells t : In t cells <-> tagged s t.
Proof.
  unfold cells, tagged. rewrite in_concat. split.
  - intros (l & Hl & Ht). apply in_map_iff in Hl. destruct Hl as (tag & <- & Hg). apply filter_In in Ht. destruct Ht as [Ht E]. apply in_seq in Ht. apply Nat.eqb_eq in E.
    exists tag. split; [assumption|]. rewrite <- E. apply nth_error_nth'. lia.
  - intros (tag & Hg & E). eexists. split; [apply in_map; exact Hg|]. apply filter_In. split.
    + apply in_seq. split; [lia|]. apply nth_error_Some. rewrite E. discriminate.
    + apply Nat.eqb_eq. apply nth_error_nth. assumption.
Qed.
Lemma tagged_nodup : NoDup (tr_tags s) -> NoDup cells.
Proof.
  unfold cells. induction (tr_tags s) as [|g l IH]; intros ND; cbn [map concat]; [constructor|]. inversion ND as [|a b N1 N2]; subst.
  set (A := filter _ _). assert (NA : NoDup A) by (apply NoDup_filter, seq_NoDup).
  assert (D : forall t, In t A -> ~ In t (concat (map (fun tag => filter (fun c => nth c (mf_values (tr_f s)) 0 =? tag) (seq 0 (length (mf_values (tr_f s))))) l))).
  { intros t Ht H. apply in_concat in H. destruct H as (q & Hq & H). apply in_map_iff in Hq. destruct Hq as (g' & <- & Hg). apply filter_In in H. apply filter_In in Ht.
    destruct H as [_ H], Ht as [_ Ht]. apply Nat.eqb_eq in H, Ht. congruence. }
  revert NA D. generalize A as B. intros B. induction B as [|t B IHB]; intros NB D; [apply IH; assumption|]. inversion NB as [|a b M1 M2]; subst. cbn. constructor.
  - intros H. apply in_app_or in H. destruct H as [H|H]; [contradiction|]. apply (D t); [left; reflexivity|assumption].
  - apply IHB; [assumption|]. intros t' Ht'. apply D. right. assumption.
Qed.
Lemma first_tagged (dofs : nat -> list nat) l i t : In t l -> In i (dofs t) -> exists t0 k0, first_with dofs l t0 k0 i.
Proof.
  induction l as [|a l IH]; intros Ht Hi; [destruct Ht|]. destruct (in_dec Nat.eq_dec i (dofs a)) as [H|H].
  - destruct (In_nth_error _ _ H) as [k Hk]. exists a, k, [], l. split; [reflexivity|]. split; [assumption|]. intros t' [].
  - destruct Ht as [->|Ht]; [contradiction|]. destruct (IH Ht Hi) as (t0 & k0 & pre & post & -> & H1 & H2). exists t0, k0, (a :: pre), post.
    split; [reflexivity|]. split; [assumption|]. intros t' [<-|Ht']; auto.
Qed.

Lemma trace_unique r m (x y z : vec) : length y = m -> length z = m -> (forall t, tagged s t -> exists c, at_facet image s r t c) ->
  trace_of image s r x y -> trace_of image s r x z -> y = z.
Proof.
  intros Ly Lz C [Y1 Y2] [Z1 Z2]. apply vec_ext; [congruence|]. intros i _.
  destruct (existsb (fun t => if in_dec Nat.eq_dec i (tr_T_dofs s t) then true else false) cells) eqn:E.
  - apply existsb_exists in E. destruct E as (t & Ht & E). destruct (in_dec Nat.eq_dec i (tr_T_dofs s t)) as [H|]; [|discriminate].
    destruct (In_nth_error _ _ H) as [k Hk]. apply tagged_cells in Ht. destruct (C t Ht) as [c Hc]. rewrite (Y1 t k i c), (Z1 t k i c) by assumption. reflexivity.
  - assert (N : forall t, tagged s t -> ~ In i (tr_T_dofs s t)).
    { intros t Ht Hi. rewrite <- not_true_iff_false in E. apply E. apply existsb_exists. exists t. split; [apply tagged_cells; assumption|]. destruct (in_dec Nat.eq_dec i (tr_T_dofs s t)); [reflexivity|contradiction]. }
    rewrite Y2, Z2 by assumption. reflexivity.
Qed.

Lemma trace_mat_gives r m n : trace_fine image s r m n ->
  gives (trace_mat (tr_gdim s) (tr_cell_mid s) (tr_trace_mid s) (tr_normal s) (tr_facet_cells s) (tr_T_dofs s) (tr_V_dofs s) (tr_dof_value s) (tr_build s) (tr_nonconforming s)
    (tr_hdiv s) (tr_tdofs s) (tr_fdofs s) m n (tr_mesh_id s) (tr_fdim s) (tr_dg s) true (tr_has_normal s) (tr_normal_dg0 s) r (tr_mesh s) (tr_f s) (tr_tags s))
    m n (trace_of image s r).
Proof.
  intros (HD & RS & SE & RI & MD & GE & CV & ND & TD & VD & AC & AP & AG). rewrite HD.
  destruct (C60_returns (tr_gdim s) (tr_cell_mid s) (tr_trace_mid s) (tr_normal s) (tr_facet_cells s) (tr_T_dofs s) (tr_V_dofs s) (tr_dof_value s) (tr_build s) (tr_nonconforming s)
    (tr_tdofs s) (tr_fdofs s) m n (tr_mesh_id s) (tr_fdim s) (tr_dg s) image (tr_mesh s) (tr_f s) (tr_tags s) (tr_has_normal s) (tr_normal_dg0 s) r SE RI MD GE CV RS) as (A & E & Hm & Hn).
  { intros t tag Ht Hg. destruct (AC t) as (c & Hc & Hs); [exists tag; auto|]. exists c. split; [assumption|]. split; intros ->; assumption. }
  destruct (C60_assembled (tr_gdim s) (tr_cell_mid s) (tr_trace_mid s) (tr_normal s) (tr_facet_cells s) (tr_T_dofs s) (tr_V_dofs s) (tr_dof_value s) (tr_build s) (tr_nonconforming s)
    (tr_tdofs s) (tr_fdofs s) m n (tr_mesh_id s) (tr_fdim s) (tr_dg s) image (tr_mesh s) (tr_f s) (tr_tags s) true (tr_has_normal s) (tr_normal_dg0 s) r A SE RI GE E) as [R1 R2].
  - intros t Ht. apply TD. apply tagged_cells. assumption.
  - intros f c Hc. apply (VD f c Hc).
  - intros DG a b ta tb i Ha Hb Ia Ib. fold cells in Ha, Hb. apply (proj1 (NoDup_nth_error cells) (tagged_nodup ND)); [apply nth_error_Some; congruence|]. rewrite Ha, Hb. f_equal.
    apply (AP DG ta tb i); try assumption; apply tagged_cells; eapply nth_error_In; eassumption.
  - fold cells in R1, R2. apply gives_intro with (T := A); try assumption.
    + intros x _. split.
      * intros t k i c Ht Hk Hc. assert (Hi : In i (tr_T_dofs s t)) by (eapply nth_error_In; eassumption).
        destruct (first_tagged (tr_T_dofs s) cells i t) as (t0 & k0 & FW); [apply tagged_cells; assumption|assumption|].
        destruct (R1 t0 k0 i x FW) as (c0 & Hc0 & V0 & N0 & P0 & M0). rewrite V0.
        assert (Ht0 : tagged s t0) by (destruct FW as (pre & post & E0 & _); apply tagged_cells; rewrite E0; apply in_elt).
        apply (AG t0 t k0 k i c0 c x); try assumption; [destruct FW as (pre & post & _ & FW & _); exact FW|].
        split; [assumption|]. destruct r; auto.
      * intros i Hi. destruct (lt_dec i (nr A)) as [L|L].
        -- apply R2; [congruence|]. intros t Ht. apply Hi, tagged_cells, Ht.
        -- unfold vnth. apply nth_overflow. rewrite mv_length. lia.
    + intros x y z _ Ly Lz. apply (trace_unique r m); assumption.
Qed.
Lemma trace_matrix_gives m n : tr_compatible s = true -> trace_fine image s (tr_restriction s) m n -> gives (trace_matrix s m n) m n (trace_of image s (tr_restriction s)).
Proof. intros C F. unfold trace_matrix. rewrite C. apply trace_mat_gives. assumption. Qed.
Lemma plain_trace_gives m n : trace_fine image s NoRestriction m n -> gives (plain_trace_matrix s m n) m n (trace_of image s NoRestriction).
Proof. intros F. apply (trace_mat_gives NoRestriction m n F). Qed.
End Trace.

(** *** Cells *)
Lemma cell_dof_qsum c k x :
  cell_dof c k x = FillProofs.qsum (map (fun l => (f_val c l k * vnth x (nth l (f_cols c) 0%nat))%Qc) (seq 0 (length (f_cols c)))).
Proof.
  unfold cell_dof. generalize (length (f_cols c)) as n. induction n as [|n IH]; [reflexivity|].
  rewrite seq_S, map_app, FillProofs.qsum_app. cbn [map sumn FillProofs.qsum]. rewrite IH. cbn [Nat.add]. unfold q0. ring.
Qed.
Lemma first_of (cells : list fcell) c i : In c cells -> In i (f_rows c) ->
  exists pre c0 post, cells = pre ++ c0 :: post /\ In i (f_rows c0) /\ forall c', In c' pre -> ~ In i (f_rows c').
Proof.
  induction cells as [|b cells IH]; [intros []|]. intros Hc Hi.
  destruct (in_dec Nat.eq_dec i (f_rows b)) as [H|H].
  - exists [], b, cells. split; [reflexivity|]. split; [assumption|]. intros c' [].
  - destruct Hc as [->|Hc]; [contradiction|]. destruct (IH Hc Hi) as (pre & c0 & post & -> & H1 & H2).
    exists (b :: pre), c0, post. split; [reflexivity|]. split; [assumption|]. intros c' [<-|Hc']; auto.
Qed.

Lemma filled_on_cells m n cells A (x : vec) : Forall (dofmap_ok m n) cells -> cells_agree cells -> first_cell_rows m cells A -> nr A = m -> nc A = n ->
  on_cells cells x (mv A x).
Proof.
  intros F AG FC Hm Hn. split.
  - intros c k i Hc Hk. assert (Hi : In i (f_rows c)) by (eapply nth_error_In; eassumption).
    assert (D : dofmap_ok m n c) by (rewrite Forall_forall in F; auto).
    destruct (first_of cells c i Hc Hi) as (pre & c0 & post & E & H1 & H2).
    assert (R0 : computes_row c0 i (ent A i)) by (apply (proj1 FC pre c0 post); assumption).
    destruct (trace_cg_first m n [c] (Forall_cons _ D (Forall_nil _))) as [T1 _].
    pose proof (T1 [] c [] i eq_refl Hi ltac:(intros ? [])) as R1.
    assert (Hc0 : In c0 cells) by (rewrite E; apply in_or_app; right; left; reflexivity).
    pose proof (AG c0 c i _ _ Hc0 Hc R0 R1) as EQ.
    rewrite cell_dof_qsum. eapply computes_row_apply; [exact D|rewrite Hm; apply D, Hi|exact Hn|exact Hk|].
    destruct R1 as (k' & K1 & K2 & K3). exists k'. split; [assumption|]. split; [intros l j Hl; rewrite EQ; auto|intros j Hj; rewrite EQ; auto].
  - intros i Hi. destruct (lt_dec i (nr A)) as [L|L].
    + rewrite vnth_mv by assumption. apply sumn_zero. intros j _. rewrite (proj2 FC) by assumption. unfold q0. ring.
    + unfold vnth. apply nth_overflow. rewrite mv_length. lia.
Qed.

Lemma same_cell_agree m n c i row row' : dofmap_ok m n c -> computes_row c i row -> computes_row c i row' -> forall j, row j = row' j.
Proof.
  intros (NR & _) (k & K1 & K2 & K3) (k' & L1 & L2 & L3) j.
  assert (k = k') as <- by (apply (proj1 (NoDup_nth_error (f_rows c)) NR); [apply nth_error_Some; congruence|congruence]).
  destruct (in_dec Nat.eq_dec j (f_cols c)) as [H|H]; [|rewrite K3, L3 by assumption; reflexivity].
  destruct (In_nth_error _ _ H) as [l Hl]. rewrite (K2 l j Hl), (L2 l j Hl). reflexivity.
Qed.
Lemma disjoint_agree m n cells : Forall (dofmap_ok m n) cells -> disjoint_rows cells -> cells_agree cells.
Proof.
  intros F DJ c c' i row row' Hc Hc' R R'. rewrite Forall_forall in F.
  destruct (In_nth_error _ _ Hc) as [a Ha]. destruct (In_nth_error _ _ Hc') as [b Hb].
  assert (I1 : In i (f_rows c)) by (destruct R as (k & K & _); eapply nth_error_In; eassumption).
  assert (I2 : In i (f_rows c')) by (destruct R' as (k & K & _); eapply nth_error_In; eassumption).
  assert (a = b) as <- by (eapply DJ; eassumption). rewrite Ha in Hb. injection Hb as <-. eapply same_cell_agree; eauto.
Qed.

Lemma on_cells_unique cells x (y z : vec) : length y = length z -> on_cells cells x y -> on_cells cells x z -> y = z.
Proof.
  intros L [Y1 Y2] [Z1 Z2]. apply vec_ext; [assumption|]. intros i Hi.
  destruct (existsb (fun c => if in_dec Nat.eq_dec i (f_rows c) then true else false) cells) eqn:E.
  - apply existsb_exists in E. destruct E as (c & Hc & E). destruct (in_dec Nat.eq_dec i (f_rows c)) as [H|]; [|discriminate].
    destruct (In_nth_error _ _ H) as [k Hk]. rewrite (Y1 c k i Hc Hk), (Z1 c k i Hc Hk). reflexivity.
  - assert (N : forall c, In c cells -> ~ In i (f_rows c)).
    { intros c Hc Hi'. rewrite <- not_true_iff_false in E. apply E. apply existsb_exists. exists c. split; [assumption|].
      destruct (in_dec Nat.eq_dec i (f_rows c)); [reflexivity|contradiction]. }
    rewrite Y2, Z2 by assumption. reflexivity.
Qed.

Lemma cells_gives m n cells : Forall (dofmap_ok m n) cells -> cells_agree cells -> gives (Ok (restriction_fill m n cells)) m n (on_cells cells).
Proof.
  intros F AG. apply gives_intro with (T := restriction_fill m n cells); try reflexivity.
  - intros x _. apply (filled_on_cells m n); try assumption; try reflexivity. apply restriction_fill_first. assumption.
  - intros x y z _ Ly Lz. apply on_cells_unique. congruence.
Qed.

(** *** Patches *)
Lemma int_of_times n c x : length x = n -> sumn n (fun j => (int_of c j * vnth x j)%Qc) = qsum (map (fun dv => (vnth x (fst dv) * snd dv)%Qc) (pc_ints c)).
Proof.
  intros L. unfold int_of. induction (pc_ints c) as [|[d v] l IH]; cbn [map fst snd].
  - apply sumn_zero. intros. cbn. unfold q0. ring.
  - rewrite qsum_cons, <- IH. rewrite (sumn_ext n _ (fun j => ((if d =? j then v else q0) * vnth x j + qsum (map (fun dv : nat * Qc => if fst dv =? j then snd dv else q0) l) * vnth x j)%Qc)) by (intros; rewrite qsum_cons; ring).
    rewrite sumn_plus. f_equal. destruct (lt_dec d n) as [H|H].
    + rewrite (sumn_single n d); [|assumption|intros j Hj Ne; destruct (Nat.eqb_spec d j); [congruence|unfold q0; ring] ]. rewrite Nat.eqb_refl. ring.
    + rewrite sumn_zero; [unfold vnth; rewrite (nth_overflow x) by lia; unfold q0; ring|]. intros j Hj. destruct (Nat.eqb_spec d j); [lia|unfold q0; ring].
Qed.
Lemma patch_mean_times n cells color x : length x = n -> sumn n (fun j => (patch_mean cells color j * vnth x j)%Qc) = (patch_integral cells color x / patch_vol cells color)%Qc.
Proof.
  intros L. unfold patch_mean, patch_integral, Qcdiv. rewrite filter_qsum. unfold patch_int.
  rewrite (sumn_ext n _ (fun j => (/ patch_vol cells color * qsum (map (fun c => (if pc_mark c =? color then int_of c j else q0) * vnth x j) cells))%Qc)).
  - rewrite sumn_scal, sumn_qsum, Qcmult_comm. f_equal. apply qsum_ext. intros c _. destruct (pc_mark c =? color); [apply int_of_times; assumption|]. apply sumn_zero. intros. unfold q0. ring.
  - intros j _. rewrite (qsum_ext (fun c => ((if pc_mark c =? color then int_of c j else q0) * vnth x j)%Qc) (fun c => (vnth x j * (if pc_mark c =? color then int_of c j else q0))%Qc)) by (intros; ring). rewrite qsum_scal. ring.
Qed.
Lemma patch_avg_size m n cells coloring ids A : patch_avg m n cells coloring ids = Ok A -> nr A = m /\ nc A = n.
Proof.
  unfold patch_avg, coloring_matrix, plain_matrix. destruct coloring as [co|].
  - destruct (mapM _ _); [|discriminate]. intros E. injection E as <-. split; reflexivity.
  - destruct (mapM _ _); [|discriminate]. intros E. injection E as <-. split; reflexivity.
Qed.
Lemma dirac_exists m n sqdists : (forall ds, In ds sqdists -> In q0 ds) -> exists A, dirac_matrix m n sqdists = Ok A /\ nr A = m /\ nc A = n.
Proof.
  intros H. unfold dirac_matrix. destruct (mapM_total dirac_row (combine (seq 0 (length sqdists)) sqdists)) as [rows E].
  - intros [k ds] Hk. apply in_combine_r in Hk. specialize (H ds Hk). unfold dirac_row. cbn [fst snd]. destruct ds as [|x l]; [destruct H|].
    destruct (argmin_spec l 1 0 x ltac:(lia)) as (A & B & _). set (bc := argmin_from 1 0 x l) in *.
    assert (L : (snd bc <= q0)%Qc) by (destruct H as [->|H]; auto).
    replace (qltb (snd bc) _) with true; [eauto|]. symmetry. apply qltb_lt. eapply Qcle_lt_trans; [exact L|]. reflexivity.
  - rewrite E. eexists. split; [reflexivity|]. split; reflexivity.
Qed.

Lemma patch_gives s m n : patch_fine s m n -> gives (patch_matrix s m n) m n (patch_of s).
Proof.
  unfold patch_fine, patch_matrix, patch_of. destruct (p_cells s) as [cells|].
  - intros (LE & HP & HC).
    destruct (proj2 (C37_plain_exists m n cells (p_ids s)) HP) as [A EA]. pose proof (patch_avg_size _ _ _ _ _ _ EA) as [Am An].
    assert (X : exists B, patch_avg m n cells (p_coloring s) (p_ids s) = Ok B /\ nr B = m /\ nc B = n /\ forall i j, i < length (p_ids s) -> ent B i j = ent A i j).
    { destruct (p_coloring s) as [co|]; [|exists A; auto]. destruct HC as (PR & UQ & CO). destruct (C37_agree_partial m n cells co (p_ids s) PR UQ CO) as [X1 X2].
      destruct (proj1 X1 (ex_intro _ A EA)) as [B EB]. pose proof (patch_avg_size _ _ _ _ _ _ EB) as [Bm Bn]. exists B. repeat (split; [assumption|]). intros i j Hi. symmetry. apply X2; assumption. }
    destruct X as (B & EB & Bm & Bn & X). apply gives_intro with (T := B); try assumption.
    + intros x Lx i color Hi. assert (Li : i < length (p_ids s)) by (apply nth_error_Some; congruence). rewrite vnth_mv by lia. rewrite Bn.
      rewrite (sumn_ext n _ (fun j => ((if color =? 0 then q0 else patch_mean cells color j) * vnth x j)%Qc)) by (intros j _; rewrite X, (C37_plain m n cells (p_ids s) A i j color EA Hi) by assumption; reflexivity).
      destruct (color =? 0); [apply sumn_zero; intros; unfold q0; ring|]. apply patch_mean_times. assumption.
    + intros x y z _ Ly Lz Py Pz. apply vec_ext; [congruence|]. intros i Hi. destruct (nth_error (p_ids s) i) as [color|] eqn:E; [|apply nth_error_None in E; lia].
      rewrite (Py i color E), (Pz i color E). reflexivity.
  - intros (LE & HS). destruct (dirac_exists m n (p_sqdists s)) as (A & EA & Am & An).
    { intros ds Hd. destruct (HS ds Hd) as (_ & col & Hc & _). eapply nth_error_In. eassumption. }
    apply gives_intro with (T := A); try assumption.
    + intros x Lx i ds col Hi Hc. assert (Li : i < length (p_sqdists s)) by (apply nth_error_Some; congruence). rewrite vnth_mv by lia. rewrite An.
      destruct (HS ds (nth_error_In _ _ Hi)) as (Ld & col0 & H0 & H1).
      assert (U : forall c d, nth_error ds c = Some d -> (d < q1 / qz (10 ^ 20))%Qc -> c = col0).
      { intros c d Hcd Hd. destruct (Nat.eq_dec c col0) as [e|Ne]; [assumption|]. exfalso. eapply Qclt_not_le; [exact Hd|]. eapply H1; eassumption. }
      assert (EC : col = col0) by (apply (U col q0 Hc); reflexivity). subst col.
      assert (Lc : col0 < n) by (rewrite <- Ld; apply nth_error_Some; congruence).
      assert (ROW : forall j, ent A i j = if j =? col0 then q1 else q0).
      { intros j. destruct (C37_dirac m n (p_sqdists s) A i ds j EA Hi) as (c & d & H2 & H3 & _ & ->). rewrite (U c d H2 H3). reflexivity. }
      rewrite (sumn_single n col0); [|assumption|intros j Hj Ne; rewrite ROW; destruct (Nat.eqb_spec j col0); [congruence|unfold q0; ring] ].
      rewrite ROW, Nat.eqb_refl. unfold q1. ring.
    + intros x y z _ Ly Lz Py Pz. apply vec_ext; [congruence|]. intros i Hi. destruct (nth_error (p_sqdists s) i) as [ds|] eqn:E; [|apply nth_error_None in E; lia].
      destruct (HS ds (nth_error_In _ _ E)) as (_ & col & Hc & _). rewrite (Py i ds col E Hc), (Pz i ds col E Hc). reflexivity.
Qed.

(** *** Means *)
Lemma mean_gives s n : s_dim (e_space s) = n -> gives (Ok (mean_mat (e_space s) (e_mesh s) (e_weight s) (e_measure s))) 1 n (mean_of s).
Proof.
  intros L. apply gives_intro with (T := mean_mat (e_space s) (e_mesh s) (e_weight s) (e_measure s)); [reflexivity|reflexivity|exact L| |].
  - intros x _. eexists. split; [apply assembled_integral|]. apply C74_mean. apply assembled_integral.
  - intros x y z _ _ _ (a & Ha & ->) (b & Hb & ->). f_equal. eapply integral_fun; eassumption.
Qed.
Lemma surface_gives image s m n : surface_fine image s m n -> gives (surface_matrix s n) m n (surface_of image s).
Proof.
  intros (-> & FI & SZ & TF). destruct (plain_trace_gives image (u_trace s) _ _ TF) as (T & E & Tm & Tn & TT).
  unfold surface_matrix. rewrite FI, E. cbn [bind]. apply gives_intro with (T := surface_mean_matrix (u_space s) (u_cells s) T); [reflexivity|reflexivity|exact Tn| |].
  - intros x Lx. destruct (proj2 (TT x (mv T x) Lx) eq_refl) as [L1 L2]. exists (mv T x), (assembled (u_cells s) (MeanProofs.value (u_space s) (mv T x))).
    split; [assumption|]. split; [assumption|]. split; [apply assembled_integral|].
    destruct (mv (surface_mean_matrix (u_space s) (u_cells s) T) x) as [|b [|b' l] ] eqn:EV;
      pose proof (f_equal (@length Qc) EV) as LV; rewrite mv_length in LV; try discriminate LV. f_equal.
    rewrite <- (C74_surface (u_space s) (u_cells s) T x _ b Tm SZ (assembled_integral _ _) EV). field. exact SZ.
  - intros x y z Lx _ _ (t & a & Lt & Ht & Ha & ->) (t' & b & Lt' & Ht' & Hb & ->).
    assert (Et : t = mv T x) by (apply TT; auto). assert (Et' : t' = mv T x) by (apply TT; auto). subst t t'. f_equal. f_equal. eapply integral_fun; eassumption.
Qed.

(** *** Points *)
Lemma row_vec A x n a : nr A = 1 -> row_times A x 0 = a -> nc A = n -> mv A x = [a].
Proof.
  intros Hm <- Hn. apply vec_ext; [rewrite mv_length; assumption|]. intros i Hi. rewrite mv_length, Hm in Hi. replace i with 0 by lia. rewrite vnth_mv by lia. reflexivity.
Qed.
Lemma point_gives s m n : point_fine (o_basis s) s m n -> gives (point_matrix s m n) m n (point_of s).
Proof.
  intros (-> & F1 & F2 & F3 & F4 & F5 & F6 & F7 & TD & VD & LB & v & X0 & CO & b & B1 & B2).
  destruct (proj2 (C58_point_accepted (o_V s) (o_TV s) (o_trace_mesh s) (o_collisions s) (o_V_dofs s) (o_TV_dofs s) (o_basis s) 1 n (o_first s) (o_limit s) (o_x0 s) (o_cell s))) as [A E].
  { repeat (split; [assumption|]). exists v, 0. repeat (split; [assumption|]). exists b. auto. }
  assert (SP : forall x, length x = n -> mv A x = [local_sum x (o_V_dofs s (o_cell s)) (fun l => nth l (o_basis s v (o_cell s)) q0)] /\ nr A = 1 /\ nc A = n).
  { intros x Lx. rewrite <- Lx in E.
    destruct (C58_point_partial (o_V s) (o_TV s) (o_trace_mesh s) (o_collisions s) (o_V_dofs s) (o_TV_dofs s) (o_basis s) 1 x (o_first s) (o_limit s) (o_x0 s) (o_cell s) A E) as (v' & row & V1 & V2 & V3 & V4 & V5).
    - intros v'. apply LB.
    - intros j Hj. rewrite Lx. apply VD. assumption.
    - rewrite X0 in V1. injection V1 as <-. rewrite TD in V3. injection V3 as <-. destruct V4 as (D1 & D2 & _). split; [|split; congruence]. apply (row_vec A x n); [assumption|apply V5; lia|congruence]. }
  assert (D : nr A = 1 /\ nc A = n) by (destruct (SP (repeat q0 n) (repeat_length _ _)); assumption).
  apply gives_intro with (T := A); try apply D; [exact E| |].
  - intros x Lx. exists v. split; [assumption|]. apply SP. assumption.
  - intros x y z _ _ _ (v1 & E1 & ->) (v2 & E2 & ->). rewrite E1 in E2. injection E2 as <-. reflexivity.
Qed.
Lemma gradient_gives s m n : point_fine (o_derivatives s) s m n -> gives (gradient_matrix s m n) m n (gradient_of s).
Proof.
  intros (-> & F1 & F2 & F3 & F4 & F5 & F6 & F7 & TD & VD & _ & v & X0 & CO & b & B1 & B2).
  destruct (proj2 (C58_gradient_accepted (o_V s) (o_TV s) (o_trace_mesh s) (o_collisions s) (o_V_dofs s) (o_TV_dofs s) (o_derivatives s) 1 n (o_x0 s) (o_cell s) (o_tangent s))) as [A E].
  { repeat (split; [assumption|]). exists v, 0. repeat (split; [assumption|]). exists b. auto. }
  set (val := fun x : vec => sumn (s_gdim (o_V s)) (fun k => (local_sum x (o_V_dofs s (o_cell s)) (fun l => nth (l * s_gdim (o_V s) + k) (o_derivatives s v (o_cell s)) q0) * vnth (tangent_at (o_tangent s) (o_cell s)) k)%Qc)).
  assert (SP : forall x, length x = n -> mv A x = [val x] /\ nr A = 1 /\ nc A = n).
  { intros x Lx. rewrite <- Lx in E.
    destruct (C58_gradient (o_V s) (o_TV s) (o_trace_mesh s) (o_collisions s) (o_V_dofs s) (o_TV_dofs s) (o_derivatives s) 1 x (o_x0 s) (o_cell s) (o_tangent s) A E) as (v' & row & V1 & V2 & V3 & V4 & V5).
    - intros j Hj. rewrite Lx. apply VD. assumption.
    - rewrite X0 in V1. injection V1 as <-. rewrite TD in V3. injection V3 as <-. destruct V4 as (D1 & D2 & _). split; [|split; congruence]. apply (row_vec A x n); [assumption|apply V5; lia|congruence]. }
  assert (D : nr A = 1 /\ nc A = n) by (destruct (SP (repeat q0 n) (repeat_length _ _)); assumption).
  apply gives_intro with (T := A); try apply D; [exact E| |].
  - intros x Lx. exists v. split; [assumption|]. apply SP. assumption.
  - intros x y z _ _ _ (v1 & E1 & ->) (v2 & E2 & ->). rewrite E1 in E2. injection E2 as <-. reflexivity.
Qed.

(** *** Lines *)
Lemma line_gives parents edge_cells collision limit basis V_dofs size contains phi cells m n :
  line_fine parents edge_cells collision limit basis V_dofs size contains phi cells m ->
  gives (trace_3d1d_matrix parents edge_cells collision limit basis V_dofs size m n cells) m n (line_of size phi cells).
Proof.
  intros (CS & BL & LO & RW & CV).
  assert (FI : Forall (found_inside parents edge_cells collision limit contains) cells).
  { apply Forall_forall. intros c Hc. right. apply LO. assumption. }
  destruct (Trace31Props.result parents edge_cells collision limit basis V_dofs size contains phi cells CS BL m n FI) as (A & E & Am & An & _).
  apply gives_intro with (T := A); try assumption.
  - intros x Lx c r p k Hc Hr Hk. rewrite <- Lx in E.
    destruct (C83_trace_partial parents edge_cells collision limit basis V_dofs size contains phi cells CS BL m x FI) as (B & EB & HB). rewrite E in EB. injection EB as <-.
    apply (HB c r p k); try assumption; [destruct (LO c Hc) as (t & Ht & _); exists t; assumption|]. specialize (RW c r p Hc Hr). lia.
  - intros x y z _ Ly Lz Py Pz. apply vec_ext; [congruence|]. intros i Hi. rewrite Ly in Hi. destruct (CV i Hi) as (c & r & p & k & H1 & H2 & H3 & ->).
    rewrite (Py c r p k), (Pz c r p k) by assumption. reflexivity.
Qed.
