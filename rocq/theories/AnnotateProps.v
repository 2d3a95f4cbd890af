(** C72: marking a function for a reduction gives a marked copy and leaves
    the function as it is. *)
From Verif Require Import Base ElementModel ElementProofs AnnotateModel AnnotateProofs.
From Coq Require Import Sorting.Sorted.

(** takes an equation between a chain of tests and [Ok] apart *)
Ltac chain H :=
  repeat match type of H with
  | bind ?e _ = Ok _ => let E := fresh "E" in destruct e eqn:E; cbn [bind] in H; [| discriminate H]
  | (if ?b then _ else _) = Ok _ => match type of b with bool => idtac end; let E := fresh "E" in destruct b eqn:E; try discriminate H
  end.

Definition trace_marks (m : mesh) : list nat := match m_marks m with Some l => l | None => repeat 0 (m_ncells m) end.

(** Trace: the copy carries the asked kind of restriction, the mesh, the
    normal, the markers of the mesh (zeros if it has none) and the asked tags
    or else all markers, sorted. *)
Theorem C72_trace st v mm type normal tag st' r :
  Trace st v mm type normal tag = Ok (st', r) ->
  exists m tags, nth_error (meshes st) mm = Some m /\
    copied st v (MTrace type mm normal (trace_marks m) tags) st' r /\ StronglySorted lt tags /\
    forall t, In t tags <-> In t (match tag with Some l => l | None => trace_marks m end).
Proof.
  unfold Trace. intros H. chain H. rename E into Eo. apply opt_res_ok in E0. unfold get in Eo. apply opt_res_ok in Eo.
  exists a0. destruct tag as [tags |].
  - unfold trace_marks. destruct (m_marks a0) as [marks |]; [| discriminate H].
    destruct (forallb (fun t => mem t marks) tags); [| discriminate H]. exists (unique tags). split; [exact E0 |].
    split; [exact (copy_ok st v a _ st' r Eo H) |]. split; [apply unique_sorted | intros t; apply unique_In].
  - exists (unique (trace_marks a0)). split; [exact E0 |].
    split; [exact (copy_ok st v a _ st' r Eo H) |]. split; [apply unique_sorted | intros t; apply unique_In].
Qed.
Print Assumptions C72_trace.

(** It is accepted exactly on meshes of facets, for the five kinds, and tags
    that are in the markers of the mesh. *)
Theorem C72_trace_accepts st v c V mm m type normal tag :
  reducible st v c V -> nth_error (meshes st) mm = Some m ->
  ((exists st' r, Trace st v mm type normal tag = Ok (st', r)) <->
   (facet c (m_cell m) /\ type < 5 /\
    (tag = None \/ exists tags marks, tag = Some tags /\ m_marks m = Some marks /\ incl tags marks))).
Proof.
  intros Hv Hm. destruct (reducible_get st v c V Hv) as (o & Eo & Ho & Et & Es & Ec).
  unfold Trace, get_mesh. rewrite Eo, Hm. cbn [bind opt_res]. rewrite Et, Ec. cbn [negb bind].
  destruct (trace_cell c) as [tc | x] eqn:Etc; cbn [bind].
  2: { split; [intros (? & ? & E); discriminate E |]. intros (F & _). apply facet_trace in F. rewrite F in Etc. discriminate Etc. }
  assert (Hfac : facet c (m_cell m) <-> cell_eqb tc (m_cell m) = true).
  { rewrite facet_trace, Etc, cell_eqb_eq. split; [intros E; injection E as E; exact E | intros ->; reflexivity]. }
  rewrite Hfac. destruct (cell_eqb tc (m_cell m)); cbn [negb].
  2: { split; [intros (? & ? & E); discriminate E | intros (E & _); discriminate E]. }
  rewrite <- (Nat.ltb_lt type 5). destruct (type <? 5); cbn [negb].
  2: { split; [intros (? & ? & E); discriminate E | intros (_ & E & _); discriminate E]. }
  destruct tag as [tags |].
  - destruct (m_marks m) as [marks |].
    + destruct (forallb (fun t => mem t marks) tags) eqn:Ef.
      * split; [| intros _; exact (copy_total st v c V _ o Hv Ho)]. intros _. split; [reflexivity |]. split; [reflexivity |].
        right. exists tags, marks. split; [reflexivity |]. split; [reflexivity |]. intros t Ht.
        rewrite forallb_forall in Ef. apply mem_In. exact (Ef t Ht).
      * split; [intros (? & ? & E); discriminate E |]. intros (_ & _ & [E | (tags' & marks' & E1 & E2 & Hi)]); [discriminate E |].
        injection E1 as <-. injection E2 as <-. exfalso. assert (T : forallb (fun t => mem t marks) tags = true).
        { apply forallb_forall. intros t Ht. apply mem_In. exact (Hi t Ht). } rewrite T in Ef. discriminate Ef.
    + split; [intros (? & ? & E); discriminate E |]. intros (_ & _ & [E | (tags' & marks' & E1 & E2 & Hi)]); discriminate.
  - split; [| intros _; exact (copy_total st v c V _ o Hv Ho)]. intros _. split; [reflexivity |]. split; [reflexivity | left; reflexivity].
Qed.
Print Assumptions C72_trace_accepts.

(** A test function and a Function over tetrahedra, a mesh of facets with
    markers, a mesh of lines that was cut out of the first mesh. *)
Definition tets := Cell Tetrahedron 3.
Definition tris := Cell Triangle 3.
Definition lines := Cell Interval 3.
Definition P1 := Space (FE Lagrange tets 1) 0.
Definition st0 := State [Obj (Argument 0 P1) []; Obj (Function P1 7) [MRestriction 0]]
  [Mesh tets 6 None None None (Some [0; 0; 1; 1]); Mesh tris 3 (Some [4; 2; 4]) (Some [0]) (Some [(0, [5; 8; 9])]) None;
   Mesh lines 2 None (Some [0]) (Some [(0, [1; 2])]) None].
Example C72_trace_ex :
  reducible st0 0 tets P1 /\
  Trace st0 0 1 2 (Some 3) None = Ok (State (heap st0 ++ [Obj (Argument 0 P1) [MTrace 2 1 (Some 3) [4; 2; 4] [2; 4]]]) (meshes st0), 2) /\
  Trace st0 0 1 2 (Some 3) (Some [3]) = Err AssertionError /\ Trace st0 0 2 0 None None = Err AssertionError.
Proof.
  split; [| repeat split]. exists (Obj (Argument 0 P1) []). split; [reflexivity |]. split; [reflexivity |]. left. reflexivity.
Qed.

(** Averages.  A line average without a shape over the edges of a mesh is
    defined for continuous functions only. *)
Theorem C72_average st v lm shape st' r :
  Average st v lm shape = Ok (st', r) -> copied st v (MAverage lm shape) st' r.
Proof.
  unfold Average. intros H. chain H. unfold get in E. apply opt_res_ok in E.
  destruct shape as [sh |]; [exact (copy_ok st v a _ st' r E H) |].
  destruct (m_maps a0); [| exact (copy_ok st v a _ st' r E H)].
  destruct (e_family (s_elem a3)); try discriminate H. exact (copy_ok st v a _ st' r E H).
Qed.
Print Assumptions C72_average.
Theorem C72_average_accepts st v c V lm m shape :
  reducible st v c V -> nth_error (meshes st) lm = Some m ->
  ((exists st' r, Average st v lm shape = Ok (st', r)) <->
   (c_name c = Tetrahedron /\ m_cell m = Cell Interval (c_gdim c) /\ (shape = None -> m_maps m <> None -> e_family (s_elem V) = Lagrange))).
Proof.
  intros Hv Hm. destruct (reducible_get st v c V Hv) as (o & Eo & Ho & Et & Es & Ec).
  unfold Average, get_mesh. rewrite Eo, Hm. cbn [bind opt_res]. rewrite Et, Ec. cbn [negb bind]. rewrite Es. cbn [bind].
  unfold average_cell. destruct (c_name c) eqn:En; cbn [bind];
    try (split; [intros (? & ? & E); discriminate E | intros (E & _); discriminate E]).
  destruct (cell_eqb (Cell Interval (c_gdim c)) (m_cell m)) eqn:Em; cbn [negb].
  2: { split; [intros (? & ? & E); discriminate E |]. intros (_ & E & _). rewrite E, cell_eqb_refl in Em. discriminate Em. }
  apply cell_eqb_eq in Em. pose proof (copy_total st v c V (MAverage lm shape) o Hv Ho) as Hc.
  destruct shape as [sh |]; [split; [intros _ | intros _; exact Hc]; split; [reflexivity |]; split; [symmetry; exact Em | discriminate] |].
  destruct (m_maps m) as [maps |]; [| split; [intros _ | intros _; exact Hc]; split; [reflexivity |]; split; [symmetry; exact Em | intros _ N; destruct (N eq_refl)]].
  destruct (e_family (s_elem V)) eqn:Ef;
    try (split; [intros (? & ? & E); discriminate E | intros (_ & _ & E); assert (N : Some maps <> None) by discriminate; specialize (E eq_refl N); discriminate E]).
  split; [intros _ | intros _; exact Hc]. split; [reflexivity |]. split; [symmetry; exact Em | reflexivity].
Qed.
Print Assumptions C72_average_accepts.
Example C72_average_ex :
  Average st0 1 2 None = Ok (State (heap st0 ++ [Obj (Function P1 7) [MAverage 2 None]]) (meshes st0), 2) /\
  Average st0 1 1 None = Err AssertionError.
Proof. split; reflexivity. Qed.

(** Restrictions. *)
Theorem C72_restriction st v mm st' r : Restriction st v mm = Ok (st', r) -> copied st v (MRestriction mm) st' r.
Proof. unfold Restriction. intros H. chain H. unfold get in E. apply opt_res_ok in E. exact (copy_ok st v a _ st' r E H). Qed.
Print Assumptions C72_restriction.
Theorem C72_restriction_accepts st v c V mm m :
  reducible st v c V -> nth_error (meshes st) mm = Some m ->
  ((exists st' r, Restriction st v mm = Ok (st', r)) <-> m_cell m = c).
Proof.
  intros Hv Hm. destruct (reducible_get st v c V Hv) as (o & Eo & Ho & Et & Es & Ec).
  unfold Restriction, get_mesh. rewrite Eo, Hm. cbn [bind opt_res]. rewrite Et. cbn [negb].
  assert (G : same_cell o m = Ok (cell_eqb c (m_cell m))).
  { unfold same_cell. rewrite Ec. unfold space_of in Es. destruct (o_sort o); try reflexivity; discriminate Es. }
  rewrite G. cbn [bind]. destruct (cell_eqb c (m_cell m)) eqn:Em; cbn [negb].
  - apply cell_eqb_eq in Em. split; [intros _; symmetry; exact Em | intros _; exact (copy_total st v c V _ o Hv Ho)].
  - split; [intros (? & ? & E); discriminate E |]. intros E. rewrite E, cell_eqb_refl in Em. discriminate Em.
Qed.
Print Assumptions C72_restriction_accepts.
Example C72_restriction_ex :
  Restriction st0 0 0 = Ok (State (heap st0 ++ [Obj (Argument 0 P1) [MRestriction 0]]) (meshes st0), 2) /\ Restriction st0 0 1 = Err AssertionError.
Proof. split; reflexivity. Qed.

(** Transposed traces, patch averages, extensions and means. *)
Theorem C72_others st v st' r :
  (forall tm full, TransposeTrace st v tm full = Ok (st', r) ->
     exists m f maps, nth_error (meshes st) tm = Some m /\ m_maps m = Some maps /\ In f (map fst maps) /\
       (full = Some f \/ full = None /\ m_parents m = Some [f]) /\ copied st v (MTranspose tm f) st' r) /\
  (forall vf Vg pf col, CellPatchAverage st v vf Vg pf col = Ok (st', r) ->
     exists p, copied st v (MPatch vf p col) st' r /\ p = match pf with None => 0 | Some (id, _, _) => S id end) /\
  (forall em type data, Extension st v em type data = Ok (st', r) -> copied st v (MExtension type em data) st' r) /\
  (forall w dx, Mean st v w dx = Ok (st', r) -> copied st v (MMean w dx) st' r) /\
  (forall mm, SurfaceMean st v mm = Ok (st', r) -> copied st v (MSurface mm) st' r).
Proof.
  split; [| split; [| split; [| split]]].
  - intros tm full H. unfold TransposeTrace in H. chain H. unfold get in E. apply opt_res_ok in E. apply opt_res_ok in E0.
    destruct (m_maps a0) as [maps |] eqn:Emaps; [| discriminate H]. chain H. rename a1 into f.
    exists a0, f, maps. split; [exact E0 |]. split; [exact Emaps |]. split.
    + unfold key_in in E3. apply existsb_exists in E3. destruct E3 as (p & Hp & E3). apply Nat.eqb_eq in E3. subst f. apply in_map. exact Hp.
    + split; [| exact (copy_ok st v a _ st' r E H)]. destruct full as [f' |]; [left; injection E2 as ->; reflexivity |].
      right. split; [reflexivity |]. destruct (m_parents a0) as [[| f' [| f'' l]] |]; try discriminate E2. injection E2 as ->. reflexivity.
  - intros vf Vg pf col H. unfold CellPatchAverage in H. chain H. unfold get in E. apply opt_res_ok in E.
    destruct (o_sort a) as [n V | V x | |] eqn:Eso; try discriminate H; chain H;
      (match goal with Hp : match pf with Some _ => _ | None => _ end = Ok ?p |- _ => exists p; split; [exact (copy_ok st v a _ st' r E H) |];
         destruct pf as [[[id omega] dim] |]; [| injection Hp as ->; reflexivity]; chain Hp; injection Hp as ->; reflexivity end).
  - intros em type data H. unfold Extension in H. chain H. unfold get in E. apply opt_res_ok in E. exact (copy_ok st v a _ st' r E H).
  - intros w dx H. unfold Mean in H. chain H. unfold get in E. apply opt_res_ok in E. exact (copy_ok st v a _ st' r E H).
  - intros mm H. unfold SurfaceMean in H. chain H. unfold get in E. apply opt_res_ok in E. exact (copy_ok st v a _ st' r E H).
Qed.
Print Assumptions C72_others.
Definition L1 := Space (FE DiscLagrange lines 1) 2.
Definition st1 := State [Obj (Function L1 0) []; Obj (Argument 1 L1) []; Obj (Argument 1 P1) []] (meshes st0).
Example C72_others_ex :
  TransposeTrace st1 0 2 None = Ok (State (heap st1 ++ [Obj (Function L1 0) [MTranspose 2 0]]) (meshes st1), 3) /\
  CellPatchAverage st1 2 9 L1 (Some (4, 0, 3)) None = Ok (State (heap st1 ++ [Obj (Argument 1 P1) [MPatch 9 5 None]]) (meshes st1), 3) /\
  Extension st1 1 1 0 None = Ok (State (heap st1 ++ [Obj (Argument 1 L1) [MExtension 0 1 None]]) (meshes st1), 3) /\
  Mean st1 1 (Some 8) None = Ok (State (heap st1 ++ [Obj (Argument 1 L1) [MMean (Some 8) None]]) (meshes st1), 3) /\
  SurfaceMean st1 2 1 = Ok (State (heap st1 ++ [Obj (Argument 1 P1) [MSurface 1]]) (meshes st1), 3).
Proof. repeat split. Qed.

(** Nothing but terminals is marked, whatever the operator. *)
Theorem C72_terminals st v o :
  nth_error (heap st) v = Some o -> o_sort o = Operator ->
  (forall mm type normal tag y, Trace st v mm type normal tag <> Ok y) /\
  (forall lm shape y, Average st v lm shape <> Ok y) /\ (forall mm y, Restriction st v mm <> Ok y) /\
  (forall fm method y, Injection st v fm method <> Ok y) /\ (forall tm full y, TransposeTrace st v tm full <> Ok y) /\
  (forall p c y, PointTrace st v p c <> Ok y) /\ (forall p c t y, GradientPointTrace st v p c t <> Ok y) /\
  (forall vf Vg pf col y, CellPatchAverage st v vf Vg pf col <> Ok y) /\ (forall lm shape y, FluxAverage st v lm shape <> Ok y) /\
  (forall em type data y, Extension st v em type data <> Ok y) /\ (forall w dx y, Mean st v w dx <> Ok y) /\
  (forall mm y, SurfaceMean st v mm <> Ok y).
Proof.
  intros Ho Hs.
  assert (T : is_terminal o = false) by (unfold is_terminal; rewrite Hs; reflexivity).
  repeat split; intros;
    unfold Trace, Average, Restriction, Injection, TransposeTrace, PointTrace, GradientPointTrace, CellPatchAverage, FluxAverage,
      Extension, Mean, SurfaceMean, get; rewrite Ho; cbn [opt_res bind];
    try (match goal with |- context [get_mesh ?a ?b] => destruct (get_mesh a b); cbn [bind]; [| discriminate] end);
    rewrite ?T, ?Hs; discriminate.
Qed.
Print Assumptions C72_terminals.
Example C72_terminals_ex : Trace (State [Obj Operator []] (meshes st0)) 0 1 0 None None = Err AssertionError.
Proof. reflexivity. Qed.

(** Constants have no cell: neither restricted nor injected. *)
Theorem C72_constants st v o mm m :
  nth_error (heap st) v = Some o -> o_sort o = Const -> nth_error (meshes st) mm = Some m ->
  Restriction st v mm = Err AssertionError /\ (forall method, Injection st v mm method = Err AssertionError) /\
  (forall type normal tag y, Trace st v mm type normal tag <> Ok y) /\ (forall shape y, Average st v mm shape <> Ok y) /\
  (forall point c, PointTrace st v point c = Err AssertionError) /\ (forall point c tangent, GradientPointTrace st v point c tangent = Err AssertionError).
Proof.
  intros Ho Hs Hm.
  assert (T : is_terminal o = true) by (unfold is_terminal; rewrite Hs; reflexivity).
  assert (C : obj_cell o = Err AttributeError) by (unfold obj_cell, space_of; rewrite Hs; reflexivity).
  repeat split; intros; unfold Trace, Average, Restriction, Injection, PointTrace, GradientPointTrace, point_values, same_cell, get, get_mesh; rewrite Ho, ?Hm; cbn [opt_res bind]; rewrite T; cbn [negb];
    rewrite ?Hs, ?C; cbn [bind negb]; try reflexivity; discriminate.
Qed.
Print Assumptions C72_constants.
Example C72_constants_ex : Restriction (State [Obj Const []] (meshes st0)) 0 1 = Err AssertionError /\
  Injection (State [Obj Const []] (meshes st0)) 0 1 0 = Err AssertionError.
Proof. split; reflexivity. Qed.

(** Averages of fluxes: the copy of a test or trial function is in a scalar
    discontinuous space of the same degree over the same mesh, and the mark
    keeps the space of the function.  Functions are refused. *)
Theorem C72_flux st v lm shape st' r :
  FluxAverage st v lm shape = Ok (st', r) ->
  kept st st' /\ nth_error (heap st) r = None /\
  exists o n V c sh, nth_error (heap st) v = Some o /\ o_sort o = Argument n V /\ n < 2 /\ e_cell (s_elem V) = Ok c /\ shape = Some sh /\
    nth_error (heap st') r =
      Some (Obj (Argument n (Space (FE DiscLagrange c (e_degree (s_elem V))) (s_mesh V))) [MFlux lm sh V]).
Proof.
  unfold FluxAverage. intros H. chain H. unfold get in E. apply opt_res_ok in E. destruct shape as [sh |]; [| discriminate H].
  destruct (o_sort a) as [n V | V x | |] eqn:Es; try discriminate H. chain H.
  match type of H with Ok (new st ?y) = _ => set (x := y) in H end. unfold new in H. inversion H; subst st' r. cbn [heap meshes].
  split; [split; [reflexivity |] |]; cbn [heap].
  - intros i b Hi. rewrite nth_error_app1; [exact Hi |]. apply nth_error_Some. rewrite Hi. discriminate.
  - split; [apply nth_error_None; lia |]. exists a, n, V, a1, sh. split; [exact E |]. split; [exact Es |].
    split; [apply Nat.ltb_lt; assumption |]. split.
    + unfold obj_cell, space_of in E2. rewrite Es in E2. exact E2.
    + split; [reflexivity |]. rewrite nth_error_app2, Nat.sub_diag; [reflexivity | lia].
Qed.
Print Assumptions C72_flux.
Definition RT := Space (FE (VFam 0) tets 2) 0.
Example C72_flux_ex :
  FluxAverage (State [Obj (Argument 1 RT) []] (meshes st0)) 0 2 (Some 6) =
  Ok (State [Obj (Argument 1 RT) []; Obj (Argument 1 (Space (FE DiscLagrange tets 2) 0)) [MFlux 2 6 RT]] (meshes st0), 1).
Proof. reflexivity. Qed.

(** Values and derivatives in points: test and trial functions are copied. *)
Theorem C72_point_partial st v o n V st' r :
  nth_error (heap st) v = Some o -> o_sort o = Argument n V -> n < 2 ->
  (forall p c, PointTrace st v p c = Ok (st', r) -> copied st v (MPoint p c) st' r) /\
  (forall p c t, GradientPointTrace st v p c t = Ok (st', r) -> copied st v (MGradPoint p c t) st' r).
Proof.
  intros Ho Es Hn.
  assert (G : forall m, reconstruct_and_mark st v o m = copy_and_mark st o m).
  { intros m. unfold reconstruct_and_mark, copy_and_mark. rewrite Es. destruct n as [| [| n]]; [reflexivity | reflexivity | lia]. }
  split.
  - intros p c H. unfold PointTrace, get in H. rewrite Ho in H. cbn [opt_res bind] in H. chain H. rewrite G in H. exact (copy_ok st v o _ st' r Ho H).
  - intros p c t H. unfold GradientPointTrace, get in H. rewrite Ho in H. cbn [opt_res bind] in H. chain H. rewrite G in H. exact (copy_ok st v o _ st' r Ho H).
Qed.
Print Assumptions C72_point_partial.
Example C72_point_ex : PointTrace st1 1 2 3 = Ok (State (heap st1 ++ [Obj (Argument 1 L1) [MPoint 2 3]]) (meshes st1), 3).
Proof. reflexivity. Qed.

Lemma nth_error_firstn_lt {A} (l : list A) n i : i < n -> nth_error (firstn n l) i = nth_error l i.
Proof. revert n i. induction l as [| a l IH]; intros [| n] [| i] H; try lia; try reflexivity. cbn. apply IH. lia. Qed.
Lemma nth_error_skipn_plus {A} (l : list A) n i : nth_error (skipn n l) i = nth_error l (n + i).
Proof. revert l. induction n as [| n IH]; intros [| a l]; try reflexivity; [destruct i; reflexivity |]. cbn. apply IH. Qed.

(** A Function is not copied: the function itself comes back and carries the
    mark from then on, in every form in which it is used. *)
Theorem C72_point_refuted st v V x marks p c :
  nth_error (heap st) v = Some (Obj (Function V x) marks) -> (e_family (s_elem V) = Lagrange \/ e_family (s_elem V) = DiscLagrange) ->
  exists st' o, PointTrace st v p c = Ok (st', v) /\ nth_error (heap st') v = Some o /\ o_sort o = Function V x /\ In (MPoint p c) (o_marks o) /\
    (forall k, In k (o_marks o) <-> k = MPoint p c \/ (In k marks /\ forall q d, k <> MPoint q d)) /\
    (forall i, i <> v -> nth_error (heap st') i = nth_error (heap st) i) /\ meshes st' = meshes st.
Proof.
  intros Ho Hf. unfold PointTrace, get. rewrite Ho. cbn [opt_res bind is_terminal o_sort negb point_values space_of].
  assert (E : (match e_family (s_elem V) with Lagrange | DiscLagrange => true | _ => false end) = true) by (destruct Hf as [-> | ->]; reflexivity).
  rewrite E. cbn [negb reconstruct_and_mark o_sort].
  eexists. exists (set_mark (Obj (Function V x) marks) (MPoint p c)). split; [reflexivity |]. cbn [heap]. split.
  - assert (Hl : v < length (heap st)) by (apply nth_error_Some; rewrite Ho; discriminate).
    rewrite nth_error_app2; rewrite firstn_length_le by lia; [rewrite Nat.sub_diag; reflexivity | lia].
  - split; [reflexivity |]. split; [left; reflexivity |]. split; [intros k; cbn [o_marks set_mark In]; rewrite filter_In; destruct k; cbn [attribute Nat.eqb negb]; split; intros H; intuition (try congruence); exfalso; eapply H1; reflexivity |]. split; [| reflexivity]. cbn [heap]. intros i Hi.
    assert (Hl : v < length (heap st)) by (apply nth_error_Some; rewrite Ho; discriminate).
    destruct (Nat.lt_ge_cases i v) as [L | L].
    + rewrite nth_error_app1 by (rewrite firstn_length_le; lia). apply nth_error_firstn_lt; exact L.
    + rewrite nth_error_app2; rewrite firstn_length_le by lia; [| lia]. replace (i - v) with (S (i - S v)) by lia. cbn [nth_error].
      rewrite nth_error_skipn_plus. f_equal. lia.
Qed.
Print Assumptions C72_point_refuted.

(** The values of one function in two points are one object, with the second
    point: their difference is zero. *)
Theorem C72_two_points_refuted :
  exists st v p q c st1 r1 st2 r2,
    p <> q /\ PointTrace st v p c = Ok (st1, r1) /\ PointTrace st1 v q c = Ok (st2, r2) /\ r1 = r2 /\
    exists o, nth_error (heap st2) r1 = Some o /\ o_marks o = [MPoint q c].
Proof.
  exists st1, 0, 4, 5, 1. eexists. eexists. eexists. eexists. split; [discriminate |]. split; [reflexivity |]. split; [reflexivity |].
  split; [reflexivity |]. eexists. split; reflexivity.
Qed.
Print Assumptions C72_two_points_refuted.

(** A mark that the function had is not on the copy: the trace of the
    restriction of a function is the trace of the function. *)
Theorem C72_nested_refuted :
  exists st v mm r o st' o',
    nth_error (heap st) v = Some o /\ o_marks o <> [] /\ Trace st v mm 0 None None = Ok (st', r) /\
    nth_error (heap st') r = Some o' /\ forall m, In m (o_marks o) -> ~ In m (o_marks o').
Proof.
  exists st0, 1, 1. eexists. eexists. eexists. eexists. split; [reflexivity |]. split; [discriminate |]. split; [reflexivity |].
  split; [reflexivity |]. intros m [<- | []] [E | []]. discriminate E.
Qed.
Print Assumptions C72_nested_refuted.

(** Injections: a copy again.  The mesh is written to when it has no map for
    the mesh of the function but was made by refinement: then the array of
    parents becomes that map.  Other meshes stay. *)
Theorem C72_injection st v fm method st' r :
  Injection st v fm method = Ok (st', r) ->
  exists o m m' V, nth_error (heap st) v = Some o /\ space_of o = Ok V /\ nth_error (meshes st) fm = Some m /\ nth_error (meshes st') fm = Some m' /\
    nth_error (heap st) r = None /\ nth_error (heap st') r = Some (Obj (o_sort o) [MInjection fm method]) /\
    (forall i a, nth_error (heap st) i = Some a -> nth_error (heap st') i = Some a) /\
    (forall i, i <> fm -> nth_error (meshes st') i = nth_error (meshes st) i) /\
    m_cell m' = m_cell m /\ m_marks m' = m_marks m /\ m_parents m' = m_parents m /\
    ((m' = m /\ (In (s_mesh V) (match m_maps m with Some l => map fst l | None => [] end) \/ (m_parent_cell m = None /\ method < 2))) \/
     (exists cmap, ~ In (s_mesh V) (match m_maps m with Some l => map fst l | None => [] end) /\
        m_parent_cell m = Some cmap /\ m_maps m' = Some [(s_mesh V, cmap)])).
Proof.
  unfold Injection. intros H. chain H; rename E into Eo; unfold get in Eo; apply opt_res_ok in Eo; unfold get_mesh in E0; apply opt_res_ok in E0;
    rename a into o, a0 into m; rename a2 into V.
  - destruct (copy_ok st v o _ st' r Eo H) as ((Km & Kh) & Hr & o' & Ho' & Hr'). rewrite Eo in Ho'. injection Ho' as <-.
    exists o, m, m, V. rewrite Km. repeat split; try assumption. left. split; [reflexivity |]. left.
    destruct (m_maps m) as [maps |]; [| discriminate]. unfold key_in in E5. apply existsb_exists in E5.
    destruct E5 as (p & Hp & E5). apply Nat.eqb_eq in E5. rewrite <- E5. apply in_map. exact Hp.
  - assert (Hk : ~ In (s_mesh V) (match m_maps m with Some l => map fst l | None => [] end)).
    { destruct (m_maps m) as [maps |]; [| intros []]. intros Hin. apply in_map_iff in Hin. destruct Hin as (p & Ep & Hp).
      unfold key_in in E5. assert (T : existsb (fun p => fst p =? s_mesh V) maps = true).
      { apply existsb_exists. exists p. split; [exact Hp | apply Nat.eqb_eq; exact Ep]. } rewrite T in E5. discriminate E5. }
    destruct (m_parent_cell m) as [cmap |] eqn:Epc.
    + match type of H with copy_and_mark ?s _ _ = _ => set (s1 := s) in H end.
      assert (Eo1 : nth_error (heap s1) v = Some o) by exact Eo.
      destruct (copy_ok s1 v o _ st' r Eo1 H) as ((Km & Kh) & Hr & o' & Ho' & Hr'). rewrite Eo1 in Ho'. injection Ho' as <-.
      assert (Hl : fm < length (meshes st)) by (apply nth_error_Some; rewrite E0; discriminate).
      exists o, m. eexists. exists V. split; [exact Eo |]. split; [assumption |]. split; [exact E0 |].
      split; [rewrite Km; unfold s1; cbn [meshes]; rewrite set_mesh_nth by exact Hl; rewrite Nat.eqb_refl; reflexivity |].
      split; [exact Hr |]. split; [exact Hr' |]. split; [exact Kh |]. split.
      { intros i Hi. rewrite Km. unfold s1. cbn [meshes]. rewrite set_mesh_nth by exact Hl. apply Nat.eqb_neq in Hi. rewrite Hi. reflexivity. }
      cbn. split; [reflexivity |]. split; [reflexivity |]. split; [reflexivity |]. right. exists cmap. split; [exact Hk |]. split; [exact Epc | reflexivity].
    + destruct (method <? 2) eqn:Em; [| discriminate H]. apply Nat.ltb_lt in Em.
      destruct (copy_ok st v o _ st' r Eo H) as ((Km & Kh) & Hr & o' & Ho' & Hr'). rewrite Eo in Ho'. injection Ho' as <-.
      exists o, m, m, V. rewrite Km. repeat split; try assumption. left. split; [reflexivity |]. right. split; [exact Epc | exact Em].
Qed.
Print Assumptions C72_injection.

(** Two meshes of one kind and a refinement: functions on either are accepted
    and each time the array of parents is taken for the map into their mesh;
    the map for the other is gone. *)
Definition st2 := State [Obj (Argument 0 (Space (FE Lagrange tets 1) 0)) []; Obj (Argument 1 (Space (FE Lagrange tets 1) 1)) []]
  [Mesh tets 2 None None None None; Mesh tets 2 None None None None; Mesh tets 4 None None None (Some [0; 0; 1; 1])].
Theorem C72_injection_refuted :
  exists s v w V W fm parents s1 r1 s2 r2 m1 m2,
    s_mesh V <> s_mesh W /\ (exists o, nth_error (heap s) v = Some o /\ space_of o = Ok V) /\ (exists o, nth_error (heap s) w = Some o /\ space_of o = Ok W) /\
    Injection s v fm 0 = Ok (s1, r1) /\ Injection s1 w fm 0 = Ok (s2, r2) /\
    nth_error (meshes s1) fm = Some m1 /\ nth_error (meshes s2) fm = Some m2 /\
    m_maps m1 = Some [(s_mesh V, parents)] /\ m_maps m2 = Some [(s_mesh W, parents)].
Proof.
  exists st2, 0, 1, (Space (FE Lagrange tets 1) 0), (Space (FE Lagrange tets 1) 1), 2, [0; 0; 1; 1]. do 6 eexists.
  split; [discriminate |]. split; [eexists; split; reflexivity |]. split; [eexists; split; reflexivity |].
  split; [reflexivity |]. split; [reflexivity |]. split; [reflexivity |]. split; [reflexivity |]. split; reflexivity.
Qed.
Print Assumptions C72_injection_refuted.
