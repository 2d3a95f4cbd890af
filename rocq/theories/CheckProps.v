(** C98: functions that the operators accept are accepted by what makes
    their spaces and matrices. *)
From Verif Require Import Base ElementModel ElementProofs ElementProps AnnotateModel AnnotateProofs AnnotateProps CheckModel CheckProofs.

Section Props.
Variables (vs : nat -> space) (pm : nat -> nat).

(** Traces of elements built from finite elements, vectors, square matrices
    and mixtures: accepted in integrals over the trace mesh, if a restriction
    comes with a normal; else it is an AssertionError. *)
Theorem C98_trace_partial st v c V mm type normal tag st' r rm :
  of_space st v c V -> usual (c_gdim c) (s_elem V) -> Trace st v mm type normal tag = Ok (st', r) ->
  (rm = mm /\ (type = 0 \/ normal <> None) ->
   exists t, pass vs pm st' r rm = Ok (Space t mm) /\ value_shape t = value_shape (s_elem V)) /\
  (~ (rm = mm /\ (type = 0 \/ normal <> None)) -> pass vs pm st' r rm = Err AssertionError).
Proof.
  intros Hv Hu HT. destruct (C72_trace st v mm type normal tag st' r HT) as (m & tags & Hm & Hc & _ & _).
  pose proof Hv as [Hred (mv & Hmv & Ecv)].
  destruct (proj1 (C72_trace_accepts st v c V mm m type normal tag Hred Hm) (ex_intro _ st' (ex_intro _ r HT))) as (Hf & _ & _).
  assert (Hon : on c (s_elem V)) by (destruct Hred as (o & _ & Ho & _); exact Ho).
  rewrite (copied_pass vs pm st v c V _ st' r rm Hv Hc). cbn [passes_mark]. unfold pass_trace.
  destruct (mm =? rm) eqn:Er.
  - apply Nat.eqb_eq in Er. subst rm. cbn [check bind]. rewrite !(copied_mesh st v _ st' r _ Hc).
    rewrite (get_mesh_some st mm m Hm). cbn [bind].
    destruct (C71_trace c (m_cell m) (s_elem V) Hf Hon Hu) as (t & Et & Hs & _). rewrite Et. cbn [bind].
    rewrite Hs, shape_eqb_refl. cbn [check bind]. rewrite (on_cell c _ Hon). cbn [bind].
    rewrite (proj1 (facet_trace c (m_cell m)) Hf). cbn [bind]. rewrite cell_eqb_refl. cbn [check bind].
    rewrite (get_mesh_some st _ mv Hmv). cbn [bind]. rewrite Ecv, (proj1 Hf), Nat.eqb_refl. cbn [check bind]. split.
    + intros [_ H]. exists t. split; [| exact Hs]. destruct type as [| k]; [reflexivity |]. destruct normal as [n |]; [reflexivity |].
      destruct H as [H | H]; [discriminate H | contradiction H; reflexivity].
    + intros H. destruct type as [| k]; [exfalso; apply H; split; [reflexivity | left; reflexivity] |].
      destruct normal as [n |]; [exfalso; apply H; split; [reflexivity | right; discriminate] | reflexivity].
  - apply Nat.eqb_neq in Er. split; [intros [E _]; exfalso; apply Er; symmetry; exact E | reflexivity].
Qed.

(** Averages: functions of at most two axes, each as long as the geometric
    dimension; without a shape continuous functions or functions that are
    constant on cells, on lines that are not embedded or embedded in the mesh
    of the function. *)
Theorem C98_average_partial st v c V lm m shape st' r rm :
  of_space st v c V -> nth_error (meshes st) lm = Some m -> Average st v lm shape = Ok (st', r) ->
  ((exists T, pass vs pm st' r rm = Ok T) <->
   rm = lm /\ length (value_shape (s_elem V)) <= 2 /\ Forall (eq (c_gdim c)) (value_shape (s_elem V)) /\
   (shape = None ->
    (e_family (s_elem V) = Lagrange \/ e_family (s_elem V) = DiscLagrange /\ e_degree (s_elem V) = 0) /\
    (m_maps m = None \/ child_of m (s_mesh V)))).
Proof.
  intros Hv Hm HT. pose proof (C72_average st v lm shape st' r HT) as Hc.
  pose proof Hv as [Hred (mv & Hmv & Ecv)].
  destruct (proj1 (C72_average_accepts st v c V lm m shape Hred Hm) (ex_intro _ st' (ex_intro _ r HT))) as (Hn & Hcell & _).
  assert (Hon : on c (s_elem V)) by (destruct Hred as (o & _ & Ho & _); exact Ho).
  rewrite (copied_pass vs pm st v c V _ st' r rm Hv Hc). cbn [passes_mark]. unfold pass_average.
  destruct (lm =? rm) eqn:Er.
  2: { apply Nat.eqb_neq in Er. cbn [check bind]. split; [intros [T E]; discriminate E | intros [E _]; exfalso; apply Er; symmetry; exact E]. }
  apply Nat.eqb_eq in Er. subst rm. cbn [check bind]. rewrite !(copied_mesh st v _ st' r _ Hc).
  rewrite (get_mesh_some st lm m Hm). cbn [bind].
  destruct (C71_average c (s_elem V) (m_cell m) Hon) as [Hex Hsh].
  destruct (average_space (s_elem V) (m_cell m)) as [t | x] eqn:Et; cbn [bind].
  2: { split; [intros [T E]; discriminate E |]. intros (_ & Hl & _). exfalso.
       destruct (proj2 Hex (conj Hn (conj Hcell Hl))) as [t E]. discriminate E. }
  destruct (proj1 Hex (ex_intro _ t eq_refl)) as (_ & _ & Hl). destruct (Hsh t eq_refl) as (_ & Hs & _). clear Hex Hsh.
  assert (Hfam : e_family t = DiscLagrange).
  { unfold average_space in Et. chain Et. apply by_rank_ok in Et; [apply Et | left; reflexivity]. }
  rewrite Hfam. cbn [family_eqb check bind].
  destruct (shape_eqb (value_shape (s_elem V)) (value_shape t)) eqn:Esh; cbn [check bind].
  2: { split; [intros [T E]; discriminate E |]. intros (_ & _ & F & _). exfalso. apply Hs in F. rewrite F, shape_eqb_refl in Esh. discriminate Esh. }
  apply shape_eqb_eq in Esh. pose proof (proj1 Hs (eq_sym Esh)) as Hall.
  rewrite (on_cell c _ Hon). cbn [bind]. unfold average_cell. rewrite Hn. cbn [bind]. rewrite Hcell, cell_eqb_refl. cbn [check bind].
  rewrite (get_mesh_some st _ mv Hmv). cbn [bind]. rewrite Ecv. cbn [c_gdim]. rewrite Nat.eqb_refl. cbn [check bind].
  destruct shape as [sh |].
  { split; [| intros _; eexists; reflexivity]. intros _. split; [reflexivity |]. split; [exact Hl |]. split; [exact Hall | discriminate]. }
  assert (Hb : family_eqb (e_family (s_elem V)) Lagrange || (family_eqb (e_family (s_elem V)) DiscLagrange && (e_degree (s_elem V) =? 0)) = true <->
    (e_family (s_elem V) = Lagrange \/ e_family (s_elem V) = DiscLagrange /\ e_degree (s_elem V) = 0)).
  { rewrite orb_true_iff, andb_true_iff, !family_eqb_eq, Nat.eqb_eq. reflexivity. }
  destruct (family_eqb (e_family (s_elem V)) Lagrange || (family_eqb (e_family (s_elem V)) DiscLagrange && (e_degree (s_elem V) =? 0))); cbn [check bind].
  2: { split; [intros [T E]; discriminate E |]. intros (_ & _ & _ & F). destruct (F eq_refl) as [F1 _]. apply Hb in F1. discriminate F1. }
  pose proof (proj1 Hb eq_refl) as Hfamily. clear Hb.
  destruct (m_maps m) as [maps |] eqn:Emaps.
  - destruct (key_in (s_mesh V) maps) eqn:Ek.
    + apply key_in_spec in Ek. split; [| intros _; eexists; reflexivity]. intros _. split; [reflexivity |]. split; [exact Hl |]. split; [exact Hall |].
      intros _. split; [exact Hfamily |]. right. exists maps. split; assumption.
    + split; [intros [T E]; discriminate E |]. intros (_ & _ & _ & F). destruct (F eq_refl) as [_ [F1 | (maps' & F1 & F2)]]; [discriminate F1 |].
      rewrite Emaps in F1. injection F1 as <-. apply key_in_spec in F2. rewrite F2 in Ek. discriminate Ek.
  - split; [| intros _; eexists; reflexivity]. intros _. split; [reflexivity |]. split; [exact Hl |]. split; [exact Hall |].
    intros _. split; [exact Hfamily | left; reflexivity].
Qed.

(** Flux averages: vectors. *)
Theorem C98_flux_partial st v c V lm shape st' r rm :
  of_space st v c V -> FluxAverage st v lm shape = Ok (st', r) ->
  ((exists T, pass vs pm st' r rm = Ok T) <-> rm = lm /\ exists n, value_shape (s_elem V) = [n]).
Proof.
  intros Hv HT. pose proof Hv as [Hred (mv & Hmv & Ecv)].
  destruct (C72_flux st v lm shape st' r HT) as ([Em _] & _ & o & n & V' & c' & sh & Ho & Es & Hn & Ec & -> & Hr).
  assert (Hon : on c (s_elem V)) by (destruct Hred as (o' & _ & H & _); exact H).
  assert (V' = V).
  { destruct Hred as (o' & Ho' & _ & Hs). rewrite Ho in Ho'. injection Ho' as <-. rewrite Es in Hs.
    destruct Hs as [E | [E | [x E]]]; inversion E; reflexivity. }
  subst V'.
  assert (exists m, nth_error (meshes st) lm = Some m /\ c_name c = Tetrahedron /\ m_cell m = Cell Interval (c_gdim c)) as (m & Hm & Hname & Hcell).
  { unfold FluxAverage in HT. unfold get in HT. rewrite Ho in HT. cbn [opt_res bind] in HT. unfold get_mesh in HT.
    destruct (nth_error (meshes st) lm) as [m |]; [| discriminate HT]. exists m. split; [reflexivity |].
    cbn [opt_res bind] in HT. unfold is_terminal, obj_cell, space_of in HT. rewrite Es in HT. cbn [negb bind] in HT.
    rewrite (on_cell c _ Hon) in HT. cbn [bind] in HT. unfold average_cell in HT.
    destruct (c_name c); cbn [bind] in HT; try discriminate HT. split; [reflexivity |].
    destruct (cell_eqb (Cell Interval (c_gdim c)) (m_cell m)) eqn:E; cbn [negb] in HT; [| discriminate HT].
    apply cell_eqb_eq in E. symmetry. exact E. }
  unfold pass, get. rewrite Hr. cbn [opt_res bind space_of o_sort o_marks passes_mark]. unfold pass_flux, get_mesh. rewrite Em.
  destruct (lm =? rm) eqn:Er.
  2: { apply Nat.eqb_neq in Er. cbn [check bind]. split; [intros [T E]; discriminate E | intros [E _]; exfalso; apply Er; symmetry; exact E]. }
  apply Nat.eqb_eq in Er. subst rm. cbn [check bind]. rewrite Hm. cbn [opt_res bind]. unfold flux_average_space.
  rewrite (on_cell c _ Hon). cbn [bind]. unfold average_cell. rewrite Hname. cbn [bind]. rewrite Hcell, !cell_eqb_refl.
  destruct (length (value_shape (s_elem V)) =? 1) eqn:El; cbn [bind].
  - cbn [e_family family_eqb check bind value_shape]. cbn [shape_eqb]. unfold shape_eqb. cbn [list_eq_dec check bind].
    destruct (list_eq_dec Nat.eq_dec [] []) as [_ | N]; [| contradiction N; reflexivity]. cbn [check bind].
    rewrite Hmv. cbn [opt_res bind]. rewrite Ecv. cbn [c_gdim]. rewrite Nat.eqb_refl. cbn [check bind].
    split; [| intros _; eexists; reflexivity]. intros _. split; [reflexivity |].
    apply Nat.eqb_eq in El. destruct (value_shape (s_elem V)) as [| k [| k' l]]; try discriminate El. exists k. reflexivity.
  - split; [intros [T E]; discriminate E |]. intros [_ [k E]]. rewrite E in El. discriminate El.
Qed.

(** Restrictions: meshes that were cut out of the mesh of the function. *)
Theorem C98_restriction_partial st v c V mm m st' r rm :
  of_space st v c V -> nth_error (meshes st) mm = Some m -> Restriction st v mm = Ok (st', r) ->
  ((exists T, pass vs pm st' r rm = Ok T) <-> rm = mm /\ child_of m (s_mesh V)).
Proof.
  intros Hv Hm HT. pose proof (C72_restriction st v mm st' r HT) as Hc. pose proof Hv as [Hred (mv & Hmv & Ecv)].
  pose proof (proj1 (C72_restriction_accepts st v c V mm m Hred Hm) (ex_intro _ st' (ex_intro _ r HT))) as Hcell.
  assert (Hon : on c (s_elem V)) by (destruct Hred as (o & _ & Ho & _); exact Ho).
  rewrite (copied_pass vs pm st v c V _ st' r rm Hv Hc). cbn [passes_mark]. unfold pass_restriction.
  destruct (mm =? rm) eqn:Er.
  2: { apply Nat.eqb_neq in Er. cbn [check bind]. split; [intros [T E]; discriminate E | intros [E _]; exfalso; apply Er; symmetry; exact E]. }
  apply Nat.eqb_eq in Er. subst rm. cbn [check bind]. rewrite (copied_mesh st v _ st' r _ Hc), (get_mesh_some st mm m Hm). cbn [bind].
  unfold restriction_space. rewrite (on_cell c _ Hon). cbn [bind]. rewrite Hcell, cell_eqb_refl. cbn [bind].
  destruct (m_maps m) as [maps |] eqn:Emaps.
  - destruct (key_in (s_mesh V) maps) eqn:Ek; cbn [check bind].
    + split; [| intros _; eexists; reflexivity]. intros _. split; [reflexivity |]. exists maps. split; [exact Emaps | apply key_in_spec; exact Ek].
    + split; [intros [T E]; discriminate E |]. intros [_ (maps' & E1 & E2)]. rewrite Emaps in E1. injection E1 as <-.
      apply key_in_spec in E2. rewrite E2 in Ek. discriminate Ek.
  - split; [intros [T E]; discriminate E |]. intros [_ (maps' & E1 & _)]. rewrite Emaps in E1. discriminate E1.
Qed.

(** Injections: everything but projections, which are always a ValueError.
    (Methods other than interpolation go on to the lookup of C82.) *)
Theorem C98_injection_partial st v c V fm method st' r rm :
  of_space st v c V -> Injection st v fm method = Ok (st', r) ->
  ((exists T, pass vs pm st' r rm = Ok T) <-> rm = fm /\ method <> 1) /\
  (rm = fm -> method = 1 -> pass vs pm st' r rm = Err ValueError).
Proof.
  intros Hv HT. pose proof Hv as [Hred (mv & Hmv & Ecv)].
  assert (Hon : on c (s_elem V)) by (destruct Hred as (o & _ & Ho & _); exact Ho).
  destruct (reducible_get st v c V Hred) as (o & Eo & Ho & Et & Es & Ecell).
  unfold Injection in HT. rewrite Eo in HT. cbn [bind] in HT.
  destruct (get_mesh st fm) as [m | x] eqn:Em; cbn [bind] in HT; [| discriminate HT]. rewrite Et in HT. cbn [negb] in HT.
  assert (G : same_cell o m = Ok (cell_eqb c (m_cell m))).
  { unfold same_cell. rewrite Ecell. unfold space_of in Es. destruct (o_sort o); try reflexivity; discriminate Es. }
  rewrite G in HT. cbn [bind] in HT. destruct (cell_eqb c (m_cell m)) eqn:Ecm; cbn [negb] in HT; [| discriminate HT].
  apply cell_eqb_eq in Ecm. rewrite Es in HT. cbn [bind] in HT.
  (* the mesh after the call and its maps *)
  assert (exists m', nth_error (meshes st') fm = Some m' /\ m_cell m' = c /\
            (2 <= method -> exists maps, m_maps m' = Some maps /\ key_in (s_mesh V) maps = true) /\
            exists mk o', mk = MInjection fm method /\ get st' r = Ok o' /\ space_of o' = Ok V /\ o_marks o' = [mk]) as (m' & Hm' & Hc' & Hmaps & mk & o' & -> & Eo' & Es' & Emk).
  { assert (Hfm : nth_error (meshes st) fm = Some m) by (unfold get_mesh in Em; apply opt_res_ok in Em; exact Em).
    assert (Hcopy : forall s mk, heap s = heap st -> copy_and_mark s o mk = Ok (st', r) ->
              meshes st' = meshes s /\ exists o', get st' r = Ok o' /\ space_of o' = Ok V /\ o_marks o' = [mk]).
    { intros s mk Hh E. assert (Hos : nth_error (heap s) v = Some o) by (rewrite Hh; exact Ho).
      destruct (copy_ok s v o mk st' r Hos E) as ([Hms _] & _ & o2 & Ho2 & Hr). rewrite Hos in Ho2. injection Ho2 as <-.
      split; [exact Hms |]. exists (Obj (o_sort o) [mk]). unfold get. rewrite Hr. split; [reflexivity |]. split; [exact Es | reflexivity]. }
    destruct (match m_maps m with Some maps => key_in (s_mesh V) maps | None => false end) eqn:Ek.
    - destruct (Hcopy st _ eq_refl HT) as (Hms & o' & H1 & H2 & H3). exists m. rewrite Hms. split; [exact Hfm |]. split; [symmetry; exact Ecm |].
      split; [| exists (MInjection fm method), o'; repeat split; assumption].
      intros _. destruct (m_maps m) as [maps |]; [| discriminate Ek]. exists maps. split; [reflexivity | exact Ek].
    - destruct (m_parent_cell m) as [cmap |] eqn:Ep.
      + destruct (Hcopy (State (heap st) (set_mesh (meshes st) fm (Mesh (m_cell m) (m_ncells m) (m_marks m) (m_parents m) (Some [(s_mesh V, cmap)]) (Some cmap)))) _ eq_refl HT) as (Hms & o' & H1 & H2 & H3).
        eexists. rewrite Hms. cbn [meshes]. rewrite set_mesh_nth; [| apply nth_error_Some; rewrite Hfm; discriminate]. rewrite Nat.eqb_refl.
        split; [reflexivity |]. cbn [m_cell m_maps]. split; [symmetry; exact Ecm |]. split; [| exists (MInjection fm method), o'; repeat split; assumption].
        intros _. eexists. split; [reflexivity |]. unfold key_in. cbn. rewrite Nat.eqb_refl. reflexivity.
      + destruct (method <? 2) eqn:Emt; [| discriminate HT]. apply Nat.ltb_lt in Emt.
        destruct (Hcopy st _ eq_refl HT) as (Hms & o' & H1 & H2 & H3). exists m. rewrite Hms. split; [exact Hfm |]. split; [symmetry; exact Ecm |].
        split; [intros H; lia | exists (MInjection fm method), o'; repeat split; assumption]. }
  unfold pass. rewrite Eo'. cbn [bind]. rewrite Es'. cbn [bind]. rewrite Emk. cbn [passes_mark]. unfold pass_injection.
  destruct (fm =? rm) eqn:Er.
  2: { apply Nat.eqb_neq in Er. cbn [check bind].
       split; [split; [intros [T E]; discriminate E | intros [E _]; exfalso; apply Er; symmetry; exact E] | intros E; exfalso; apply Er; symmetry; exact E]. }
  apply Nat.eqb_eq in Er. subst rm. cbn [check bind]. rewrite (get_mesh_some st' fm m' Hm'). cbn [bind]. unfold restriction_space.
  rewrite (on_cell c _ Hon). cbn [bind]. rewrite Hc', cell_eqb_refl. cbn [bind]. destruct method as [| [| k]].
  - split; [| intros _ E; discriminate E]. split; [intros _; split; [reflexivity | discriminate] | intros _; eexists; reflexivity].
  - split; [| reflexivity]. split; [intros [T E]; discriminate E | intros [_ E]; contradiction E; reflexivity].
  - destruct (Hmaps ltac:(lia)) as (maps & E1 & E2). rewrite E1, E2.
    split; [| intros _ E; discriminate E]. split; [intros _; split; [reflexivity | discriminate] | intros _; eexists; reflexivity].
Qed.

(** Point traces: only scalar discontinuous functions on curves, in integrals
    over their own mesh.  All continuous functions that are accepted are
    refused (TypeError on their own mesh). *)
Theorem C98_point_partial st v c V p k st' r rm mr :
  of_space st v c V -> nth_error (meshes st) rm = Some mr -> PointTrace st v p k = Ok (st', r) ->
  ((exists T, pass vs pm st' r rm = Ok T) <->
   rm = s_mesh V /\ e_family (s_elem V) = DiscLagrange /\ c_name c = Interval /\ value_shape (s_elem V) = []) /\
  (rm = s_mesh V -> e_family (s_elem V) = Lagrange ->
   (exists s n, s_elem V = VE s n /\ value_shape s = []) \/ value_shape (s_elem V) = [] ->
   pass vs pm st' r rm = Err TypeError).
Proof.
  intros Hv Hmr HT. pose proof Hv as [Hred (mv & Hmv & Ecv)].
  destruct (reducible_get st v c V Hred) as (o & Eo & Ho & Et & Es & Ecell).
  unfold PointTrace in HT. rewrite Eo in HT. cbn [bind] in HT. rewrite Et in HT. cbn [negb] in HT.
  destruct (point_values o) as [b | x] eqn:Eb; cbn [bind] in HT; [| discriminate HT].
  destruct b; cbn [negb] in HT; [| discriminate HT].
  destruct (reconstructed_get st v c V _ o st' r Hred Ho HT) as (Hms & o' & l & Eo' & Es' & Em).
  unfold pass. rewrite Eo'. cbn [bind]. rewrite Es'. cbn [bind]. rewrite Em. cbn [passes_mark]. unfold pass_point, get_mesh. rewrite Hms, Hmr. cbn [opt_res bind].
  split.
  - split.
    + intros [T HP]. chain HP. destruct a as [t |]; [| discriminate HP]. chain HP.
      apply check_ok in E2, E4, E5, E6. apply Nat.eqb_eq in E2, E5. apply family_eqb_eq in E4. apply shape_eqb_eq in E6.
      rewrite <- E2, Hmv in Hmr. injection Hmr as <-. rewrite Ecv in E5. split; [symmetry; exact E2 |]. split; [exact E4 |].
      split; [| exact E6]. unfold c_tdim in E5. destruct (c_name c); [reflexivity | discriminate E5 | discriminate E5].
    + intros (-> & Hf & Hn & Hs). rewrite Hmv in Hmr. injection Hmr as <-. unfold point_trace_space. rewrite Hs, Hf. cbn [bind e_family value_shape family_eqb check].
      rewrite shape_eqb_refl, Nat.eqb_refl. cbn [check bind]. rewrite Ecv. unfold c_tdim. rewrite Hn. cbn. eexists. reflexivity.
  - intros -> Hf Hs. unfold point_trace_space. destruct Hs as [(s & n & E & Hs) | Hs].
    + rewrite E in *. cbn [value_shape] in *. rewrite Hs. cbn [bind e_family value_shape family_eqb check].
      rewrite shape_eqb_refl, Nat.eqb_refl. cbn [check bind]. cbn [e_family] in Hf. rewrite Hf. reflexivity.
    + rewrite Hs. cbn [bind e_family value_shape family_eqb check]. rewrite shape_eqb_refl, Nat.eqb_refl. cbn [check bind]. rewrite Hf. reflexivity.
Qed.

(** Gradients at points: the same functions; continuous ones are not
    implemented. *)
Theorem C98_gradient_partial st v c V p k tau st' r rm mr :
  of_space st v c V -> nth_error (meshes st) rm = Some mr -> GradientPointTrace st v p k tau = Ok (st', r) ->
  ((exists T, pass vs pm st' r rm = Ok T) <->
   rm = s_mesh V /\ e_family (s_elem V) = DiscLagrange /\ c_name c = Interval /\ value_shape (s_elem V) = []) /\
  (rm = s_mesh V -> e_family (s_elem V) = Lagrange -> value_shape (s_elem V) = [] -> pass vs pm st' r rm = Err NotImplementedError).
Proof.
  intros Hv Hmr HT. pose proof Hv as [Hred (mv & Hmv & Ecv)].
  destruct (reducible_get st v c V Hred) as (o & Eo & Ho & Et & Es & Ecell).
  unfold GradientPointTrace in HT. rewrite Eo in HT. cbn [bind] in HT. rewrite Et in HT. cbn [negb] in HT.
  destruct (point_values o) as [b | x] eqn:Eb; cbn [bind] in HT; [| discriminate HT].
  destruct b; cbn [negb] in HT; [| discriminate HT].
  destruct (reconstructed_get st v c V _ o st' r Hred Ho HT) as (Hms & o' & l & Eo' & Es' & Em).
  unfold pass. rewrite Eo'. cbn [bind]. rewrite Es'. cbn [bind]. rewrite Em. cbn [passes_mark]. unfold pass_gradient, get_mesh. rewrite Hms, Hmr. cbn [opt_res bind].
  split.
  - split.
    + intros [T HP]. chain HP. apply check_ok in E2, E4, E5, E6. apply Nat.eqb_eq in E2, E5. apply family_eqb_eq in E4. apply shape_eqb_eq in E6.
      rewrite <- E2, Hmv in Hmr. injection Hmr as <-. rewrite Ecv in E5. split; [symmetry; exact E2 |]. split; [exact E4 |].
      split; [| exact E6]. unfold c_tdim in E5. destruct (c_name c); [reflexivity | discriminate E5 | discriminate E5].
    + intros (-> & Hf & Hn & Hs). rewrite Hmv in Hmr. injection Hmr as <-. unfold gradient_point_trace_space. rewrite Hs, Hf. cbn [bind e_family value_shape family_eqb check].
      rewrite shape_eqb_refl, Nat.eqb_refl. cbn [check bind]. rewrite Ecv. unfold c_tdim. rewrite Hn. cbn. eexists. reflexivity.
  - intros -> Hf Hs. unfold gradient_point_trace_space. rewrite Hs. cbn [bind e_family value_shape family_eqb check].
    rewrite shape_eqb_refl, Nat.eqb_refl. cbn [check bind]. rewrite Hf. reflexivity.
Qed.

(** Patch averages: in integrals over the mesh of the function on the
    network, if the patches are given on the mesh of the averaged function
    (or not at all). *)
Theorem C98_patch_partial st v c V vf Vg pf col st' r rm :
  of_space st v c V -> vs vf = Vg -> (forall id omega d, pf = Some (id, omega, d) -> pm (S id) = omega) ->
  CellPatchAverage st v vf Vg pf col = Ok (st', r) ->
  ((exists T, pass vs pm st' r rm = Ok T) <->
   rm = s_mesh Vg /\ forall id omega d, pf = Some (id, omega, d) -> omega = s_mesh V) /\
  (forall T, pass vs pm st' r rm = Ok T -> T = Vg).
Proof.
  intros Hv Hvs Hpm HT. pose proof Hv as [Hred (mv & Hmv & Ecv)].
  destruct (proj1 (proj2 (C72_others st v st' r)) vf Vg pf col HT) as (pn & Hc & Hpn).
  assert (Hon : on c (s_elem V)) by (destruct Hred as (o & _ & Ho & _); exact Ho).
  destruct (reducible_get st v c V Hred) as (o & Eo & Ho & Et & Es & Ecell).
  assert (value_shape (s_elem V) = [] /\ value_shape (s_elem Vg) = [] /\ exists mg, nth_error (meshes st) (s_mesh Vg) = Some mg /\ m_cell mg = patch_average_cell c) as (Hs1 & Hs2 & mg & Hmg & Hcg).
  { unfold CellPatchAverage in HT. rewrite Eo in HT. cbn [bind] in HT. rewrite Es in HT. cbn [bind] in HT.
    assert (HT' : (if negb (scalar (s_elem V)) then Err AssertionError else
      do pf0 <- match pf with
           | None => Ok 0
           | Some (id, omega, dim) => do m <- get_mesh st omega; if c_tdim (m_cell m) =? dim then Ok (S id) else Err AssertionError
           end;
      if negb (scalar (s_elem Vg)) then Err AssertionError else
      do gamma <- get_mesh st (s_mesh Vg);
      do c <- obj_cell o;
      if negb (cell_eqb (patch_average_cell c) (m_cell gamma)) then Err AssertionError else
      copy_and_mark st o (MPatch vf pf0 col)) = Ok (st', r)).
    { destruct (o_sort o); try discriminate HT; exact HT. }
    clear HT. unfold scalar in HT'. destruct (value_shape (s_elem V)); cbn [negb] in HT'; [| discriminate HT'].
    destruct (match pf with None => Ok 0 | Some _ => _ end) as [q |]; cbn [bind] in HT'; [| discriminate HT'].
    destruct (value_shape (s_elem Vg)); cbn [negb] in HT'; [| discriminate HT'].
    unfold get_mesh in HT'. destruct (nth_error (meshes st) (s_mesh Vg)) as [mg |] eqn:Emg; cbn [opt_res bind] in HT'; [| discriminate HT'].
    rewrite Ecell in HT'. cbn [bind] in HT'. destruct (cell_eqb (patch_average_cell c) (m_cell mg)) eqn:E; cbn [negb] in HT'; [| discriminate HT'].
    apply cell_eqb_eq in E. split; [reflexivity |]. split; [reflexivity |]. exists mg. split; [reflexivity | symmetry; exact E]. }
  rewrite (copied_pass vs pm st v c V _ st' r rm Hv Hc). cbn [passes_mark]. unfold pass_patch.
  rewrite !(copied_mesh st v _ st' r _ Hc), Hvs. unfold get_mesh. rewrite Hmg, Hmv, (on_cell c _ Hon), Hs1, Hs2, !shape_eqb_refl. cbn [andb opt_res bind].
  destruct (s_mesh Vg =? rm) eqn:Er.
  - apply Nat.eqb_eq in Er. subst rm. rewrite Hmg. cbn [opt_res bind]. rewrite Hcg, !cell_eqb_refl. cbn [check bind].
    rewrite Ecv. cbn [patch_average_cell c_gdim]. rewrite Nat.eqb_refl. cbn [check bind].
    destruct pf as [[[id omega] d] |]; subst pn.
    + rewrite (Hpm id omega d eq_refl). destruct (s_mesh V =? omega) eqn:Eo'; cbn [check bind].
      * apply Nat.eqb_eq in Eo'. split; [| intros T E; injection E as <-; reflexivity].
        split; [| intros _; eexists; reflexivity]. intros _. split; [reflexivity |]. intros id' omega' d' E. injection E as <- <- <-. symmetry. exact Eo'.
      * apply Nat.eqb_neq in Eo'. split; [| intros T E; discriminate E]. split; [intros [T E]; discriminate E |].
        intros [_ H]. exfalso. apply Eo'. symmetry. exact (H id omega d eq_refl).
    + split; [| intros T E; injection E as <-; reflexivity]. split; [| intros _; eexists; reflexivity].
      intros _. split; [reflexivity |]. intros id omega d E. discriminate E.
  - apply Nat.eqb_neq in Er.
    split; [split; [intros [T E]; exfalso | intros [E _]; exfalso; apply Er; symmetry; exact E] | intros T E; exfalso].
    + destruct (nth_error (meshes st) rm) as [m |]; cbn [opt_res bind] in E; [| discriminate E].
      destruct (cell_eqb (m_cell m) (patch_average_cell c)); cbn [check bind] in E; discriminate E.
    + destruct (nth_error (meshes st) rm) as [m |]; cbn [opt_res bind] in E; [| discriminate E].
      destruct (cell_eqb (m_cell m) (patch_average_cell c)); cbn [check bind] in E; discriminate E.
Qed.

(** Means: in integrals over a mesh of the same cells. *)
Theorem C98_mean_partial st v c V w dx st' r rm mr :
  of_space st v c V -> nth_error (meshes st) rm = Some mr -> Mean st v w dx = Ok (st', r) ->
  ((exists T, pass vs pm st' r rm = Ok T) <-> m_cell mr = c).
Proof.
  intros Hv Hmr HT. pose proof Hv as [Hred (mv & Hmv & Ecv)].
  pose proof (proj1 (proj2 (proj2 (proj2 (C72_others st v st' r)))) w dx HT) as Hc.
  assert (Hon : on c (s_elem V)) by (destruct Hred as (o & _ & Ho & _); exact Ho).
  assert (Hs : value_shape (s_elem V) = []).
  { destruct Hred as (o & Ho & _ & Hsrt). unfold Mean, get in HT. rewrite Ho in HT. cbn [opt_res bind] in HT. unfold scalar in HT.
    destruct Hsrt as [E | [E | [x E]]]; rewrite E in HT; destruct (value_shape (s_elem V)); try reflexivity; discriminate HT. }
  rewrite (copied_pass vs pm st v c V _ st' r rm Hv Hc). cbn [passes_mark]. unfold pass_mean.
  rewrite (copied_mesh st v _ st' r _ Hc), (get_mesh_some st rm mr Hmr). cbn [bind]. unfold mean_space. rewrite (on_cell c _ Hon), Hs. cbn [bind].
  destruct (cell_eqb (m_cell mr) c) eqn:E; cbn [bind].
  - apply cell_eqb_eq in E. split; [intros _; exact E | intros _; eexists; reflexivity].
  - split; [intros [T F]; discriminate F |]. intros F. rewrite F, cell_eqb_refl in E. discriminate E.
Qed.

(** Means over surfaces: scalar functions, in integrals over any mesh of
    facets; the mesh that was given to the operator is not asked for. *)
Theorem C98_surface_partial st v c V mm st' r rm mr :
  of_space st v c V -> usual (c_gdim c) (s_elem V) -> nth_error (meshes st) rm = Some mr -> SurfaceMean st v mm = Ok (st', r) ->
  ((exists T, pass vs pm st' r rm = Ok T) <-> facet c (m_cell mr) /\ value_shape (s_elem V) = []).
Proof.
  intros Hv Hu Hmr HT. pose proof Hv as [Hred (mv & Hmv & Ecv)].
  pose proof (proj2 (proj2 (proj2 (proj2 (C72_others st v st' r)))) mm HT) as Hc.
  assert (Hon : on c (s_elem V)) by (destruct Hred as (o & _ & Ho & _); exact Ho).
  rewrite (copied_pass vs pm st v c V _ st' r rm Hv Hc). cbn [passes_mark]. unfold pass_surface.
  rewrite (copied_mesh st v _ st' r _ Hc), (get_mesh_some st rm mr Hmr). cbn [bind]. unfold surface_mean_space.
  destruct (value_shape (s_elem V)) as [| n l] eqn:Hs; [| cbn [bind]; split; [intros [T E]; discriminate E | intros [_ E]; discriminate E]].
  rewrite (on_cell c _ Hon). cbn [bind]. split.
  - intros [T E]. destruct (trace_cell c) as [f |] eqn:Ef; cbn [bind] in E; [| discriminate E].
    destruct (cell_eqb f (m_cell mr)) eqn:Efm; cbn [bind] in E; [| discriminate E]. apply cell_eqb_eq in Efm. split; [| reflexivity].
    apply facet_trace. rewrite Ef, Efm. reflexivity.
  - intros [F _]. rewrite (proj1 (facet_trace c (m_cell mr)) F). cbn [bind]. rewrite cell_eqb_refl. cbn [bind e_family family_eqb check value_shape].
    rewrite shape_eqb_refl. cbn [check bind]. destruct (C71_trace c (m_cell mr) (s_elem V) F Hon Hu) as (t & E & _). rewrite E. cbn [bind].
    eexists. reflexivity.
Qed.

(** Extensions of elements that are not mixed: Lagrange and Discontinuous
    Lagrange with at most two axes. *)
Theorem C98_extension_partial st v c V em type data st' r rm :
  of_space st v c V -> (forall l, s_elem V <> ME l) -> Extension st v em type data = Ok (st', r) ->
  ((exists T, pass vs pm st' r rm = Ok T) <->
   rm = em /\ (e_family (s_elem V) = Lagrange \/ e_family (s_elem V) = DiscLagrange) /\ length (value_shape (s_elem V)) <= 2).
Proof.
  intros Hv Hm HT. pose proof Hv as [Hred (mv & Hmv & Ecv)].
  pose proof (proj1 (proj2 (proj2 (C72_others st v st' r))) em type data HT) as Hc.
  assert (Hon : on c (s_elem V)) by (destruct Hred as (o & _ & Ho & _); exact Ho).
  destruct (reducible_get st v c V Hred) as (o & Eo & Ho & Et & Es & Ecell).
  assert (exists m ec, nth_error (meshes st) em = Some m /\ extension_cell c = Ok ec /\ m_cell m = ec) as (m & ec & Hem & Hec & Hcm).
  { unfold Extension in HT. rewrite Eo in HT. cbn [bind] in HT. unfold get_mesh in HT.
    destruct (nth_error (meshes st) em) as [m |]; cbn [opt_res bind] in HT; [| discriminate HT]. rewrite Et, Ecell in HT. cbn [negb bind] in HT.
    destruct (extension_cell c) as [ec |]; cbn [bind] in HT; [| discriminate HT].
    destruct (cell_eqb ec (m_cell m)) eqn:E; cbn [negb] in HT; [| discriminate HT]. apply cell_eqb_eq in E. exists m, ec. repeat split. symmetry. exact E. }
  rewrite (copied_pass vs pm st v c V _ st' r rm Hv Hc). cbn [passes_mark]. unfold pass_extension.
  destruct (em =? rm) eqn:Er.
  2: { apply Nat.eqb_neq in Er. cbn [check bind]. split; [intros [T E]; discriminate E | intros [E _]; exfalso; apply Er; symmetry; exact E]. }
  apply Nat.eqb_eq in Er. subst rm. cbn [check bind]. rewrite !(copied_mesh st v _ st' r _ Hc), (get_mesh_some st em m Hem), (get_mesh_some st _ mv Hmv). cbn [bind].
  assert (Eel : extension_element (s_elem V) = by_rank (length (value_shape (s_elem V))) (match e_family (s_elem V) with Lagrange => Lagrange | _ => DiscLagrange end) ec (e_degree (s_elem V))).
  { pose proof (on_cell c _ Hon) as Ek. destruct (s_elem V) as [f k d | s n | s sh | l]; [| | | contradiction (Hm l); reflexivity];
      cbn [extension_element]; rewrite Ek; cbn [bind]; rewrite Hec; reflexivity. }
  rewrite Eel. set (fam := match e_family (s_elem V) with Lagrange => Lagrange | _ => DiscLagrange end).
  assert (Hfam : fam = DiscLagrange \/ fam = Lagrange) by (unfold fam; destruct (e_family (s_elem V)); auto).
  destruct (by_rank (length (value_shape (s_elem V))) fam ec (e_degree (s_elem V))) as [t |] eqn:Eb; cbn [bind].
  2: { split; [intros [T E]; discriminate E |]. intros (_ & _ & Hl). exfalso. destruct (by_rank_total _ fam ec (e_degree (s_elem V)) Hl) as [t E]. rewrite E in Eb. discriminate Eb. }
  destruct (by_rank_ok _ fam ec _ t Hfam Eb) as (Hl & Hont & _ & Hd & Hft & _).
  rewrite (on_cell ec t Hont). cbn [bind]. rewrite Hcm, cell_eqb_refl. cbn [negb].
  unfold extension_cell in Hec. destruct (((c_gdim c =? 2) || (c_gdim c =? 3)) && (c_tdim c =? 1)) eqn:Eg; [| discriminate Hec]. injection Hec as <-.
  apply andb_true_iff in Eg. destruct Eg as [Eg1 Eg2]. rewrite Ecv, Eg2. cbn [check bind c_tdim c_name]. cbn [Nat.eqb orb check bind].
  rewrite Hd, Nat.eqb_refl. cbn [check bind]. rewrite Hft. cbn [c_gdim]. rewrite Nat.eqb_refl, Eg1. cbn [check bind].
  destruct (family_eqb (e_family (s_elem V)) fam) eqn:Ef; cbn [check bind].
  - apply family_eqb_eq in Ef. split; [| intros _; eexists; reflexivity]. intros _. split; [reflexivity |]. split; [| exact Hl].
    rewrite Ef. destruct Hfam as [-> | ->]; [right | left]; reflexivity.
  - split; [intros [T E]; discriminate E |]. intros (_ & [F | F] & _); unfold fam in Ef; rewrite F in Ef; discriminate Ef.
Qed.
End Props.

(** Tetrahedra (0), two meshes of facets (1, 2), lines that were cut out of
    the tetrahedra (3), lines on their own (4) and other tetrahedra (5), some of the
    first tetrahedra (6); a scalar,
    a vector, a field with two components and a discontinuous function on the
    tetrahedra, continuous and discontinuous functions on lines. *)
Definition ck_st := State
  [Obj (Argument 0 (Space (FE Lagrange tets 1) 0)) []; Obj (Argument 1 (Space (VE (FE Lagrange tets 2) 3) 0)) [];
   Obj (Argument 0 (Space (VE (FE Lagrange tets 1) 2) 0)) []; Obj (Function (Space (FE DiscLagrange tets 1) 0) 7) [];
   Obj (Argument 0 (Space (FE Lagrange lines 1) 3)) []; Obj (Argument 0 (Space (FE DiscLagrange lines 1) 3)) [];
   Obj (Argument 0 (Space (FE (SFam 2) lines 1) 3)) []]
  [Mesh tets 6 None None None None; Mesh tris 4 (Some [1; 2; 2; 1]) (Some [0]) (Some [(0, [0; 1; 2; 3])]) None;
   Mesh tris 2 None None None None; Mesh lines 2 None (Some [0]) (Some [(0, [4; 5])]) None;
   Mesh lines 3 None None None None; Mesh tets 2 None None None None;
   Mesh tets 3 None (Some [0]) (Some [(0, [1; 2; 3])]) None].
Definition ck_vs (n : nat) : space := Space (FE Lagrange lines 1) 3.
Definition ck_pm (n : nat) : nat := if n =? 1 then 0 else 5.

(** Everything that is accepted by every step. *)
Example C98_trace_ex :
  of_space ck_st 1 tets (Space (VE (FE Lagrange tets 2) 3) 0) /\ usual 3 (VE (FE Lagrange tets 2) 3) /\
  exists st' r, Trace ck_st 1 1 1 (Some 9) (Some [2]) = Ok (st', r) /\ pass ck_vs ck_pm st' r 1 = Ok (Space (VE (FE DiscLagrange tris 2) 3) 1).
Proof.
  split; [split; [eexists; split; [reflexivity |]; split; [reflexivity | right; left; reflexivity] | eexists; split; reflexivity] |].
  split; [cbn; repeat split; discriminate |]. eexists. eexists. split; reflexivity.
Qed.
Example C98_ex :
  (exists st' r, Average ck_st 0 3 None = Ok (st', r) /\ pass ck_vs ck_pm st' r 3 = Ok (Space (FE DiscLagrange lines 1) 3)) /\
  (exists st' r, Average ck_st 3 4 (Some 0) = Ok (st', r) /\ pass ck_vs ck_pm st' r 4 = Ok (Space (FE DiscLagrange lines 1) 4)) /\
  (exists st' r, FluxAverage ck_st 1 4 (Some 0) = Ok (st', r) /\ pass ck_vs ck_pm st' r 4 = Ok (Space (FE DiscLagrange lines 2) 4)) /\
  (exists st' r, Restriction ck_st 1 6 = Ok (st', r) /\ pass ck_vs ck_pm st' r 6 = Ok (Space (VE (FE Lagrange tets 2) 3) 6)) /\
  (exists st' r, Extension ck_st 4 2 0 None = Ok (st', r) /\ pass ck_vs ck_pm st' r 2 = Ok (Space (FE Lagrange tris 1) 2)) /\
  (exists st' r, Injection ck_st 0 5 0 = Ok (st', r) /\ pass ck_vs ck_pm st' r 5 = Ok (Space (FE Lagrange tets 1) 5)) /\
  (exists st' r, PointTrace ck_st 5 1 1 = Ok (st', r) /\ pass ck_vs ck_pm st' r 3 = Ok (Space (FE Real lines 0) 3)) /\
  (exists st' r, GradientPointTrace ck_st 5 1 1 0 = Ok (st', r) /\ pass ck_vs ck_pm st' r 3 = Ok (Space (FE Real lines 0) 3)) /\
  (exists st' r, CellPatchAverage ck_st 0 0 (ck_vs 0) (Some (0, 0, 3)) None = Ok (st', r) /\ pass ck_vs ck_pm st' r 3 = Ok (ck_vs 0)) /\
  (exists st' r, Mean ck_st 0 None None = Ok (st', r) /\ pass ck_vs ck_pm st' r 0 = Ok (Space (FE Real tets 0) 0)) /\
  (exists st' r, SurfaceMean ck_st 0 1 = Ok (st', r) /\ pass ck_vs ck_pm st' r 1 = Ok (Space (FE Real tris 0) 1)).
Proof. repeat split; eexists; eexists; split; reflexivity. Qed.

(** Accepted by the operator and refused by what follows, in integrals over
    the mesh that was given: a restriction without normal, averages of two
    components, of discontinuous functions without a shape, fluxes of scalars,
    restrictions to meshes on their own, projections, points of continuous functions, patches on
    another mesh, means over surfaces of vectors, extensions of other families. *)
Theorem C98_refuted :
  (exists st v mm type st' r, Trace st v mm type None None = Ok (st', r) /\ forall vs pm, pass vs pm st' r mm = Err AssertionError) /\
  (exists st v lm shape st' r, Average st v lm shape = Ok (st', r) /\ forall vs pm, pass vs pm st' r lm = Err AssertionError) /\
  (exists st v lm st' r, Average st v lm None = Ok (st', r) /\ forall vs pm, pass vs pm st' r lm = Err AssertionError) /\
  (exists st v lm shape st' r, FluxAverage st v lm shape = Ok (st', r) /\ forall vs pm, pass vs pm st' r lm = Err AssertionError) /\
  (exists st v mm st' r, Restriction st v mm = Ok (st', r) /\ forall vs pm, pass vs pm st' r mm = Err AttributeError) /\
  (exists st v fm st' r, Injection st v fm 1 = Ok (st', r) /\ forall vs pm, pass vs pm st' r fm = Err ValueError) /\
  (exists st v p k st' r, PointTrace st v p k = Ok (st', r) /\ forall vs pm, pass vs pm st' r 3 = Err TypeError) /\
  (exists st v p k tau st' r, GradientPointTrace st v p k tau = Ok (st', r) /\ forall vs pm, pass vs pm st' r 3 = Err NotImplementedError) /\
  (exists vs pm st v vf pf col st' r, CellPatchAverage st v vf (vs vf) pf col = Ok (st', r) /\ pass vs pm st' r (s_mesh (vs vf)) = Err AssertionError) /\
  (exists st v mm st' r, SurfaceMean st v mm = Ok (st', r) /\ forall vs pm, pass vs pm st' r mm = Err AssertionError) /\
  (exists st v em type st' r, Extension st v em type None = Ok (st', r) /\ forall vs pm, pass vs pm st' r em = Err AssertionError).
Proof.
  split; [exists ck_st, 0, 1, 1; eexists; eexists; split; reflexivity |].
  split; [exists ck_st, 2, 4, (Some 0); eexists; eexists; split; reflexivity |].
  split; [exists ck_st, 3, 4; eexists; eexists; split; reflexivity |].
  split; [exists ck_st, 0, 4, (Some 0); eexists; eexists; split; reflexivity |].
  split; [exists ck_st, 0, 5; eexists; eexists; split; reflexivity |].
  split; [exists ck_st, 0, 5; eexists; eexists; split; reflexivity |].
  split; [exists ck_st, 4, 1, 1; eexists; eexists; split; reflexivity |].
  split; [exists ck_st, 4, 1, 1, 0; eexists; eexists; split; reflexivity |].
  split; [exists ck_vs, ck_pm, ck_st, 0, 0, (Some (1, 5, 3)), None; eexists; eexists; split; reflexivity |].
  split; [exists ck_st, 1, 1; eexists; eexists; split; reflexivity |].
  exists ck_st, 6, 2, 0. eexists. eexists. split; reflexivity.
Qed.

(** A mean over one surface is accepted in integrals over another one, and
    then taken over that. *)
Theorem C98_surface_refuted :
  exists st v m1 m2 st' r, m1 <> m2 /\ SurfaceMean st v m1 = Ok (st', r) /\
    forall vs pm, exists t, pass vs pm st' r m2 = Ok (Space t m2).
Proof. exists ck_st, 0, 1, 2. eexists. eexists. split; [discriminate |]. split; [reflexivity |]. intros vs pm. eexists. reflexivity. Qed.

Print Assumptions C98_trace_partial.
Print Assumptions C98_average_partial.
Print Assumptions C98_flux_partial.
Print Assumptions C98_restriction_partial.
Print Assumptions C98_injection_partial.
Print Assumptions C98_point_partial.
Print Assumptions C98_gradient_partial.
Print Assumptions C98_patch_partial.
Print Assumptions C98_mean_partial.
Print Assumptions C98_surface_partial.
Print Assumptions C98_extension_partial.
Print Assumptions C98_refuted.
Print Assumptions C98_surface_refuted.
