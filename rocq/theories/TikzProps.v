(** Property C90: drawings of meshes *)
From Coq Require Import Lia.
From Verif Require Import Base BaseProofs Mat MatProofs TikzModel TikzProofs.
Local Open Scope nat_scope.

(** What a dict has under a key: keys are unique, the first one counts *)
Definition dict_entry {A} (d : list (nat * A)) (k : nat) (a : A) : Prop := exists pre post, d = pre ++ (k, a) :: post /\ ~ In k (map fst pre).
Lemma lookup_entry {A} (d : list (nat * A)) k a : lookup k d = Some a <-> dict_entry d k a.
Proof.
  split.
  - induction d as [|[k' b] d IH]; [discriminate|]. cbn [lookup]. destruct (Nat.eqb_spec k k') as [<-|N]; intros H.
    + injection H as ->. exists [], d. split; [reflexivity|intros []].
    + destruct (IH H) as [pre [post [-> I]]]. exists ((k', b) :: pre), post. split; [reflexivity|]. cbn [map fst In]. intuition congruence.
  - intros [pre [post [-> I]]]. induction pre as [|[k' b] pre IH]; cbn [app lookup]; [rewrite Nat.eqb_refl; reflexivity|]. cbn [map fst In] in I. destruct (Nat.eqb_spec k k') as [<-|N]; [tauto|apply IH; tauto].
Qed.

(** The parts of a drawing *)
Lemma drawing_parts fi ci vi bf body : tikzify_2d_mesh fi ci vi bf = Ok body ->
  exists fills isects draws m ll ur nodes bifs gdim names,
    body = fills ++ concat draws ++ concat nodes ++ names /\
    match ci with Some c => match cd_styles c with Some st => fill_cells (cd_mesh c) (cd_markers c) st = Ok fills | None => fills = [] end | None => fills = [] end /\
    mapM (fun f => corner_points (fd_mesh f) (fd_markers f)) fi = Ok isects /\
    mapM (fun f => draw_facets (fd_mesh f) (fd_markers f) (fd_styles f)) fi = Ok draws /\
    last_mesh ci fi = Ok m /\ axis qmin m = Ok ll /\ axis qmax m = Ok ur /\
    mapM (fun v => draw_vertices (vd_mesh v) (vd_markers v) (vd_styles v)) vi = Ok nodes /\
    match bf with None => bifs = [] | Some tags => match rev fi with f :: _ => bifurcations (fd_mesh f) (fd_markers f) tags = Ok bifs | [] => False end end /\
    gdim = match rev vi with v :: _ => t_gdim (vd_mesh v) | [] => t_gdim m end /\
    name_points gdim (match ci with Some c => cd_mids c | None => [] end ++ concat isects ++ [(ll, LowerLeft); (ur, UpperRight)] ++ bifs) = Ok names.
Proof.
  unfold tikzify_2d_mesh. intros H. apply bind_Ok in H. destruct H as [fills [H1 H]]. apply bind_Ok in H. destruct H as [isects [H2 H]].
  apply bind_Ok in H. destruct H as [draws [H3 H]]. apply bind_Ok in H. destruct H as [m [H4 H]]. apply bind_Ok in H. destruct H as [ll [H5 H]].
  apply bind_Ok in H. destruct H as [ur [H6 H]]. apply bind_Ok in H. destruct H as [nodes [H7 H]]. apply bind_Ok in H. destruct H as [bifs [H8 H]].
  cbv zeta in H. apply bind_Ok in H. destruct H as [names [H9 H]]. apply Ok_inj in H.
  exists fills, isects, draws, m, ll, ur, nodes, bifs. eexists. exists names. split; [symmetry; exact H |].
  split; [destruct ci as [c |]; [destruct (cd_styles c); [exact H1 | apply Ok_inj in H1; congruence] | apply Ok_inj in H1; congruence] |].
  split; [exact H2 |]. split; [exact H3 |]. split; [exact H4 |]. split; [exact H5 |]. split; [exact H6 |]. split; [exact H7 |].
  split; [destruct bf; [destruct (rev fi); [discriminate | exact H8] | apply Ok_inj in H8; congruence] |]. split; [reflexivity | exact H9].
Qed.

(** Which kind of commands the parts have *)
Definition is_fill (c : command) := exists s p, c = Fill s p.
Definition is_draw (c : command) := exists s p, c = Draw s p.
Definition is_node (c : command) := exists s p t, c = Node s p t.
Definition is_name (c : command) := match c with Coordinate _ _ _ | Mark _ => True | _ => False end.
Lemma emit_ok g n ps c d : emit g n ps c = Ok d -> d = c.
Proof. unfold emit. destruct (template_fits g n ps); congruence. Qed.
Lemma fills_kind m mk st fills c : fill_cells m mk st = Ok fills -> In c fills -> is_fill c.
Proof.
  unfold fill_cells. intros H Hc. apply (mapM_In _ _ _ _ H) in Hc. destruct Hc as [[i cell] [_ E]].
  apply bind_Ok in E. destruct E as [k [_ E]]. apply bind_Ok in E. destruct E as [s [_ E]]. apply bind_Ok in E. destruct E as [ps [_ E]]. apply emit_ok in E. subst. unfold is_fill. eauto.
Qed.
Lemma nodes_In m mk st nodes c : draw_vertices m mk st = Ok nodes -> In c nodes -> is_node c.
Proof.
  unfold draw_vertices. intros H Hc. apply bind_Ok in H. destruct H as [cs [H E]]. apply Ok_inj in E. subst nodes. apply (mapM_concat_In _ _ _ _ H) in Hc.
  destruct Hc as [[i x] [ys [_ [E Hc]]]]. apply bind_Ok in E. destruct E as [k [_ E]]. destruct (lookup k st) as [[[s |] t] |]; [| apply Ok_inj in E; subst; destruct Hc | apply Ok_inj in E; subst; destruct Hc].
  apply bind_Ok in E. destruct E as [d [E1 E2]]. apply emit_ok in E1. apply Ok_inj in E2. subst. destruct Hc as [<- | []]. unfold is_node. eauto.
Qed.
Lemma draws_In m mk st draws c : draw_facets m mk st = Ok draws ->
  (In c draws <-> exists col style e ps, In (col, Some style) st /\ coloured m mk col e /\ located_at m e ps /\ c = Draw style ps).
Proof.
  unfold draw_facets. intros H. apply bind_Ok in H. destruct H as [cs [H E]]. apply Ok_inj in E. subst draws. rewrite (mapM_concat_In _ _ _ _ H). split.
  - intros [[col so] [ys [Hs [E Hc]]]]. cbn [fst snd] in E. destruct so as [s |]; [| apply Ok_inj in E; subst; destruct Hc].
    apply (mapM_In _ _ _ _ E) in Hc. destruct Hc as [e [He E2]]. apply bind_Ok in E2. destruct E2 as [ps [Hp E2]]. apply emit_ok in E2. apply points_spec in Hp. apply where_equal_In in He. exists col, s, e, ps. tauto.
  - intros [col [s [e [ps [Hs [He [Hp ->]]]]]]]. exists (col, Some s). apply mapM_ok_forall in H. destruct (Forall2_In_l _ _ _ _ H Hs) as [ys [_ E]]. cbn [fst snd] in E.
    exists ys. split; [exact Hs |]. split; [exact E |]. apply mapM_ok_forall in E. apply where_equal_In in He. destruct (Forall2_In_l _ _ _ _ E He) as [c [Hc Ec]].
    apply points_spec in Hp. rewrite Hp in Ec. cbn [bind] in Ec. apply emit_ok in Ec. subst c. exact Hc.
Qed.
Lemma names_kind g l cs c : name_points g l = Ok cs -> In c cs -> is_name c.
Proof.
  unfold name_points. intros H Hc. apply bind_Ok in H. destruct H as [css [H E]]. apply Ok_inj in E. subst cs. apply (mapM_concat_In _ _ _ _ H) in Hc.
  destruct Hc as [[i [x k]] [ys [_ [E Hc]]]]. apply name_point_ok in E. destruct E as [_ ->]. cbn [fst snd] in Hc. destruct Hc as [<- | Hc]; [exact Logic.I |].
  destruct k; cbn [In] in Hc; try contradiction. destruct Hc as [<- | []]. exact Logic.I.
Qed.

(** The lines of a drawing are the facets whose colour has a style, with that style *)
Theorem C90_lines : forall fi ci vi bf body style ps, tikzify_2d_mesh fi ci vi bf = Ok body ->
  (In (Draw style ps) body <-> exists f c e, In f fi /\ In (c, Some style) (fd_styles f) /\ coloured (fd_mesh f) (fd_markers f) c e /\ located_at (fd_mesh f) e ps).
Proof.
  intros fi ci vi bf body style ps H. apply drawing_parts in H. destruct H as [fills [isects [draws [m [ll [ur [nodes [bifs [g [names [-> [Hf [_ [Hd [_ [_ [_ [Hn [_ [_ Hm]]]]]]]]]]]]]]]]]]]].
  rewrite !in_app_iff. split.
  - intros [X | [X | [X | X]]].
    + exfalso. destruct ci as [c |]; [destruct (cd_styles c) |]; [| subst; destruct X | subst; destruct X]. destruct (fills_kind _ _ _ _ _ Hf X) as [s [p E]]. discriminate E.
    + apply (mapM_concat_In _ _ _ _ Hd) in X. destruct X as [f [ys [Hfi [E Hc]]]]. apply (draws_In _ _ _ _ _ E) in Hc. destruct Hc as [c [s [e [ps' [H1 [H2 [H3 E2]]]]]]]. injection E2 as -> ->. exists f, c, e. tauto.
    + exfalso. apply (mapM_concat_In _ _ _ _ Hn) in X. destruct X as [v [ys [_ [E Hc]]]]. destruct (nodes_In _ _ _ _ _ E Hc) as [s [p [t E2]]]. discriminate E2.
    + exfalso. exact (names_kind _ _ _ _ Hm X).
  - intros [f [c [e [H1 [H2 [H3 H4]]]]]]. right. left. apply mapM_ok_forall in Hd. destruct (Forall2_In_l _ _ _ _ Hd H1) as [ys [Hy E]]. apply in_concat. exists ys. split; [exact Hy |].
    apply (draws_In _ _ _ _ _ E). exists c, style, e, ps. tauto.
Qed.

(** The filled cells are all cells, in the style of their colour *)
Theorem C90_cells : forall fi c st vi bf body style ps, tikzify_2d_mesh fi (Some c) vi bf = Ok body -> cd_styles c = Some st ->
  (In (Fill style ps) body <-> exists i e mk, nth_error (t_cells (cd_mesh c)) i = Some e /\ nth_error (cd_markers c) i = Some mk /\ dict_entry st mk style /\ located_at (cd_mesh c) e ps).
Proof.
  intros fi c st vi bf body style ps H Es. apply drawing_parts in H. destruct H as [fills [isects [draws [m [ll [ur [nodes [bifs [g [names [-> [Hf [_ [Hd [_ [_ [_ [Hn [_ [_ Hm]]]]]]]]]]]]]]]]]]]]. rewrite Es in Hf.
  assert (K : In (Fill style ps) fills <-> exists i e mk, nth_error (t_cells (cd_mesh c)) i = Some e /\ nth_error (cd_markers c) i = Some mk /\ dict_entry st mk style /\ located_at (cd_mesh c) e ps).
  { unfold fill_cells in Hf. split.
    - intros X. apply (mapM_In _ _ _ _ Hf) in X. destruct X as [[i e] [Hi E]]. apply bind_Ok in E. destruct E as [k [Hk E]]. apply bind_Ok in E. destruct E as [s [Hs E]]. apply bind_Ok in E. destruct E as [qs [Hq E]]. apply emit_ok in E. injection E as -> ->.
      apply combine_nth_In in Hi. destruct Hi as [j [Hj He]]. assert (Lj : j < length (t_cells (cd_mesh c))) by (apply nth_error_Some; congruence). rewrite nth_error_nth' with (d := 0) in Hj by (rewrite seq_length; exact Lj). rewrite seq_nth in Hj by exact Lj. injection Hj as Hj. subst i.
      exists j, e, k. apply points_spec in Hq. split; [exact He |]. split; [destruct (nth_error (cd_markers c) (0 + j)) eqn:E1; cbn in E1; rewrite E1 in *; cbn in Hk; congruence |]. split; [apply lookup_entry; destruct (lookup k st); cbn in Hs; congruence | exact Hq].
    - intros [i [e [k [He [Hk [Hs Hq]]]]]]. assert (Hin : In (i, e) (combine (seq 0 (length (t_cells (cd_mesh c)))) (t_cells (cd_mesh c)))).
      { apply combine_nth_In. exists i. split; [| exact He]. assert (i < length (t_cells (cd_mesh c))) by (apply nth_error_Some; congruence). rewrite nth_error_nth' with (d := 0) by (rewrite seq_length; assumption). rewrite seq_nth by assumption. reflexivity. }
      apply mapM_ok_forall in Hf. destruct (Forall2_In_l _ _ _ _ Hf Hin) as [d [Hd' Ed]]. rewrite Hk in Ed. cbn [opt_res bind] in Ed. apply lookup_entry in Hs. rewrite Hs in Ed. cbn [opt_res bind] in Ed. apply points_spec in Hq. rewrite Hq in Ed. cbn [bind] in Ed. apply emit_ok in Ed. subst d. exact Hd'. }
  rewrite <- K, !in_app_iff. split; [| tauto]. intros [X | [X | [X | X]]]; [exact X | | |]; exfalso.
  - apply (mapM_concat_In _ _ _ _ Hd) in X. destruct X as [f [ys [_ [E Hc]]]]. apply (draws_In _ _ _ _ _ E) in Hc. destruct Hc as [c1 [s [e [ps' [_ [_ [_ E2]]]]]]]. discriminate E2.
  - apply (mapM_concat_In _ _ _ _ Hn) in X. destruct X as [v [ys [_ [E Hc]]]]. destruct (nodes_In _ _ _ _ _ E Hc) as [s [p [t E2]]]. discriminate E2.
  - exact (names_kind _ _ _ _ Hm X).
Qed.
(** The nodes are the vertices whose marker has a style, with their text *)
Theorem C90_nodes : forall fi ci vi bf body style x text, tikzify_2d_mesh fi ci vi bf = Ok body ->
  (In (Node style x text) body <-> exists d i mk, In d vi /\ nth_error (t_coords (vd_mesh d)) i = Some x /\ nth_error (vd_markers d) i = Some mk /\ dict_entry (vd_styles d) mk (Some style, text)).
Proof.
  intros fi ci vi bf body style x text H. apply drawing_parts in H. destruct H as [fills [isects [draws [m [ll [ur [nodes [bifs [g [names [-> [Hf [_ [Hd [_ [_ [_ [Hn [_ [_ Hm]]]]]]]]]]]]]]]]]]]].
  rewrite !in_app_iff. split.
  - intros [X | [X | [X | X]]].
    + exfalso. destruct ci as [c |]; [destruct (cd_styles c) |]; [| subst; destruct X | subst; destruct X]. destruct (fills_kind _ _ _ _ _ Hf X) as [s [p E]]. discriminate E.
    + exfalso. apply (mapM_concat_In _ _ _ _ Hd) in X. destruct X as [f [ys [_ [E Hc]]]]. apply (draws_In _ _ _ _ _ E) in Hc. destruct Hc as [c1 [s [e [ps' [_ [_ [_ E2]]]]]]]. discriminate E2.
    + apply (mapM_concat_In _ _ _ _ Hn) in X. destruct X as [d [ys [Hdv [E Hc]]]]. unfold draw_vertices in E. apply bind_Ok in E. destruct E as [cs [E E']]. apply Ok_inj in E'. subst ys.
      apply (mapM_concat_In _ _ _ _ E) in Hc. destruct Hc as [[i y] [ys [Hi [E1 Hc]]]]. apply bind_Ok in E1. destruct E1 as [k [Hk E1]].
      destruct (lookup k (vd_styles d)) as [[[s |] t] |] eqn:El; [| apply Ok_inj in E1; subst ys; destruct Hc | apply Ok_inj in E1; subst ys; destruct Hc].
      apply bind_Ok in E1. destruct E1 as [c' [E1 E2]]. apply emit_ok in E1. apply Ok_inj in E2. subst. destruct Hc as [Hc | []]. injection Hc as -> -> ->.
      apply combine_nth_In in Hi. destruct Hi as [j [Hj He]]. assert (Lj : j < length (t_coords (vd_mesh d))) by (apply nth_error_Some; congruence). rewrite nth_error_nth' with (d := 0) in Hj by (rewrite seq_length; exact Lj). rewrite seq_nth in Hj by exact Lj. injection Hj as Hj. subst i.
      exists d, j, k. split; [exact Hdv |]. split; [exact He |]. split; [| apply lookup_entry; exact El]. cbn [Nat.add] in Hk. destruct (nth_error (vd_markers d) j); cbn in Hk; congruence.
    + exfalso. exact (names_kind _ _ _ _ Hm X).
  - intros [d [i [k [Hdv [He [Hk El]]]]]]. right. right. left. apply mapM_ok_forall in Hn. destruct (Forall2_In_l _ _ _ _ Hn Hdv) as [ys [Hy E]]. apply in_concat. exists ys. split; [exact Hy |].
    unfold draw_vertices in E. apply bind_Ok in E. destruct E as [cs [E E']]. apply Ok_inj in E'. subst ys.
    assert (Hin : In (i, x) (combine (seq 0 (length (t_coords (vd_mesh d)))) (t_coords (vd_mesh d)))).
    { apply combine_nth_In. exists i. split; [| exact He]. assert (i < length (t_coords (vd_mesh d))) by (apply nth_error_Some; congruence). rewrite nth_error_nth' with (d := 0) by (rewrite seq_length; assumption). rewrite seq_nth by assumption. reflexivity. }
    apply mapM_ok_forall in E. destruct (Forall2_In_l _ _ _ _ E Hin) as [zs [Hz Ez]]. rewrite Hk in Ez. cbn [opt_res bind] in Ez. apply lookup_entry in El. rewrite El in Ez. apply bind_Ok in Ez. destruct Ez as [c' [E1 E2]]. apply emit_ok in E1. apply Ok_inj in E2. subst.
    apply in_concat. eexists. split; [exact Hz | left; reflexivity].
Qed.
(** Marked are the names of bifurcations *)
Theorem C90_marks : forall fi ci vi bf body lab, tikzify_2d_mesh fi ci vi bf = Ok body ->
  (In (Mark lab) body <-> exists p, In (Coordinate lab p Bif) body).
Proof.
  intros fi ci vi bf body lab H. apply drawing_parts in H. destruct H as [fills [isects [draws [m [ll [ur [nodes [bifs [g [names [-> [Hf [_ [Hd [_ [_ [_ [Hn [_ [_ Hm]]]]]]]]]]]]]]]]]]]].
  assert (K : forall c, is_name c -> (In c (fills ++ concat draws ++ concat nodes ++ names) <-> In c names)).
  { intros c Hc. rewrite !in_app_iff. split; [| tauto]. intros [X | [X | [X | X]]]; [| | | exact X]; exfalso.
    - destruct ci as [c0 |]; [destruct (cd_styles c0) |]; [| subst; destruct X | subst; destruct X]. destruct (fills_kind _ _ _ _ _ Hf X) as [s [p ->]]. exact Hc.
    - apply (mapM_concat_In _ _ _ _ Hd) in X. destruct X as [f [ys [_ [E Hx]]]]. apply (draws_In _ _ _ _ _ E) in Hx. destruct Hx as [c1 [s [e [ps' [_ [_ [_ ->]]]]]]]. exact Hc.
    - apply (mapM_concat_In _ _ _ _ Hn) in X. destruct X as [v [ys [_ [E Hx]]]]. destruct (nodes_In _ _ _ _ _ E Hx) as [s [p [t ->]]]. exact Hc. }
  rewrite (K (Mark lab) Logic.I). unfold name_points in Hm. apply bind_Ok in Hm. destruct Hm as [css [Hm E]]. apply Ok_inj in E. subst names. split.
  - intros X. apply (mapM_concat_In _ _ _ _ Hm) in X. destruct X as [[i [x k]] [ys [Hi [E Hy]]]]. pose proof (name_point_ok _ _ _ _ E) as [_ Ey]. cbn [fst snd] in Ey. rewrite Ey in Hy.
    destruct Hy as [Hy | Hy]; [discriminate Hy |]. destruct k; cbn [In] in Hy; try contradiction. destruct Hy as [Hy | []]. injection Hy as <-.
    eexists. apply K; [exact Logic.I |]. apply (mapM_concat_In _ _ _ _ Hm). exists (i, (x, Bif)), ys. split; [exact Hi |]. split; [exact E |]. rewrite Ey. left. reflexivity.
  - intros [p X]. apply K in X; [| exact Logic.I]. apply (mapM_concat_In _ _ _ _ Hm) in X. destruct X as [[i [x k]] [ys [Hi [E Hy]]]]. pose proof (name_point_ok _ _ _ _ E) as [_ Ey]. cbn [fst snd] in Ey. rewrite Ey in Hy.
    apply (mapM_concat_In _ _ _ _ Hm). exists (i, (x, k)), ys. split; [exact Hi |]. split; [exact E |]. rewrite Ey.
    destruct Hy as [Hy | Hy]; [injection Hy as <- _ ->; right; left; reflexivity |]. destruct k; cbn [In] in Hy; try contradiction. destruct Hy as [Hy | []]. discriminate Hy.
Qed.
(** The named points, in order *)
Lemma drawing_named g fi ci vi bf body : tikzify_2d_mesh fi ci vi bf = Ok body -> consistent g fi ci vi ->
  exists isects m ll ur bifs,
   mapM (fun f => corner_points (fd_mesh f) (fd_markers f)) fi = Ok isects /\ last_mesh ci fi = Ok m /\ axis qmin m = Ok ll /\ axis qmax m = Ok ur /\ of_dim g m /\
   match bf with None => bifs = [] | Some tags => match rev fi with f :: _ => bifurcations (fd_mesh f) (fd_markers f) tags = Ok bifs | [] => False end end /\
   named body = match ci with Some c => cd_mids c | None => [] end ++ concat isects ++ [(ll, LowerLeft); (ur, UpperRight)] ++ bifs.
Proof.
  intros H [Hg [Cf [Cv Cc]]]. apply drawing_parts in H. destruct H as [fills [isects [draws [m [ll [ur [nodes [bifs [gdim [names [-> [Hf [Hi [Hd [Hl [H1 [H2 [Hn [Hb [Eg Hm]]]]]]]]]]]]]]]]]]]].
  exists isects, m, ll, ur, bifs.
  assert (Kf : forall c, In c fills -> is_fill c).
  { intros c' X. destruct ci as [c0 |]; [destruct (cd_styles c0) |]; [| subst; destruct X | subst; destruct X]. exact (fills_kind _ _ _ _ _ Hf X). }
  assert (Kd : forall c, In c (concat draws) -> is_draw c).
  { intros c' X. apply (mapM_concat_In _ _ _ _ Hd) in X. destruct X as [f [ys [_ [E Hc]]]]. apply (draws_In _ _ _ _ _ E) in Hc. destruct Hc as [c1 [s [e [ps' [_ [_ [_ E2]]]]]]]. unfold is_draw. eauto. }
  assert (Kn : forall c, In c (concat nodes) -> is_node c).
  { intros c' X. apply (mapM_concat_In _ _ _ _ Hn) in X. destruct X as [v [ys [_ [E Hc]]]]. exact (nodes_In _ _ _ _ _ E Hc). }
  assert (Dm : of_dim g m).
  { unfold last_mesh in Hl. destruct (rev fi) as [| f r] eqn:Er.
    - destruct ci as [c |]; [| discriminate]. apply Ok_inj in Hl. subst m. apply (Cc c eq_refl).
    - apply Ok_inj in Hl. subst m. apply Cf. apply in_rev. rewrite Er. left. reflexivity. }
  split; [exact Hi |]. split; [exact Hl |]. split; [exact H1 |]. split; [exact H2 |]. split; [exact Dm |]. split; [exact Hb |].
  assert (Gd : gdim = g).
  { destruct (rev vi) as [| v r] eqn:Er; [rewrite Eg; apply Dm |]. rewrite Eg. apply Cv. apply in_rev. rewrite Er. left. reflexivity. }
  unfold named. rewrite !flat_map_app.
  assert (Z : forall l : list command, (forall c, In c l -> is_fill c \/ is_draw c \/ is_node c) -> flat_map (fun c => match c with Coordinate _ p k => [(p, k)] | _ => [] end) l = []).
  { induction l as [| x l IH]; intros K; [reflexivity |]. cbn [flat_map]. rewrite IH by (intros y Hy; apply K; right; exact Hy).
    destruct (K x (or_introl eq_refl)) as [[s [q ->]] | [[s [q ->]] | [s [q [t ->]]]]]; reflexivity. }
  rewrite (Z fills) by (intros x Hx; left; apply Kf; exact Hx). rewrite (Z (concat draws)) by (intros x Hx; right; left; apply Kd; exact Hx).
  rewrite (Z (concat nodes)) by (intros x Hx; right; right; apply Kn; exact Hx). cbn [app].
  apply (name_points_named gdim); [exact Hm | | rewrite Gd; exact Hg].
  assert (Kp : forall m', of_dim g m' -> forall v x, point m' v = Ok x -> length x = g).
  { intros m' [_ F] v x E. apply point_spec in E. apply nth_error_In in E. rewrite Forall_forall in F. apply F. exact E. }
  rewrite Gd. intros x k Hx. apply in_app_iff in Hx. destruct Hx as [Hx | Hx].
  { destruct ci as [c |]; [| destruct Hx]. destruct (Cc c eq_refl) as [_ Hc]. exact (proj1 (Hc x k Hx)). }
  apply in_app_iff in Hx. destruct Hx as [Hx | Hx].
  { apply (mapM_concat_In _ _ _ _ Hi) in Hx. destruct Hx as [f [ys [Hfi [E Hy]]]]. unfold corner_points in E. apply (mapM_In _ _ _ _ E) in Hy. destruct Hy as [vc [_ E2]].
    apply bind_Ok in E2. destruct E2 as [x' [Ep E2]]. apply Ok_inj in E2. injection E2 as <- _. exact (Kp _ (Cf f Hfi) _ _ Ep). }
  assert (Bx : forall pick r, axis pick m = Ok r -> length r = g).
  { intros pick r E. destruct Dm as [Em Fm]. unfold axis in E. destruct (t_coords m) as [| y ys]; [discriminate |]. apply Ok_inj in E. subst r. inversion Fm as [| y' ys' Hy Hys]; subst.
    assert (Kl : forall l acc, length acc = length y -> Forall (fun x => length x = length y) l -> length (fold_left (fun acc y => map (fun p => pick (fst p) (snd p)) (combine acc y)) l acc) = length y).
    { induction l as [| z l IH]; intros acc Ha Fl; [exact Ha |]. inversion Fl as [| z' l' Hz Fl']; subst. cbn [fold_left]. apply IH; [| exact Fl']. rewrite map_length, combine_length. lia. }
    rewrite <- Hy. apply Kl; [reflexivity |]. rewrite Hy. exact Hys. }
  destruct Hx as [Hx | [Hx | Hx]]; [injection Hx as <- _; exact (Bx _ _ H1) | injection Hx as <- _; exact (Bx _ _ H2) |].
  destruct bf as [tags |]; [| subst; destruct Hx]. destruct (rev fi) as [| f r] eqn:Er; [destruct Hb |]. unfold bifurcations in Hb. cbv zeta in Hb. apply (mapM_In _ _ _ _ Hb) in Hx. destruct Hx as [v [_ E2]].
  apply bind_Ok in E2. destruct E2 as [x' [Ep E2]]. apply Ok_inj in E2. injection E2 as <- _. apply (Kp (fd_mesh f)) with (v := v); [apply Cf; apply in_rev; rewrite Er; left; reflexivity | exact Ep].
Qed.
Lemma corner_points_In m mk l p a b : corner_points m mk = Ok l -> (In (p, Isect a b) l <-> exists v, meets m mk a b v /\ nth_error (t_coords m) v = Some p).
Proof.
  intros H. unfold corner_points in H. rewrite (mapM_In _ _ _ _ H). split.
  - intros [[v [a' b']] [Hv E]]. cbn [fst snd] in E. apply bind_Ok in E. destruct E as [x [Hx E]]. apply Ok_inj in E. injection E as -> -> ->. apply corners_In in Hv. apply point_spec in Hx. eauto.
  - intros [v [Hv Hx]]. exists (v, (a, b)). split; [apply corners_In; exact Hv |]. cbn [fst snd]. apply point_spec in Hx. rewrite Hx. reflexivity.
Qed.
Lemma corner_points_kind m mk l p k : corner_points m mk = Ok l -> In (p, k) l -> exists a b, k = Isect a b.
Proof.
  intros H Hp. unfold corner_points in H. apply (mapM_In _ _ _ _ H) in Hp. destruct Hp as [vc [_ E]]. apply bind_Ok in E. destruct E as [x [_ E]]. apply Ok_inj in E. injection E as _ <-. eauto.
Qed.
Lemma bifurcations_In m mk tags l p k : bifurcations m mk tags = Ok l -> In (p, k) l -> k = Bif.
Proof. intros H Hp. unfold bifurcations in H. cbv zeta in H. apply (mapM_In _ _ _ _ H) in Hp. destruct Hp as [v [_ E]]. apply bind_Ok in E. destruct E as [x [_ E]]. apply Ok_inj in E. injection E as _ <-. reflexivity. Qed.

(** Named as corners are, for every two colours other than 0, the vertices where facets of the two meet *)
Theorem C90_corners : forall g fi ci vi bf body p a b, tikzify_2d_mesh fi ci vi bf = Ok body -> consistent g fi ci vi ->
  (In (p, Isect a b) (named body) <-> exists f v, In f fi /\ meets (fd_mesh f) (fd_markers f) a b v /\ nth_error (t_coords (fd_mesh f)) v = Some p).
Proof.
  intros g fi ci vi bf body p a b H C. destruct (drawing_named g _ _ _ _ _ H C) as [isects [m [ll [ur [bifs [Hi [_ [_ [_ [_ [Hb En]]]]]]]]]]]. rewrite En, !in_app_iff. split.
  - intros [X | [X | [X | X]]].
    + exfalso. destruct ci as [c |]; [| destruct X]. destruct C as [_ [_ [_ Cc]]]. destruct (Cc c eq_refl) as [_ Hc]. destruct (Hc _ _ X) as [_ [d E]]. discriminate E.
    + apply (mapM_concat_In _ _ _ _ Hi) in X. destruct X as [f [ys [Hf [E Hy]]]]. apply (corner_points_In _ _ _ _ _ _ E) in Hy. destruct Hy as [v [H1 H2]]. exists f, v. tauto.
    + exfalso. destruct X as [X | [X | []]]; discriminate X.
    + exfalso. destruct bf as [tags |]; [| subst; destruct X]. destruct (rev fi); [destruct Hb |]. apply (bifurcations_In _ _ _ _ _ _ Hb) in X. discriminate X.
  - intros [f [v [Hf [H1 H2]]]]. right. left. apply mapM_ok_forall in Hi. destruct (Forall2_In_l _ _ _ _ Hi Hf) as [ys [Hy E]]. apply in_concat. exists ys. split; [exact Hy |]. apply (corner_points_In _ _ _ _ _ _ E). eauto.
Qed.
(** and each once: as many as there are such vertices *)
Definition isect_of (a b : nat) (pk : vec * comment) : bool := match snd pk with Isect c d => Nat.eqb a c && Nat.eqb b d | _ => false end.
Lemma filter_none {A} (f : A -> bool) l : (forall x, In x l -> f x = false) -> filter f l = [].
Proof. induction l as [| x l IH]; intros H; [reflexivity |]. cbn [filter]. rewrite (H x (or_introl eq_refl)). apply IH. intros y Hy. apply H. right. exact Hy. Qed.
Theorem C90_corners_once : forall g f ci vi bf body a b vs, tikzify_2d_mesh [f] ci vi bf = Ok body -> consistent g [f] ci vi ->
  NoDup vs -> (forall v, In v vs <-> meets (fd_mesh f) (fd_markers f) a b v) -> length (filter (isect_of a b) (named body)) = length vs.
Proof.
  intros g f ci vi bf body a b vs H C ND Hv. destruct (drawing_named g _ _ _ _ _ H C) as [isects [m [ll [ur [bifs [Hi [_ [_ [_ [_ [Hb En]]]]]]]]]]]. rewrite En, !filter_app.
  rewrite (filter_none _ (match ci with Some c => cd_mids c | None => [] end)).
  2: { intros [x k] X. destruct ci as [c |]; [| destruct X]. destruct C as [_ [_ [_ Cc]]]. destruct (Cc c eq_refl) as [_ Hc]. destruct (Hc _ _ X) as [_ [d ->]]. reflexivity. }
  rewrite (filter_none _ bifs).
  2: { intros [x k] X. destruct bf as [tags |]; [| subst; destruct X]. cbn [rev app] in Hb. apply (bifurcations_In _ _ _ _ _ _ Hb) in X. subst k. reflexivity. }
  cbn [filter isect_of snd app]. rewrite app_nil_r.
  rewrite mapM_cons in Hi. apply bind_Ok in Hi. destruct Hi as [l [Hl Hi]]. cbn in Hi. apply Ok_inj in Hi. subst isects. cbn [concat]. rewrite app_nil_r.
  pose proof (corners_NoDup (fd_mesh f) (fd_markers f)) as NC. pose proof (corners_In (fd_mesh f) (fd_markers f)) as IC. unfold corner_points in Hl. apply mapM_ok_forall in Hl.
  set (sel := fun vc : nat * (nat * nat) => Nat.eqb a (fst (snd vc)) && Nat.eqb b (snd (snd vc))).
  assert (L : length (filter (isect_of a b) l) = length (filter sel (corners (fd_mesh f) (fd_markers f)))).
  { clear - Hl. induction Hl as [| vc y l0 l1 Hy Hl IH]; [reflexivity |]. apply bind_Ok in Hy. destruct Hy as [x [_ Hy]]. apply Ok_inj in Hy. subst y. cbn [filter]. unfold isect_of, sel in *. cbn [snd].
    destruct ((a =? fst (snd vc)) && (b =? snd (snd vc))); cbn [length]; rewrite IH; reflexivity. }
  rewrite L.
  assert (P : length (filter sel (corners (fd_mesh f) (fd_markers f))) = length (map (fun v => (v, (a, b))) vs)).
  { apply Nat.le_antisymm; apply NoDup_incl_length.
    - apply NoDup_filter. exact NC.
    - intros [v [c d]] X. apply filter_In in X. destruct X as [X S]. unfold sel in S. cbn [fst snd] in S. apply andb_true_iff in S. destruct S as [S1 S2]. apply Nat.eqb_eq in S1. apply Nat.eqb_eq in S2. subst c d.
      apply (in_map (fun v => (v, (a, b)))). apply Hv. apply IC. exact X.
    - apply NoDup_map_inj; [intros u w E; congruence | exact ND].
    - intros [v cd] X. apply in_map_iff in X. destruct X as [w [E X]]. injection E as -> <-. apply filter_In. split; [apply IC; apply Hv; exact X |]. unfold sel. cbn [fst snd]. rewrite !Nat.eqb_refl. reflexivity. }
  rewrite P. apply map_length.
Qed.
(** The names of points are different, and two letters after P for at most 676 points - else not *)
Theorem C90_labels : forall fi ci vi bf body, tikzify_2d_mesh fi ci vi bf = Ok body ->
  NoDup (labels body) /\ (Forall letters (labels body) <-> length (labels body) <= 676).
Proof.
  intros fi ci vi bf body H. apply drawing_parts in H. destruct H as [fills [isects [draws [m [ll [ur [nodes [bifs [gdim [names [-> [Hf [Hi [Hd [Hl [H1 [H2 [Hn [Hb [Eg Hm]]]]]]]]]]]]]]]]]]]].
  assert (Z : forall l : list command, (forall c, In c l -> is_fill c \/ is_draw c \/ is_node c) -> labels l = []).
  { induction l as [| x l IH]; intros K; [reflexivity |]. unfold labels in *. cbn [flat_map]. rewrite IH by (intros y Hy; apply K; right; exact Hy).
    destruct (K x (or_introl eq_refl)) as [[s [q ->]] | [[s [q ->]] | [s [q [t ->]]]]]; reflexivity. }
  assert (E : labels (fills ++ concat draws ++ concat nodes ++ names) = labels names).
  { unfold labels at 1. rewrite !flat_map_app. fold (labels fills) (labels (concat draws)) (labels (concat nodes)) (labels names). rewrite (Z fills), (Z (concat draws)), (Z (concat nodes)); [reflexivity | | |].
    - intros c' X. right. right. apply (mapM_concat_In _ _ _ _ Hn) in X. destruct X as [v [ys [_ [E Hc]]]]. exact (nodes_In _ _ _ _ _ E Hc).
    - intros c' X. right. left. apply (mapM_concat_In _ _ _ _ Hd) in X. destruct X as [f [ys [_ [E Hc]]]]. apply (draws_In _ _ _ _ _ E) in Hc. destruct Hc as [c1 [s [e [ps' [_ [_ [_ E2]]]]]]]. unfold is_draw. eauto.
    - intros c' X. left. destruct ci as [c0 |]; [destruct (cd_styles c0) |]; [| subst; destruct X | subst; destruct X]. exact (fills_kind _ _ _ _ _ Hf X). }
  rewrite E, (name_points_labels _ _ _ Hm). generalize (length (match ci with Some c => cd_mids c | None => [] end ++ concat isects ++ [(ll, LowerLeft); (ur, UpperRight)] ++ bifs)) as n. intros n.
  split; [apply NoDup_map_inj; [exact label_inj | apply seq_NoDup] |]. rewrite map_length, seq_length, Forall_forall. split.
  - intros F. destruct (Nat.le_gt_cases n 676) as [L | L]; [exact L |]. assert (X : letters (label 676)) by (apply F; apply in_map; apply in_seq; lia). apply label_letters in X. lia.
  - intros L l Hin. apply in_map_iff in Hin. destruct Hin as [i [<- Hs]]. apply in_seq in Hs. apply label_letters. lia.
Qed.
(** The lower left and the upper right corner: the smallest and largest coordinates of the LAST mesh *)
Theorem C90_box_partial : forall g pre f ci vi bf body, tikzify_2d_mesh (pre ++ [f]) ci vi bf = Ok body -> consistent g (pre ++ [f]) ci vi ->
  exists ll ur, In (ll, LowerLeft) (named body) /\ In (ur, UpperRight) (named body) /\
    forall i, i < g -> (forall y, In y (t_coords (fd_mesh f)) -> (vnth ll i <= vnth y i)%Qc /\ (vnth y i <= vnth ur i)%Qc) /\
      (exists y, In y (t_coords (fd_mesh f)) /\ vnth ll i = vnth y i) /\ exists y, In y (t_coords (fd_mesh f)) /\ vnth ur i = vnth y i.
Proof.
  intros g pre f ci vi bf body H C. destruct (drawing_named g _ _ _ _ _ H C) as [isects [m [ll [ur [bifs [_ [Hm [H1 [H2 [[Eg F] [_ En]]]]]]]]]]].
  assert (Em : fd_mesh f = m). { unfold last_mesh in Hm. rewrite rev_app_distr in Hm. cbn in Hm. apply Ok_inj in Hm. exact Hm. } rewrite Em.
  exists ll, ur. rewrite En. split; [rewrite !in_app_iff; right; right; left; left; reflexivity |]. split; [rewrite !in_app_iff; right; right; left; right; left; reflexivity |].
  rewrite <- Eg in F.
  destruct (axis_box qmin Qcle m ll) as [_ B1]; [apply Qcle_refl | apply Qcle_trans | | exact F | exact H1 |].
  { intros a b. unfold qmin. destruct (Qclt_le_dec b a) as [L | L]; [split; [apply Qclt_le_weak; exact L | split; [apply Qcle_refl | right; reflexivity]] | split; [apply Qcle_refl | split; [exact L | left; reflexivity]]]. }
  destruct (axis_box qmax (fun a b => b <= a)%Qc m ur) as [_ B2]; [intros a; apply Qcle_refl | intros a b c L1 L2; exact (Qcle_trans _ _ _ L2 L1) | | exact F | exact H2 |].
  { intros a b. unfold qmax. destruct (Qclt_le_dec a b) as [L | L]; [split; [apply Qclt_le_weak; exact L | split; [apply Qcle_refl | right; reflexivity]] | split; [apply Qcle_refl | split; [exact L | left; reflexivity]]]. }
  intros i Hi. rewrite <- Eg in Hi. destruct (B1 i Hi) as [P1 Q1]. destruct (B2 i Hi) as [P2 Q2]. split; [intros y Hy; split; [apply P1; exact Hy | apply P2; exact Hy] | split; [exact Q1 | exact Q2]].
Qed.
(** Bifurcations: the vertices with more than two facets of the given colours, of the LAST mesh *)
Definition forks (m : tmesh) (markers tags : list nat) (v : nat) : Prop :=
  exists i j k, i < j < k /\ forall n, n = i \/ n = j \/ n = k -> exists c e, In c tags /\ nth_error markers n = Some c /\ nth_error (t_edges m) n = Some e /\ In v e.

Lemma count_step {A} (P : A -> bool) n l : S n <= length (filter P l) <-> exists i x, nth_error l i = Some x /\ P x = true /\ n <= length (filter P (skipn (S i) l)).
Proof.
  induction l as [| y l IH]; [cbn; split; [lia | intros [[| i] [x [H _]]]; discriminate] |]. cbn [filter]. destruct (P y) eqn:E.
  - cbn [length]. split.
    + intros H. exists 0, y. cbn [nth_error skipn]. split; [reflexivity |]. split; [exact E | lia].
    + intros [[| i] [x [H1 [H2 H3]]]]; [cbn [skipn] in H3; lia |]. cbn [nth_error] in H1. assert (K : S n <= length (filter P l)) by (apply IH; exists i, x; auto). lia.
  - rewrite IH. split.
    + intros [i [x [H1 [H2 H3]]]]. exists (S i), x. auto.
    + intros [[| i] [x [H1 [H2 H3]]]]; cbn [nth_error] in H1; [congruence |]. exists i, x. auto.
Qed.
Lemma nth_error_skipn {A} n : forall (l : list A) i, nth_error (skipn n l) i = nth_error l (n + i).
Proof. induction n as [| n IH]; intros l i; [reflexivity |]. destruct l as [| x l]; [destruct i; reflexivity |]. cbn [skipn Nat.add nth_error]. apply IH. Qed.
Lemma skipn_skipn' {A} n m (l : list A) : skipn n (skipn m l) = skipn (m + n) l.
Proof. revert l. induction m as [| m IH]; intros l; [reflexivity |]. destruct l as [| x l]; [destruct n; reflexivity |]. cbn [skipn Nat.add]. apply IH. Qed.
Lemma count_three {A} (P : A -> bool) l : 2 < length (filter P l) <-> exists i j k, i < j < k /\ forall n, n = i \/ n = j \/ n = k -> exists x, nth_error l n = Some x /\ P x = true.
Proof.
  split.
  - intros H. apply count_step in H. destruct H as [i [x [H1 [H2 H]]]]. apply count_step in H. destruct H as [j [y [H3 [H4 H]]]]. apply count_step in H. destruct H as [k [z [H5 [H6 _]]]].
    rewrite nth_error_skipn in H3. rewrite skipn_skipn', nth_error_skipn in H5. exists i, (S i + j), (S i + S j + k). split; [lia |]. intros n [-> | [-> | ->]]; eauto.
  - intros [i [j [k [L H]]]]. destruct (H i) as [x [H1 H2]]; [tauto |]. destruct (H j) as [y [H3 H4]]; [tauto |]. destruct (H k) as [z [H5 H6]]; [tauto |].
    apply count_step. exists i, x. split; [exact H1 |]. split; [exact H2 |]. apply count_step. exists (j - S i), y. rewrite nth_error_skipn. replace (S i + (j - S i)) with j by lia. split; [exact H3 |]. split; [exact H4 |].
    rewrite skipn_skipn'. apply count_step. exists (k - S j), z. rewrite nth_error_skipn. replace (S i + S (j - S i) + (k - S j)) with k by lia. split; [exact H5 |]. split; [exact H6 | lia].
Qed.
Lemma filter_map_filter {A B} (f : A -> B) (p : A -> bool) (q : B -> bool) l : length (filter q (map f (filter p l))) = length (filter (fun x => p x && q (f x)) l).
Proof. induction l as [| x l IH]; [reflexivity |]. cbn [filter]. destruct (p x); cbn [map filter andb]; [destruct (q (f x)); cbn [length]; rewrite IH; reflexivity | exact IH]. Qed.
Lemma combine_nth_error {A B} (l : list A) : forall (r : list B) n a b, nth_error (combine l r) n = Some (a, b) <-> nth_error l n = Some a /\ nth_error r n = Some b.
Proof.
  induction l as [| x l IH]; intros r n a b; [destruct n; cbn; split; [discriminate | intros [H _]; discriminate H | discriminate | intros [H _]; discriminate H] |].
  destruct r as [| y r]; [destruct n; cbn; split; try discriminate; intros [_ H]; discriminate H |].
  destruct n as [| n]; cbn [combine nth_error]; [split; [intros H; injection H as -> ->; tauto | intros [H1 H2]; congruence] | apply IH].
Qed.
Lemma existsb_In v l : existsb (Nat.eqb v) l = true <-> In v l.
Proof. rewrite existsb_exists. split; [intros [x [H E]]; apply Nat.eqb_eq in E; congruence | intros H; exists v; split; [exact H | apply Nat.eqb_refl]]. Qed.
Lemma bifurcations_spec m mk tags l p : bifurcations m mk tags = Ok l -> (In (p, Bif) l <-> exists v, forks m mk tags v /\ nth_error (t_coords m) v = Some p).
Proof.
  intros H. unfold bifurcations in H. cbv zeta in H. set (marked := map snd _) in H. rewrite (mapM_In _ _ _ _ H).
  assert (K : forall v, (2 <? length (filter (fun e => existsb (Nat.eqb v) e) marked)) = true <-> forks m mk tags v).
  { intros v. rewrite Nat.ltb_lt. unfold marked. rewrite filter_map_filter, count_three. unfold forks. split; intros [i [j [k [L Hn]]]]; exists i, j, k; (split; [exact L |]); intros n Hn'; specialize (Hn n Hn').
    - destruct Hn as [[c e] [H1 H2]]. apply combine_nth_error in H1. apply andb_true_iff in H2. destruct H2 as [H2 H3]. cbn [fst snd] in *. apply existsb_In in H2. apply existsb_In in H3. exists c, e. tauto.
    - destruct Hn as [c [e [H1 [H2 [H3 H4]]]]]. exists (c, e). split; [apply combine_nth_error; tauto |]. cbn [fst snd]. apply andb_true_iff. rewrite !existsb_In. tauto. }
  split.
  - intros [v [Hv E]]. apply filter_In in Hv. destruct Hv as [_ Hv]. apply K in Hv. apply bind_Ok in E. destruct E as [x [Hx E]]. apply Ok_inj in E. injection E as ->. apply point_spec in Hx. eauto.
  - intros [v [Hv Hx]]. exists v. split; [| apply point_spec in Hx; rewrite Hx; reflexivity]. apply filter_In. split; [| apply K; exact Hv].
    destruct Hv as [i [j [k [_ Hn]]]]. destruct (Hn i) as [c [e [H1 [H2 [H3 H4]]]]]; [tauto |]. unfold nubn. apply nodup_In. apply in_concat. exists e. split; [| exact H4].
    unfold marked. apply in_map_iff. exists (c, e). split; [reflexivity |]. apply filter_In. split; [apply combine_nth_In; exists i; tauto | cbn [fst]; apply existsb_In; exact H1].
Qed.
Theorem C90_forks_partial : forall g pre f ci vi tags body p, tikzify_2d_mesh (pre ++ [f]) ci vi (Some tags) = Ok body -> consistent g (pre ++ [f]) ci vi ->
  (In (p, Bif) (named body) <-> exists v, forks (fd_mesh f) (fd_markers f) tags v /\ nth_error (t_coords (fd_mesh f)) v = Some p).
Proof.
  intros g pre f ci vi tags body p H C. destruct (drawing_named g _ _ _ _ _ H C) as [isects [m [ll [ur [bifs [Hi [_ [_ [_ [_ [Hb En]]]]]]]]]]].
  rewrite rev_app_distr in Hb. cbn [rev app] in Hb. rewrite <- (bifurcations_spec _ _ _ _ _ Hb), En, !in_app_iff. split; [| tauto]. intros [X | [X | [X | X]]]; [| | | exact X]; exfalso.
  - destruct ci as [c |]; [| destruct X]. destruct C as [_ [_ [_ Cc]]]. destruct (Cc c eq_refl) as [_ Hc]. destruct (Hc _ _ X) as [_ [d E]]. discriminate E.
  - apply (mapM_concat_In _ _ _ _ Hi) in X. destruct X as [f' [ys [_ [E Hy]]]]. destruct (corner_points_kind _ _ _ _ _ E Hy) as [a [b E2]]. discriminate E2.
  - destruct X as [X | [X | []]]; discriminate X.
Qed.

(** Two meshes: of the first, a fork with a vertex below and left of the second, neither the fork is
    named nor is the vertex in the box *)
(** A complete mesh of triangles: the vertices of edges and cells exist *)
Definition complete (m : tmesh) : Prop :=
  t_coords m <> [] /\ Forall (fun e => length e = 2 /\ Forall (fun v => v < length (t_coords m)) e) (t_edges m) /\
  Forall (fun c => length c = 3 /\ Forall (fun v => v < length (t_coords m)) c) (t_cells m).
Lemma mapM_all {A B} (f : A -> res B) l : (forall x, In x l -> exists y, f x = Ok y) -> exists ys, mapM f l = Ok ys.
Proof.
  induction l as [|x l IH]; intros H; [exists []; reflexivity|]. destruct (H x (or_introl eq_refl)) as [y Ey]. destruct IH as [ys E]; [intros z Hz; apply H; right; exact Hz|].
  exists (y :: ys). cbn [mapM]. rewrite Ey. cbn [bind]. rewrite E. reflexivity.
Qed.
Lemma points_fit g m vs : of_dim g m -> Forall (fun v => v < length (t_coords m)) vs -> exists ps, mapM (point m) vs = Ok ps /\ length (concat ps) = length vs * g.
Proof.
  intros [_ Hd] Hv. induction Hv as [|v vs Hv _ [ps [E L]]]; [exists []; split; reflexivity|]. cbn [mapM]. unfold point at 1. destruct (nth_error (t_coords m) v) as [x|] eqn:Ex; [|apply nth_error_None in Ex; lia].
  cbn [opt_res bind]. rewrite E. cbn [bind]. exists (x :: ps). split; [reflexivity|]. cbn [concat length]. rewrite app_length, L. rewrite Forall_forall in Hd. rewrite (Hd x) by (eapply nth_error_In; exact Ex). lia.
Qed.
Lemma emit_fits g m places ps c : g = 2 \/ g = 3 -> of_dim g m -> length (concat ps) = places * g -> emit (t_gdim m) places ps c = Ok c.
Proof.
  intros Hg [Eg _] L. unfold emit, template_fits. rewrite Eg, L. destruct Hg as [-> | ->]; cbn [Nat.eqb]; rewrite Nat.eqb_refl; reflexivity.
Qed.
(** Drawings of complete meshes are made; only if the characters run out a ValueError is raised *)
Theorem C90_returns : forall g fi ci vi bf, consistent g fi ci vi -> (fi <> [] \/ (ci <> None /\ bf = None)) ->
  (forall f, In f fi -> complete (fd_mesh f)) -> (forall v, In v vi -> length (t_coords (vd_mesh v)) <= length (vd_markers v)) ->
  (forall c, ci = Some c -> complete (cd_mesh c) /\ forall st, cd_styles c = Some st ->
     forall i, i < length (t_cells (cd_mesh c)) -> exists mk s, nth_error (cd_markers c) i = Some mk /\ dict_entry st mk s) ->
  (exists body, tikzify_2d_mesh fi ci vi bf = Ok body) \/ tikzify_2d_mesh fi ci vi bf = Err ValueError.
Proof.
  intros g fi ci vi bf [Hg [Cf [Cv Cc]]] NE Hf Hv Hc. unfold tikzify_2d_mesh.
  assert (E1 : exists fills, match ci with Some c => match cd_styles c with Some st => fill_cells (cd_mesh c) (cd_markers c) st | None => Ok [] end | None => Ok [] end = Ok fills).
  { destruct ci as [c|]; [|eexists; reflexivity]. destruct (cd_styles c) as [st|] eqn:Es; [|eexists; reflexivity]. destruct (Hc c eq_refl) as [[_ [_ Hcell]] Hst]. destruct (Cc c eq_refl) as [Od _].
    unfold fill_cells. apply mapM_all. intros [i e] Hi. apply combine_nth_In in Hi. destruct Hi as [j [Hj He]]. assert (Lj : j < length (t_cells (cd_mesh c))) by (apply nth_error_Some; congruence). rewrite nth_error_nth' with (d := 0) in Hj by (rewrite seq_length; exact Lj). rewrite seq_nth in Hj by exact Lj. injection Hj as Hj. subst i.
    destruct (Hst st Es j Lj) as [mk [s [Hk Hs]]]. cbn [Nat.add]. rewrite Hk. cbn [opt_res bind]. apply lookup_entry in Hs. rewrite Hs. cbn [opt_res bind].
    rewrite Forall_forall in Hcell. destruct (Hcell e (nth_error_In _ _ He)) as [L3 Hin]. destruct (points_fit g _ e Od Hin) as [ps [E L]]. rewrite E. cbn [bind]. rewrite (emit_fits g) by (try assumption; rewrite L, L3; reflexivity). eexists. reflexivity. }
  destruct E1 as [fills ->]. cbn [bind].
  assert (E2 : exists isects, mapM (fun f => corner_points (fd_mesh f) (fd_markers f)) fi = Ok isects /\ forall x k, In (x, k) (concat isects) -> length x = g).
  { assert (P : forall f, In f fi -> forall v, (exists c e, coloured (fd_mesh f) (fd_markers f) c e /\ In v e) -> exists x, nth_error (t_coords (fd_mesh f)) v = Some x).
    { intros f If v [c [e [[n [_ Hn]] Hin]]]. destruct (Hf f If) as [_ [He _]]. rewrite Forall_forall in He. destruct (He e (nth_error_In _ _ Hn)) as [_ Hlt]. rewrite Forall_forall in Hlt. specialize (Hlt v Hin). destruct (nth_error (t_coords (fd_mesh f)) v) as [x|] eqn:Ex; [exists x; reflexivity|apply nth_error_None in Ex; lia]. }
    destruct (mapM_all (fun f => corner_points (fd_mesh f) (fd_markers f)) fi) as [isects E].
    - intros f If. unfold corner_points. apply mapM_all. intros [v [a b]] Hin. apply corners_In in Hin. destruct Hin as [_ [_ [[e [He Hv1]] _]]]. cbn [fst snd].
      destruct (P f If v) as [x Ex]; [exists a, e; split; assumption|]. unfold point. rewrite Ex. eexists. reflexivity.
    - exists isects. split; [exact E|]. intros x k Hin. apply (mapM_concat_In _ _ _ _ E) in Hin. destruct Hin as [f [ys [If [Ey Hy]]]]. unfold corner_points in Ey. apply (mapM_In _ _ _ _ Ey) in Hy. destruct Hy as [vc [_ Ex]]. apply bind_Ok in Ex. destruct Ex as [y [Ex E']]. injection E' as -> _. apply point_spec in Ex. destruct (Cf f If) as [_ Fd]. rewrite Forall_forall in Fd. apply Fd. eapply nth_error_In. exact Ex. }
  destruct E2 as [isects [-> Li]]. cbn [bind].
  assert (E3 : exists draws, mapM (fun f => draw_facets (fd_mesh f) (fd_markers f) (fd_styles f)) fi = Ok draws).
  { apply mapM_all. intros f If. unfold draw_facets. destruct (mapM_all (fun s : nat * option nat => match snd s with None => Ok [] | Some style => mapM (fun e => do ps <- mapM (point (fd_mesh f)) e; emit (t_gdim (fd_mesh f)) 2 ps (Draw style ps)) (where_equal (fd_mesh f) (fd_markers f) (fst s)) end) (fd_styles f)) as [cs E].
    - intros [c [style|]] _; cbn [fst snd]; [|eexists; reflexivity]. apply mapM_all. intros e He. apply where_equal_In in He. destruct He as [n [_ Hn]]. destruct (Hf f If) as [_ [Hed _]]. rewrite Forall_forall in Hed. destruct (Hed e (nth_error_In _ _ Hn)) as [L2 Hin].
      destruct (points_fit g _ e (Cf f If) Hin) as [ps [E L]]. rewrite E. cbn [bind]. rewrite (emit_fits g) by (try apply Cf; try assumption; rewrite L, L2; reflexivity). eexists. reflexivity.
    - rewrite E. eexists. reflexivity. }
  destruct E3 as [draws ->]. cbn [bind].
  assert (E4 : exists m, last_mesh ci fi = Ok m /\ of_dim g m /\ t_coords m <> []).
  { unfold last_mesh. destruct (rev fi) as [|f r] eqn:Er.
    - destruct NE as [NE|[NE _]]; [exfalso; apply NE; rewrite <- (rev_involutive fi), Er; reflexivity|]. destruct ci as [c|]; [|congruence]. exists (cd_mesh c). split; [reflexivity|]. split; [apply (Cc c eq_refl)|apply (Hc c eq_refl)].
    - assert (If : In f fi) by (apply in_rev; rewrite Er; left; reflexivity). exists (fd_mesh f). split; [reflexivity|]. split; [apply Cf; exact If|apply (Hf f If)]. }
  destruct E4 as [m [-> [Om Nm]]]. cbn [bind].
  assert (E5 : forall pick, exists r, axis pick m = Ok r /\ length r = g).
  { intros pick. unfold axis. destruct (t_coords m) as [|x xs] eqn:Ex; [congruence|]. eexists. split; [reflexivity|]. destruct Om as [_ Fd]. rewrite Ex in Fd. inversion Fd as [|x' xs' Hx Hxs]; subst.
    remember (length x) as d eqn:Ed. clear Ex Fd Nm. symmetry in Ed. revert x Ed. induction Hxs as [|y xs Hy _ IH]; intros x Hx; [exact Hx|]. cbn [fold_left]. apply IH. rewrite map_length, combine_length. lia. }
  destruct (E5 qmin) as [ll [-> Lll]]. destruct (E5 qmax) as [ur [-> Lur]]. cbn [bind].
  assert (E6 : exists nodes, mapM (fun v => draw_vertices (vd_mesh v) (vd_markers v) (vd_styles v)) vi = Ok nodes).
  { apply mapM_all. intros v Iv. unfold draw_vertices. match goal with |- exists y, (do cs <- mapM ?F ?L; _) = _ => destruct (mapM_all F L) as [cs E] end; [|rewrite E; eexists; reflexivity].
    intros [i x] Hi. apply combine_nth_In in Hi. destruct Hi as [j [Hj He]]. assert (Lj : j < length (t_coords (vd_mesh v))) by (apply nth_error_Some; congruence). rewrite nth_error_nth' with (d := 0) in Hj by (rewrite seq_length; exact Lj). rewrite seq_nth in Hj by exact Lj. injection Hj as Hj. subst i. cbn [Nat.add].
    specialize (Hv v Iv). destruct (nth_error (vd_markers v) j) as [mk|] eqn:Ek; [|apply nth_error_None in Ek; lia]. cbn [opt_res bind]. destruct (lookup mk (vd_styles v)) as [[[s|] t]|]; try (eexists; reflexivity).
    rewrite (emit_fits g); [eexists; reflexivity|exact Hg|apply Cv; exact Iv|]. cbn [concat]. rewrite app_nil_r. destruct (Cv v Iv) as [_ Fd]. rewrite Forall_forall in Fd. rewrite (Fd x) by (eapply nth_error_In; exact He). lia. }
  destruct E6 as [nodes ->]. cbn [bind].
  assert (E7 : exists bifs, match bf with None => Ok [] | Some tags => match rev fi with f :: _ => bifurcations (fd_mesh f) (fd_markers f) tags | [] => Err UnboundLocalError end end = Ok bifs /\ forall x k, In (x, k) bifs -> length x = g).
  { destruct bf as [tags|]; [|exists []; split; [reflexivity|intros x k []]]. destruct (rev fi) as [|f r] eqn:Er; [destruct NE as [NE|[_ NE]]; [exfalso; apply NE; rewrite <- (rev_involutive fi), Er; reflexivity|congruence]|].
    assert (If : In f fi) by (apply in_rev; rewrite Er; left; reflexivity). unfold bifurcations. match goal with |- exists bifs, mapM ?F ?L = _ /\ _ => destruct (mapM_all F L) as [bifs E] end.
    - intros v Hin. apply filter_In in Hin. destruct Hin as [Hin _]. apply nodup_In, in_concat in Hin. destruct Hin as [e [He Hve]]. apply in_map_iff in He. destruct He as [[c e'] [Ee He]]. cbn [snd] in Ee. subst e'. apply filter_In in He. destruct He as [He _]. apply in_combine_r in He.
      destruct (Hf f If) as [_ [Hed _]]. rewrite Forall_forall in Hed. destruct (Hed e He) as [_ Hlt]. rewrite Forall_forall in Hlt. specialize (Hlt v Hve). unfold point. destruct (nth_error (t_coords (fd_mesh f)) v) as [x|] eqn:Ex; [eexists; reflexivity|apply nth_error_None in Ex; lia].
    - exists bifs. split; [exact E|]. intros x k Hin. apply (mapM_In _ _ _ _ E) in Hin. destruct Hin as [v [_ Ex]]. apply bind_Ok in Ex. destruct Ex as [y [Ex E']]. injection E' as -> _. apply point_spec in Ex. destruct (Cf f If) as [_ Fd]. rewrite Forall_forall in Fd. apply Fd. eapply nth_error_In. exact Ex. }
  destruct E7 as [bifs [-> Lb]]. cbn [bind]. cbv zeta.
  assert (Eg : match rev vi with v :: _ => t_gdim (vd_mesh v) | [] => t_gdim m end = g).
  { destruct (rev vi) as [|v r] eqn:Er; [apply Om|]. apply Cv. apply in_rev. rewrite Er. left. reflexivity. }
  rewrite Eg. unfold name_points. set (l := match ci with Some c => cd_mids c | None => [] end ++ concat isects ++ [(ll, LowerLeft); (ur, UpperRight)] ++ bifs).
  assert (Ll : forall i x k, In (i, (x, k)) (combine (seq 0 (length l)) l) -> length x = g).
  { intros i x k Hin. apply in_combine_r in Hin. unfold l in Hin. rewrite !in_app_iff in Hin. destruct Hin as [H|[H|[H|H]]].
    - destruct ci as [c|]; [|destruct H]. destruct (Cc c eq_refl) as [_ Hm]. apply (Hm x k H).
    - exact (Li x k H).
    - destruct H as [H|[H|[]]]; injection H as <- _; assumption.
    - exact (Lb x k H). }
  destruct (mapM _ (combine (seq 0 (length l)) l)) as [cs|e] eqn:E; cbn [bind]; [left; eexists; reflexivity|right]. f_equal.
  apply mapM_err_in in E. destruct E as [[i [x k]] [Hin E]]. specialize (Ll i x k Hin). unfold name_point in E. cbn [fst snd] in E. unfold char in E.
  destruct (_ <? 1114112)%Z; cbn [bind] in E; [|congruence]. destruct (_ <? 1114112)%Z; cbn [bind] in E; [|congruence].
  replace ((if g =? 2 then 2 else 3) <=? length x) with true in E; [discriminate E|]. rewrite Ll. destruct Hg as [-> | ->]; reflexivity.
Qed.
Definition fork : tmesh := TMesh 2 [[q0; q0]; [q1; q0]; [q0; q1]; [qz (-1); qz (-1)]] [] [[0; 1]; [0; 2]; [3; 0]].
Definition far : tmesh := TMesh 2 [[qz 5; qz 5]; [qz 6; qz 5]] [] [[0; 1]].
Theorem C90_last_mesh_refuted : exists fi body, consistent 2 fi None [] /\ tikzify_2d_mesh fi None [] (Some [1]) = Ok body /\
  (exists f v, In f fi /\ forks (fd_mesh f) (fd_markers f) [1] v) /\ (forall p, ~ In (p, Bif) (named body)) /\
  exists f y ll, In f fi /\ In y (t_coords (fd_mesh f)) /\ In (ll, LowerLeft) (named body) /\ (vnth y 0 < vnth ll 0)%Qc.
Proof.
  exists [FacetData fork [1; 1; 1] [(1, Some 7)]; FacetData far [1] [(1, Some 7)]]. eexists. split; [| split; [reflexivity |]].
  - split; [tauto |]. split; [intros f [<- | [<- | []]]; split; try reflexivity; repeat constructor |]. split; [intros v [] | intros c E; discriminate E].
  - split; [| split].
    + exists (FacetData fork [1; 1; 1] [(1, Some 7)]), 0. split; [left; reflexivity |]. exists 0, 1, 2. split; [lia |].
      intros n [-> | [-> | ->]]; exists 1; eexists; (split; [left; reflexivity |]); (split; [reflexivity |]); (split; [reflexivity |]); cbn; tauto.
    + intros p X. cbn in X. intuition discriminate.
    + exists (FacetData fork [1; 1; 1] [(1, Some 7)]), [qz (-1); qz (-1)], [qz 5; qz 5]. split; [left; reflexivity |]. split; [cbn; tauto |]. split; [left; reflexivity | reflexivity].
Qed.
(** A drawing whose 677 points are not all named by letters *)
Theorem C90_letters_refuted : exists fi ci body, consistent 2 fi ci [] /\ tikzify_2d_mesh fi ci [] None = Ok body /\ ~ Forall letters (labels body).
Proof.
  set (c := CellData far [] (map (fun k => ([q0; q0], Mid k)) (seq 0 675)) None). exists [FacetData far [0] []], (Some c).
  assert (E : exists body, tikzify_2d_mesh [FacetData far [0] []] (Some c) [] None = Ok body /\ length (labels body) = 677).
  { destruct (tikzify_2d_mesh [FacetData far [0] []] (Some c) [] None) as [body |] eqn:E; [| vm_compute in E; discriminate E]. exists body. split; [reflexivity |].
    apply (f_equal (fun r => match r with Ok b => length (labels b) | Err _ => 0 end)) in E. rewrite <- E. vm_compute. reflexivity. }
  destruct E as [body [E L]]. exists body. split; [| split; [exact E |]].
  - split; [tauto |]. split; [intros f [<- | []]; split; [reflexivity | repeat constructor] |]. split; [intros v [] |]. intros c' Ec. injection Ec as <-. split; [split; [reflexivity | repeat constructor] |].
    intros x k Hx. unfold c in Hx. cbn [cd_mids] in Hx. apply in_map_iff in Hx. destruct Hx as [d [Ed _]]. injection Ed as <- <-. split; [reflexivity | eauto].
  - intros F. apply (C90_labels _ _ _ _ _ E) in F. lia.
Qed.

(** A square with two colours *)
Example case_square : exists body, tikzify_2d_mesh [FacetData (TMesh 2 [[q0; q0]; [q1; q0]; [q1; q1]; [q0; q1]] [] [[0; 1]; [1; 2]; [2; 3]; [3; 0]]) [1; 2; 0; 2] [(1, Some 8); (0, None)]] None [] None = Ok body /\
  body = [Draw 8 [[q0; q0]; [q1; q0]]; Coordinate (65, 65) [q0; q0] (Isect 1 2); Coordinate (66, 65) [q1; q0] (Isect 1 2); Coordinate (67, 65) [q0; q0] LowerLeft; Coordinate (68, 65) [q1; q1] UpperRight].
Proof. eexists. split; [vm_compute; reflexivity | vm_compute; reflexivity]. Qed.

(** A triangle with all kinds of data *)
Example case_returns : let m := TMesh 2 [[q0; q0]; [q1; q0]; [q0; q1]] [[0; 1; 2]] [[0; 1]; [1; 2]; [2; 0]] in
  complete m /\ consistent 2 [FacetData m [1; 2; 0] [(1, Some 8)]] (Some (CellData m [3] [([q0; q1], Mid 3)] (Some [(3, 4)]))) [VertexData m [0; 1; 1] [(1, (Some 2, 9))]] /\
  exists body, tikzify_2d_mesh [FacetData m [1; 2; 0] [(1, Some 8)]] (Some (CellData m [3] [([q0; q1], Mid 3)] (Some [(3, 4)]))) [VertexData m [0; 1; 1] [(1, (Some 2, 9))]] (Some [1]) = Ok body /\
    In (Node 2 [q0; q1] 9) body /\ In (Fill 4 [[q0; q0]; [q1; q0]; [q0; q1]]) body.
Proof.
  split; [split; [discriminate|split; repeat constructor]|]. split.
  - split; [tauto|]. split; [intros f [<- | []]; split; [reflexivity|repeat constructor]|]. split; [intros f [<- | []]; split; [reflexivity|repeat constructor]|]. intros c E. injection E as <-. split; [split; [reflexivity|repeat constructor]|]. intros x k [E|[]]. injection E as <- <-. split; [reflexivity|eexists; reflexivity].
  - eexists. split; [vm_compute; reflexivity|]. split; vm_compute; tauto.
Qed.
Print Assumptions C90_returns.
Print Assumptions C90_lines.
Print Assumptions C90_cells.
Print Assumptions C90_nodes.
Print Assumptions C90_marks.
Print Assumptions C90_corners.
Print Assumptions C90_corners_once.
Print Assumptions C90_labels.
Print Assumptions C90_box_partial.
Print Assumptions C90_forks_partial.
Print Assumptions C90_last_mesh_refuted.
Print Assumptions C90_letters_refuted.
