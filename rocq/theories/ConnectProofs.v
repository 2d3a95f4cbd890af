(** Specification of connectedness and lemmas on the number of components. *)
From Verif Require Import Base ConnectModel.
From Coq Require Import List Arith Bool Lia Relations FinFun.
Import ListNotations.
Local Open Scope nat_scope.

(** ** Specification *)
(** Two cells with a common vertex *)
Definition touch (c d : list nat) : Prop := exists v, In v c /\ In v d.
(** A path of cells of which neighbours are related by [r] *)
Inductive walk (r : list nat -> list nat -> Prop) (cells : list (list nat)) : list nat -> list nat -> Prop :=
| walk_end : forall c, In c cells -> walk r cells c c
| walk_step : forall c d e, In c cells -> r c d -> walk r cells d e -> walk r cells c e.
(** There are cells, and a path between any two *)
Definition connected (r : list nat -> list nat -> Prop) (cells : list (list nat)) : Prop :=
  cells <> [] /\ forall c d, In c cells -> In d cells -> walk r cells c d.
(** Two triangles with a common edge *)
Definition share_edge (c d : list nat) : Prop := exists v w, v <> w /\ In v c /\ In w c /\ In v d /\ In w d.

(** Meshes: intervals have two vertices; triangles three, and the edges are
    those of the triangles *)
Definition curve (m : smesh) : Prop :=
  s_tdim m = 1 /\ 1 < s_gdim m /\ forall c, In c (s_cells m) -> exists a b, c = [a; b].
Definition surface (m : smesh) : Prop :=
  s_tdim m = 2 /\ 2 < s_gdim m /\
  (forall c, In c (s_cells m) -> exists a b d, c = [a; b; d] /\ a <> b /\ a <> d /\ b <> d /\ a < s_nv m /\ b < s_nv m /\ d < s_nv m) /\
  (forall v w, In (v, w) (s_edges m) -> v <> w /\ exists c, In c (s_cells m) /\ In v c /\ In w c) /\
  (forall c v w, In c (s_cells m) -> In v c -> In w c -> v <> w -> In (v, w) (s_edges m) \/ In (w, v) (s_edges m)).

(** ** Components of graphs *)
Definition adj (edges : list (nat * nat)) (a b : nat) : Prop := In (a, b) edges \/ In (b, a) edges.
Definition linked (edges : list (nat * nat)) : nat -> nat -> Prop := clos_refl_trans nat (adj edges).

Lemma has_spec : forall x l, has x l = true <-> In x l.
Proof. intros. unfold has. rewrite existsb_exists. split; [intros [y [Hy E]]; apply Nat.eqb_eq in E; subst; auto | intros; exists x; split; auto; apply Nat.eqb_refl]. Qed.

Lemma linked_sym : forall es a b, linked es a b -> linked es b a.
Proof.
  intros es a b H. induction H as [x y Hxy | x | x y z _ IH1 _ IH2].
  - apply rt_step. destruct Hxy; [right | left]; auto.
  - apply rt_refl.
  - apply rt_trans with y; auto.
Qed.
Lemma linked_mono : forall es es' a b, incl es es' -> linked es a b -> linked es' a b.
Proof.
  intros es es' a b Hi H. induction H as [x y Hxy | x | x y z _ IH1 _ IH2].
  - apply rt_step. destruct Hxy; [left | right]; auto.
  - apply rt_refl.
  - apply rt_trans with y; auto.
Qed.

Record invariant (nodes : list nat) (es : list (nat * nat)) (classes : list (list nat)) : Prop := {
  i_cover : forall v, In v nodes <-> exists c, In c classes /\ In v c;
  i_nonempty : forall c, In c classes -> c <> [];
  i_linked : forall c a b, In c classes -> In a c -> In b c -> linked es a b;
  i_closed : forall c a b, In c classes -> In (a, b) es -> (In a c <-> In b c);
  i_disjoint : forall c d v, In c classes -> In d classes -> In v c -> In v d -> c = d;
  i_nodup : NoDup classes
}.

Lemma start_ok : forall nodes, NoDup nodes -> invariant nodes [] (map (fun v => [v]) nodes).
Proof.
  intros nodes Hn. constructor.
  - intros v. split.
    + intros Hv. exists [v]. split; [apply in_map_iff; exists v; auto | left; auto].
    + intros [c [Hc Hv]]. apply in_map_iff in Hc. destruct Hc as [w [<- Hw]]. destruct Hv as [-> | []]. auto.
  - intros c Hc. apply in_map_iff in Hc. destruct Hc as [w [<- _]]. discriminate.
  - intros c a b Hc Ha Hb. apply in_map_iff in Hc. destruct Hc as [w [<- _]].
    destruct Ha as [<- | []]. destruct Hb as [<- | []]. apply rt_refl.
  - intros c a b _ [].
  - intros c d v Hc Hd Hv Hw. apply in_map_iff in Hc, Hd. destruct Hc as [x [<- _]], Hd as [y [<- _]].
    destruct Hv as [<- | []]. destruct Hw as [<- | []]. reflexivity.
  - apply Injective_map_NoDup; auto. intros x y H. congruence.
Qed.

Lemma merge_ok : forall nodes es classes a b, invariant nodes es classes -> In a nodes -> In b nodes ->
  invariant nodes (es ++ [(a, b)]) (merge classes (a, b)).
Proof.
  intros nodes es classes a b Hi Ha Hb. set (hit := fun c => has a c || has b c).
  change (merge classes (a, b)) with (concat (filter hit classes) :: filter (fun c => negb (hit c)) classes).
  assert (Hhit : forall c, hit c = true <-> In a c \/ In b c).
  { intros c. unfold hit. rewrite orb_true_iff, !has_spec. tauto. }
  assert (Hin : forall v, In v (concat (filter hit classes)) <-> exists c, In c classes /\ (In a c \/ In b c) /\ In v c).
  { intros v. rewrite in_concat. split.
    - intros [c [Hc Hv]]. apply filter_In in Hc. destruct Hc as [Hc Hh]. apply Hhit in Hh. exists c; auto.
    - intros [c [Hc [Hh Hv]]]. exists c. split; auto. apply filter_In. split; auto. apply Hhit; auto. }
  destruct Hi as [Hco Hne Hli Hcl Hdi Hnd].
  assert (Hbig : forall v, In v (concat (filter hit classes)) -> linked (es ++ [(a, b)]) v a).
  { intros v Hv. apply Hin in Hv. destruct Hv as [c [Hc [[Hx | Hx] Hv]]].
    - apply linked_mono with es; [intros z Hz; apply in_or_app; auto | eapply Hli; eauto].
    - apply rt_trans with b.
      + apply linked_mono with es; [intros z Hz; apply in_or_app; auto | eapply Hli; eauto].
      + apply rt_step. right. apply in_or_app. right. left; auto. }
  constructor.
  - intros v. rewrite Hco. split.
    + intros [c [Hc Hv]]. destruct (hit c) eqn:E.
      * exists (concat (filter hit classes)). split; [left; auto | apply Hin; exists c; repeat split; auto; apply Hhit; auto].
      * exists c. split; auto. right. apply filter_In. cbv beta. rewrite E. auto.
    + intros [c [[<- | Hc] Hv]].
      * apply Hin in Hv. destruct Hv as [c [Hc [_ Hv]]]. exists c; auto.
      * apply filter_In in Hc. exists c. tauto.
  - intros c [<- | Hc].
    + apply Hco in Ha. destruct Ha as [c [Hc Hac]]. intros E.
      assert (In a []) as []. { rewrite <- E. apply Hin. exists c; auto. }
    + apply filter_In in Hc. apply Hne; tauto.
  - intros c x y [<- | Hc] Hx Hy.
    + apply rt_trans with a; [apply Hbig; auto | apply linked_sym, Hbig; auto].
    + apply filter_In in Hc. apply linked_mono with es; [intros z Hz; apply in_or_app; auto | apply Hli with c; tauto].
  - intros c x y [<- | Hc] Hxy.
    + apply in_app_or in Hxy. destruct Hxy as [Hxy | [E | []]].
      * rewrite !Hin. split; intros [c [Hc [Hh Hv]]]; exists c; (split; [auto | split; [auto | apply (Hcl c x y Hc Hxy); auto]]).
      * injection E as <- <-. rewrite !Hin.
        split; intros _; [apply Hco in Hb; destruct Hb as [c [Hc Hv]] | apply Hco in Ha; destruct Ha as [c [Hc Hv]]]; exists c; auto.
    + apply filter_In in Hc. destruct Hc as [Hc Hh]. apply negb_true_iff in Hh.
      assert (Hno : ~ In a c /\ ~ In b c). { split; intros H; assert (hit c = true) by (apply Hhit; auto); congruence. }
      apply in_app_or in Hxy. destruct Hxy as [Hxy | [E | []]]; [apply (Hcl c x y Hc Hxy) | injection E as <- <-; tauto].
  - assert (Hmix : forall d v, In d classes -> hit d = false -> In v (concat (filter hit classes)) -> In v d -> False).
    { intros d v Hd Hh Hv Hw. apply Hin in Hv. destruct Hv as [c [Hc [Hx Hv]]].
      assert (c = d) by (eapply Hdi; eauto). subst. assert (hit d = true) by (apply Hhit; auto). congruence. }
    intros c d v [<- | Hc] [<- | Hd] Hv Hw; auto.
    + apply filter_In in Hd. destruct Hd as [Hd Hh]. apply negb_true_iff in Hh. destruct (Hmix d v Hd Hh Hv Hw).
    + apply filter_In in Hc. destruct Hc as [Hc Hh]. apply negb_true_iff in Hh. destruct (Hmix c v Hc Hh Hw Hv).
    + apply filter_In in Hc, Hd. apply Hdi with v; tauto.
  - constructor.
    + intros Hc. apply filter_In in Hc. destruct Hc as [_ Hh]. apply negb_true_iff in Hh.
      apply Hco in Ha. destruct Ha as [c [Hc Hac]].
      assert (hit (concat (filter hit classes)) = true); [| congruence].
      apply Hhit. left. apply Hin. exists c; auto.
    + apply NoDup_filter; auto.
Qed.

Lemma merges_ok : forall todo nodes es classes, invariant nodes es classes ->
  (forall a b, In (a, b) todo -> In a nodes /\ In b nodes) ->
  invariant nodes (es ++ todo) (fold_left merge todo classes).
Proof.
  induction todo as [| [a b] todo IH]; intros nodes es classes Hi Hin; cbn [fold_left].
  - rewrite app_nil_r. auto.
  - replace (es ++ (a, b) :: todo) with ((es ++ [(a, b)]) ++ todo) by (rewrite <- app_assoc; reflexivity).
    apply IH.
    + destruct (Hin a b (or_introl eq_refl)). apply merge_ok; auto.
    + intros x y Hxy. apply Hin. right; auto.
Qed.

Lemma nodes_spec : forall edges v, In v (nodes_of edges) <-> exists w, adj edges v w.
Proof.
  intros. unfold nodes_of. rewrite nodup_In, in_flat_map. split.
  - intros [[a b] [He [<- | [<- | []]]]]; cbn [fst snd]; [exists b; left; auto | exists a; right; auto].
  - intros [w [H | H]]; [exists (v, w) | exists (w, v)]; cbn; auto.
Qed.

Lemma components_ok : forall edges,
  (number_connected_components edges =? 1) = true <-> edges <> [] /\ forall v w, In v (nodes_of edges) -> In w (nodes_of edges) -> linked edges v w.
Proof.
  intros edges. unfold number_connected_components.
  assert (Hi : invariant (nodes_of edges) edges (fold_left merge edges (map (fun v => [v]) (nodes_of edges)))).
  { apply (merges_ok edges (nodes_of edges) []).
    - apply start_ok, NoDup_nodup.
    - intros a b Hab. rewrite !nodes_spec. split; [exists b; left; auto | exists a; right; auto]. }
  revert Hi. generalize (fold_left merge edges (map (fun v => [v]) (nodes_of edges))). intros classes [Hco Hne Hli Hcl Hdi Hnd].
  rewrite Nat.eqb_eq. split.
  - intros Hlen. destruct classes as [| c [| d r]]; try discriminate Hlen. split.
    + intros ->. destruct c as [| v c]; [apply (Hne []); cbn; auto |].
      assert (In v (nodes_of [])) as []. apply Hco. exists (v :: c). cbn; auto.
    + intros v w Hv Hw. apply Hco in Hv, Hw. destruct Hv as [x [[<- | []] Hv]], Hw as [y [[<- | []] Hw]].
      apply Hli with c; cbn; auto.
  - intros [Hee Hall].
    assert (Hkeep : forall v w, linked edges v w -> forall c, In c classes -> In v c -> In w c).
    { intros v w H. induction H as [x y Hxy | x | x y z _ IH1 _ IH2]; auto.
      intros c Hc Hv. destruct Hxy as [H | H]; [apply (Hcl c x y Hc H); auto | apply (Hcl c y x Hc H); auto]. }
    destruct classes as [| c [| d r]]; [| reflexivity |].
    + destruct edges as [| [a b] r]; [contradiction |].
      assert (In a (nodes_of ((a, b) :: r))) as Ha by (apply nodes_spec; exists b; left; left; auto).
      apply Hco in Ha. destruct Ha as [c [[] _]].
    + exfalso. destruct c as [| v c]; [apply (Hne []); cbn; auto |]. destruct d as [| w d]; [apply (Hne []); cbn; auto |].
      assert (Hv : In v (nodes_of edges)) by (apply Hco; exists (v :: c); cbn; auto).
      assert (Hw : In w (nodes_of edges)) by (apply Hco; exists (w :: d); cbn; auto).
      assert (Hw' : In w (v :: c)) by (apply (Hkeep v w); auto; cbn; auto).
      assert (E : v :: c = w :: d) by (apply (Hdi (v :: c) (w :: d) w); cbn; auto).
      inversion Hnd as [| ? ? Hni _]. apply Hni. rewrite E. left; auto.
Qed.

(** ** Walks *)
Lemma walk_in : forall r cells c d, walk r cells c d -> In c cells /\ In d cells.
Proof. intros r cells c d H. induction H as [c Hc | c d e Hc _ _ [_ IH]]; auto. Qed.
Lemma walk_trans : forall r cells c d e, walk r cells c d -> walk r cells d e -> walk r cells c e.
Proof. intros r cells c d e H. induction H as [c Hc | c d' e' Hc Hr _ IH]; auto. intros H. apply walk_step with d'; auto. Qed.
Lemma walk_one : forall (r : list nat -> list nat -> Prop) cells c d, In c cells -> In d cells -> r c d -> walk r cells c d.
Proof. intros. apply walk_step with d; auto. apply walk_end; auto. Qed.

(** ** Curves *)
Lemma curve_edges : forall m, curve m -> exists edges,
  mapM (fun c => match c with [a; b] => Ok (a, b) | _ => Err ValueError end) (s_cells m) = Ok edges /\
  s_cells m = map (fun e => [fst e; snd e]) edges.
Proof.
  intros m [_ [_ Hc]]. revert Hc. generalize (s_cells m). induction l as [| c l IH]; intros Hc.
  - exists []. auto.
  - destruct (Hc c (or_introl eq_refl)) as [a [b ->]]. destruct IH as [es [E1 E2]]; [intros; apply Hc; right; auto |].
    exists ((a, b) :: es). cbn [mapM]. rewrite E1. cbn. split; [reflexivity | rewrite E2; reflexivity].
Qed.

Lemma curve_linked : forall edges,
  (edges <> [] /\ forall v w, In v (nodes_of edges) -> In w (nodes_of edges) -> linked edges v w) <->
  connected touch (map (fun e => [fst e; snd e]) edges).
Proof.
  intros edges. set (cells := map (fun e => [fst e; snd e]) edges).
  assert (Hcell : forall a b, In (a, b) edges -> In [a; b] cells) by (intros a b H; apply in_map_iff; exists (a, b); auto).
  assert (Hof : forall c, In c cells -> exists a b, c = [a; b] /\ In (a, b) edges).
  { intros c Hc. apply in_map_iff in Hc. destruct Hc as [[a b] [<- H]]. exists a, b. auto. }
  split.
  - intros [Hne Hall]. split; [unfold cells; destruct edges; [contradiction | discriminate] |].
    assert (Hgo : forall v w, linked edges v w -> forall c, In c cells -> In v c -> forall d, In d cells -> In w d -> walk touch cells c d).
    { intros v w H. apply clos_rt_rt1n in H. induction H as [x | x y z Hxy _ IH]; intros c Hc Hv d Hd Hw.
      - apply walk_one; auto. exists x; auto.
      - assert (He : exists e, In e cells /\ In x e /\ In y e).
        { destruct Hxy as [H | H]; [exists [x; y] | exists [y; x]]; (split; [apply Hcell; auto | cbn; auto]). }
        destruct He as [e [He [Hx Hy]]]. apply walk_trans with e; [apply walk_one; auto; exists x; auto | apply IH; auto]. }
    intros c d Hc Hd. destruct (Hof c Hc) as [a [b [-> Hab]]], (Hof d Hd) as [a' [b' [-> Hab']]].
    apply (Hgo a a'); cbn; auto. apply Hall; apply nodes_spec; [exists b | exists b']; left; auto.
  - intros [Hne Hall]. split; [unfold cells in Hne; destruct edges; [contradiction | discriminate] |].
    assert (Hin : forall c a b, In c cells -> In a c -> In b c -> linked edges a b).
    { intros c a b Hc Ha Hb. destruct (Hof c Hc) as [x [y [-> H]]].
      destruct Ha as [<- | [<- | []]], Hb as [<- | [<- | []]]; try apply rt_refl; apply rt_step; [left | right]; auto. }
    assert (Hgo : forall c d, walk touch cells c d -> forall v w, In v c -> In w d -> linked edges v w).
    { intros c d H. induction H as [c Hc | c d e Hc [u [Hu Hu']] Hw IH]; intros v w Hv Hw'.
      - apply Hin with c; auto.
      - apply rt_trans with u; [apply Hin with c; auto | apply IH; auto]. }
    intros v w Hv Hw. apply nodes_spec in Hv, Hw. destruct Hv as [v' Hv], Hw as [w' Hw].
    assert (Hnode : forall x y, adj edges x y -> exists c, In c cells /\ In x c).
    { intros x y [H | H]; [exists [x; y] | exists [y; x]]; (split; [apply Hcell; auto | cbn; auto]). }
    destruct (Hnode _ _ Hv) as [c [Hc Hvc]], (Hnode _ _ Hw) as [d [Hd Hwd]].
    apply (Hgo c d); auto.
Qed.

(** ** Surfaces *)
Lemma insert_in : forall x y l, In y (insert x l) <-> y = x \/ In y l.
Proof.
  induction l as [| z l IH]; cbn [insert].
  - cbn. intuition.
  - destruct (x <=? z); cbn [In]; [intuition | rewrite IH; intuition].
Qed.
Lemma sorted_in : forall y l, In y (sorted l) <-> In y l.
Proof. induction l as [| z l IH]; cbn [sorted fold_right]; [tauto |]. fold (sorted l). rewrite insert_in, IH. cbn. intuition. Qed.

Lemma consecutive_in : forall l a b, In (a, b) (consecutive l) -> In a l /\ In b l.
Proof.
  intros l a b H. unfold consecutive in H. split.
  - apply in_combine_l in H. revert H. induction l as [| x [| y l] IH]; cbn [removelast]; [auto | intros [] | intros [-> | H]; [left; auto | right; apply IH; auto]].
  - apply in_combine_r in H. destruct l; [destruct H | right; auto].
Qed.
Lemma consecutive_cons : forall a b l, consecutive (a :: b :: l) = (a, b) :: consecutive (b :: l).
Proof. reflexivity. Qed.
Lemma consecutive_linked : forall es l, incl (consecutive l) es -> forall a b, In a l -> In b l -> linked es a b.
Proof.
  intros es l Hi.
  assert (Hhd : forall l x, incl (consecutive (x :: l)) es -> forall b, In b (x :: l) -> linked es x b).
  { clear. induction l as [| y l IH]; intros x Hi b [<- | Hb]; try apply rt_refl; [destruct Hb |].
    rewrite consecutive_cons in Hi. apply rt_trans with y.
    - apply rt_step. left. apply Hi. left; auto.
    - apply IH; auto. intros z Hz. apply Hi. right; auto. }
  destruct l as [| x l]; [intros a b [] |]. intros a b Ha Hb.
  apply rt_trans with x; [apply linked_sym |]; apply (Hhd l); auto.
Qed.

Section Surface.
Variable m : smesh.
Hypothesis Hm : surface m.
Let graph := flat_map (fun v => consecutive (sorted (edges_at m v))) (seq 0 (s_nv m)).
(** the vertices of an edge, by its number *)
Definition end_of (m : smesh) (e v : nat) : Prop := exists p, nth_error (s_edges m) e = Some p /\ (fst p = v \/ snd p = v).

Lemma edges_at_spec : forall m e v, In e (edges_at m v) <-> end_of m e v.
Proof.
  clear. intros m e v. unfold edges_at, end_of. rewrite filter_In, in_seq. cbn [plus]. split.
  - intros [He Hv]. destruct (nth_error (s_edges m) e) as [p |] eqn:E; [| apply nth_error_None in E; lia].
    rewrite (nth_error_nth _ _ (0, 0) E) in Hv. apply orb_true_iff in Hv. rewrite !Nat.eqb_eq in Hv. exists p; auto.
  - intros [p [E Hp]]. split; [split; [lia |]; apply nth_error_Some; congruence |].
    rewrite (nth_error_nth _ _ (0, 0) E). apply orb_true_iff. rewrite !Nat.eqb_eq. auto.
Qed.

Lemma end_cell : forall e v, end_of m e v -> exists c, In c (s_cells m) /\ forall w, end_of m e w -> In w c.
Proof.
  intros e v [[a b] [E _]]. destruct Hm as [_ [_ [_ [He _]]]]. apply nth_error_In in E as Hin.
  destruct (He a b Hin) as [_ [c [Hc [Ha Hb]]]]. exists c. split; auto.
  intros w [q [E' Hw]]. rewrite E' in E. injection E as ->. cbn in Hw. destruct Hw as [<- | <-]; auto.
Qed.
Lemma end_small : forall e v, end_of m e v -> v < s_nv m.
Proof.
  intros e v H. destruct (end_cell e v H) as [c [Hc Hw]]. specialize (Hw v H).
  destruct Hm as [_ [_ [Hs _]]]. destruct (Hs c Hc) as [a [b [d [-> [_ [_ [_ [Ha [Hb Hd]]]]]]]]].
  destruct Hw as [<- | [<- | [<- | []]]]; auto.
Qed.
(** an edge in a cell at a vertex *)
Lemma cell_edge : forall c v, In c (s_cells m) -> In v c -> exists e w, v <> w /\ In w c /\ end_of m e v /\ end_of m e w /\ forall u, end_of m e u -> In u c.
Proof.
  intros c v Hc Hv. destruct Hm as [_ [_ [Hs [_ Hall]]]]. destruct (Hs c Hc) as [a [b [d [-> [Hab [Had [Hbd _]]]]]]].
  assert (Hw : exists w, In w [a; b; d] /\ v <> w).
  { destruct Hv as [<- | [<- | [<- | []]]]; [exists b | exists a | exists a]; cbn; auto. }
  destruct Hw as [w [Hw Hne]]. destruct (Hall _ v w Hc Hv Hw Hne) as [H | H]; apply In_nth_error in H; destruct H as [e E]; exists e, w;
    (split; [auto | split; [auto | split; [eexists; split; [exact E | cbn; auto] | split; [eexists; split; [exact E | cbn; auto] |]]]]);
    intros u [p [E' Hp]]; rewrite E' in E; injection E as ->; cbn in Hp; destruct Hp as [<- | <-]; auto.
Qed.

Lemma same_vertex : forall e f v, end_of m e v -> end_of m f v -> linked graph e f.
Proof.
  intros e f v He Hf. apply (consecutive_linked graph (sorted (edges_at m v))).
  - intros p Hp. apply in_flat_map. exists v. split; auto. apply in_seq. split; [lia |]. apply (end_small e v He).
  - apply sorted_in, edges_at_spec; auto.
  - apply sorted_in, edges_at_spec; auto.
Qed.
Lemma adj_vertex : forall e f, adj graph e f -> exists v, end_of m e v /\ end_of m f v.
Proof.
  assert (Hg : forall e f, In (e, f) graph -> exists v, end_of m e v /\ end_of m f v).
  { intros e f H. apply in_flat_map in H. destruct H as [v [_ H]]. apply consecutive_in in H. rewrite !sorted_in, !edges_at_spec in H. exists v; auto. }
  intros e f [H | H]; destruct (Hg _ _ H) as [v [H1 H2]]; exists v; auto.
Qed.
(** each edge is a node *)
Lemma edge_node : forall e v, end_of m e v -> In e (nodes_of graph).
Proof.
  intros e v He. apply nodes_spec.
  (* another edge at v *)
  destruct (end_cell e v He) as [c [Hc Hin]]. destruct He as [[a b] [E Hv]] eqn:EE.
  assert (Hab : In (a, b) (s_edges m)) by (eapply nth_error_In; eauto).
  destruct Hm as [_ [_ [Hs [Hed Hall]]]]. destruct (Hed a b Hab) as [Hne _].
  assert (Ha : end_of m e a) by (exists (a, b); split; auto). assert (Hb : end_of m e b) by (exists (a, b); split; auto).
  assert (Hother : exists d, In d c /\ d <> a /\ d <> b).
  { destruct (Hs c Hc) as [x [y [z [-> [H1 [H2 [H3 _]]]]]]]. pose proof (Hin a Ha) as Ia. pose proof (Hin b Hb) as Ib.
    cbn in Ia, Ib. destruct Ia as [<- | [<- | [<- | []]]], Ib as [<- | [<- | [<- | []]]]; try contradiction;
    solve [exists x; cbn; auto | exists y; cbn; auto | exists z; cbn; auto]. }
  destruct Hother as [d [Hd [Hda Hdb]]].
  assert (Hf : exists f, end_of m f a /\ end_of m f d).
  { destruct (Hall c a d Hc (Hin a Ha) Hd) as [H | H]; auto; apply In_nth_error in H; destruct H as [f Ef]; exists f;
      (split; eexists; (split; [exact Ef | cbn; auto])). }
  destruct Hf as [f [Hfa Hfd]].
  assert (Hef : e <> f).
  { intros <-. destruct Hfd as [p [Ep Hp]]. rewrite E in Ep. injection Ep as <-. cbn in Hp. destruct Hp; congruence. }
  pose proof (same_vertex e f a Ha Hfa) as Hl. apply clos_rt_rt1n in Hl. inversion Hl as [H | y z Hy _ H]; [contradiction | exists y; auto].
Qed.
Lemma node_edge : forall e, In e (nodes_of graph) -> exists v, end_of m e v.
Proof. intros e He. apply nodes_spec in He. destruct He as [f Hf]. apply adj_vertex in Hf. destruct Hf as [v [H _]]. exists v; auto. Qed.

Lemma surface_linked :
  (graph <> [] /\ forall e f, In e (nodes_of graph) -> In f (nodes_of graph) -> linked graph e f) <-> connected touch (s_cells m).
Proof.
  split.
  - intros [Hne Hall].
    assert (Hgo : forall e f, linked graph e f -> forall c, In c (s_cells m) -> (exists v, end_of m e v /\ In v c) ->
      forall d, In d (s_cells m) -> (exists v, end_of m f v /\ In v d) -> walk touch (s_cells m) c d).
    { intros e f H. apply clos_rt_rt1n in H. induction H as [x | x y z Hxy _ IH]; intros c Hc [v [Hv Hvc]] d Hd [w [Hw Hwd]].
      - destruct (end_cell x v Hv) as [k [Hk Hin]].
        apply walk_trans with k; apply walk_one; auto; [exists v | exists w]; auto.
      - destruct (adj_vertex x y Hxy) as [u [Hux Huy]]. destruct (end_cell x v Hv) as [k [Hk Hin]].
        apply walk_trans with k; [apply walk_one; auto; exists v; auto |].
        apply IH; auto; [exists u; auto | exists w; auto]. }
    split.
    + intros E. apply Hne. unfold graph.
      assert (Hnil : forall v, edges_at m v = []).
      { intros v. destruct (edges_at m v) as [| e l] eqn:Ee; auto.
        assert (He : In e (edges_at m v)) by (rewrite Ee; left; auto). apply edges_at_spec in He.
        destruct (end_cell e v He) as [c [Hc _]]. rewrite E in Hc. destruct Hc. }
      generalize (seq 0 (s_nv m)). induction l as [| v l IH]; auto. cbn [flat_map]. rewrite Hnil, IH. reflexivity.
    + intros c d Hc Hd. destruct Hm as [_ [_ [Hs _]]].
      assert (Hv : forall c, In c (s_cells m) -> exists v, In v c) by (intros k Hk; destruct (Hs k Hk) as [a [b [x [-> _]]]]; exists a; cbn; auto).
      destruct (Hv c Hc) as [v Hvc], (Hv d Hd) as [w Hwd].
      destruct (cell_edge c v Hc Hvc) as [e [_ [_ [_ [He _]]]]], (cell_edge d w Hd Hwd) as [f [_ [_ [_ [Hf _]]]]].
      apply (Hgo e f); [apply Hall; eapply edge_node; eauto | auto | exists v; auto | auto | exists w; auto].
  - intros [Hne Hall].
    assert (Hin : forall c e f v w, In c (s_cells m) -> end_of m e v -> In v c -> end_of m f w -> In w c -> linked graph e f).
    { intros c e f v w Hc He Hvc Hf Hwc. destruct (Nat.eq_dec v w) as [<- | Hvw]; [apply same_vertex with v; auto |].
      assert (Hx : exists x, end_of m x v /\ end_of m x w).
      { destruct Hm as [_ [_ [_ [_ Hp]]]]. destruct (Hp c v w Hc Hvc Hwc Hvw) as [H | H]; apply In_nth_error in H; destruct H as [x Ex]; exists x; (split; eexists; (split; [exact Ex | cbn; auto])). }
      destruct Hx as [x [Hx1 Hx2]]. apply rt_trans with x; [apply same_vertex with v; auto | apply same_vertex with w; auto]. }
    assert (Hgo : forall c d, walk touch (s_cells m) c d -> forall e f v w, end_of m e v -> In v c -> end_of m f w -> In w d -> linked graph e f).
    { intros c d H. induction H as [c Hc | c d k Hc [u [Hu Hu']] Hw IH]; intros e f v w He Hv Hf Hw'.
      - apply (Hin c e f v w); auto.
      - destruct (cell_edge c u Hc Hu) as [x [_ [_ [_ [Hx _]]]]].
        apply rt_trans with x; [apply (Hin c e x v u); auto | apply (IH x f u w); auto]. }
    split.
    + destruct (s_cells m) as [| c l] eqn:E; [contradiction |].
      assert (Hc : In c (s_cells m)) by (rewrite E; left; auto).
      destruct Hm as [_ [_ [Hs _]]]. destruct (Hs c Hc) as [a [b [x [Ec _]]]].
      assert (Ha : In a c) by (rewrite Ec; cbn; auto).
      destruct (cell_edge c a Hc Ha) as [e [_ [_ [_ [He _]]]]]. pose proof (edge_node e a He) as Hn.
      apply nodes_spec in Hn. destruct Hn as [f [Hf | Hf]]; intros Eg; rewrite Eg in Hf; destruct Hf.
    + intros e f He Hf. apply node_edge in He, Hf. destruct He as [v Hv], Hf as [w Hw].
      destruct (end_cell e v Hv) as [c [Hc Hcin]], (end_cell f w Hw) as [d [Hd Hdin]].
      apply (Hgo c d (Hall c d Hc Hd) e f v w); auto.
Qed.
End Surface.
