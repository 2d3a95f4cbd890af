(** The view of an embedded mesh from another mesh (property C62). *)
From Verif Require Import ViewModel BaseProofs EmbedProofs GmshProofs UnionProofs LineProofs EmapProofs.
From Coq Require Import Psatz.
From Verif Require Import GeomProofs ViewProofs.
Local Open Scope R_scope.

(** ** C62 *)
(** What is returned is right for any locator and tolerance: a cell goes to a tagged entity,
    all its vertices are next to one of the entity, and no entity has two cells.  The mesh and
    the maps into other meshes are as before *)
Theorem C62_partial : forall (self : viewer) (other : tagging) (locate : list R -> list nat) (tol : R) (tags : list nat) (self' : viewer),
  NoDup (map fst (v_maps self)) -> compute_embedding self other locate tol tags = Ok self' ->
  (v_tdim self', v_gdim self', v_x self', v_c2v self') = (v_tdim self, v_gdim self, v_x self, v_c2v self) /\ t_dim other = v_tdim self /\ t_gdim other = v_gdim self /\
  ~ In (t_id other) (map fst (v_maps self)) /\ NoDup (map fst (v_maps self')) /\ (forall i, In i (v_parents self') <-> In i (v_parents self) \/ i = t_id other) /\ (NoDup (v_parents self) -> NoDup (v_parents self')) /\
  exists vmap emap, (forall i m, In (i, m) (v_maps self') <-> In (i, m) (v_maps self) \/ (i = t_id other /\ m = (vmap, emap))) /\ NoDup (map fst emap) /\
    (forall c c' e, In (c, e) emap -> In (c', e) emap -> c = c') /\
    forall c e, In (c, e) emap -> has_tag other tags e /\ nth c (v_c2v self) [] <> [] /\ lies_on self other tol c e /\ forall v, In v (nth e (t_e2v other) []) -> In c (locate (nth v (t_x other) [])).
Proof.
  intros self other locate tol tags self' ND. unfold compute_embedding. destruct (v_tdim self =? t_dim other)%nat eqn:E1; [cbn [py_assert bind]|discriminate]. destruct (v_gdim self =? t_gdim other)%nat eqn:E2; [cbn [py_assert bind]|discriminate].
  destruct (dget (t_id other) (v_maps self)) as [|] eqn:ED; [discriminate|]. destruct (foldM _ tags []) as [emap|] eqn:EF; [cbn [bind]|discriminate]. intros H. injection H as <-. cbn [v_tdim v_gdim v_x v_c2v v_maps v_parents].
  apply dget_None in ED. apply Nat.eqb_eq in E1, E2. destruct (dset_spec (t_id other) (@nil (nat * nat), emap) (v_maps self) ND) as [D1 D2].
  apply tags_fold in EF. destruct EF as [EF _]. destruct (entities_sound _ _ _ _ _ [] _ (NoDup_nil _) EF) as [S1 [S2 _]].
  split; [reflexivity|]. split; [symmetry; exact E1|]. split; [symmetry; exact E2|]. split; [exact ED|]. split; [exact D1|].
  assert (M : mem (t_id other) (v_parents self) = true <-> In (t_id other) (v_parents self)) by (unfold mem; rewrite existsb_exists; split; [intros [y [Y1 Y2]]; apply Nat.eqb_eq in Y2; subst y; exact Y1|intros I; exists (t_id other); split; [exact I|apply Nat.eqb_refl]]).
  split; [|split].
  - intros i. destruct (mem (t_id other) (v_parents self)); [split; [intros I; left; exact I|intros [I| ->]; [exact I|apply M; reflexivity]]|]. rewrite in_app_iff. cbn. split; [intros [I|[<- | []]]; [left; exact I|right; reflexivity]|intros [I| ->]; [left; exact I|right; left; reflexivity]].
  - intros NP. destruct (mem (t_id other) (v_parents self)) eqn:EM; [exact NP|]. apply (NoDup_Add (a := t_id other) (l := v_parents self)); [rewrite <- (app_nil_r (v_parents self)) at 1; apply Add_app|]. split; [exact NP|]. intros I. apply M in I. discriminate.
  - exists [], emap. split; [|split; [exact S1|split]].
    + intros i m. rewrite D2. split; [intros [[-> ->]|[_ I]]; [right; split; reflexivity|left; exact I]|intros [I|[-> ->]]; [right; split; [intros ->; apply ED; apply in_map_iff; exists (t_id other, m); split; [reflexivity|exact I]|exact I]|left; split; reflexivity]].
    + intros c c' e I I'. destruct (S2 _ _ I) as [[_ [F _]]|[]]. destruct (S2 _ _ I') as [[_ [F' _]]|[]]. exact (finds_fun _ _ _ _ _ _ _ F F').
    + intros c e I. destruct (S2 _ _ I) as [[T [_ [G1 [_ [G3 G4]]]]]|[]]. split; [apply visited_In; exact T|]. split; [exact G3|]. split; [exact G4|exact G1].
Qed.
Print Assumptions C62_partial.
(** If the vertices of both are apart no assignment is lost: every entity with a tag has
    its cell, and their vertices are next to each other *)
Theorem C62_all : forall (self : viewer) (other : tagging) (locate : list R -> list nat) (tol : R) (tags : list nat) (n gdim : nat) (self' : viewer) (vmap emap : list (nat * nat)),
  0 < tol -> simplices (v_x self) (v_c2v self) n gdim tol -> simplices (t_x other) (t_e2v other) n gdim tol -> length (t_values other) = length (t_e2v other) ->
  (forall p c, In c (locate p) -> (c < length (v_c2v self))%nat) -> NoDup (map fst (v_maps self)) ->
  compute_embedding self other locate tol tags = Ok self' -> In (t_id other, (vmap, emap)) (v_maps self') ->
  (forall t, In t tags -> exists e, nth_error (t_values other) e = Some t) /\
  (forall e, In e (map snd emap) <-> has_tag other tags e) /\ forall c e, In (c, e) emap -> lies_on self other tol c e /\ covered self other tol c e.
Proof.
  intros self other locate tol tags n gdim self' vmap emap Ht HS HO HL HR ND. unfold compute_embedding. destruct (v_tdim self =? t_dim other)%nat eqn:E1; [cbn [py_assert bind]|discriminate]. destruct (v_gdim self =? t_gdim other)%nat eqn:E2; [cbn [py_assert bind]|discriminate].
  destruct (dget (t_id other) (v_maps self)) as [|] eqn:ED; [discriminate|]. destruct (foldM _ tags []) as [emap'|] eqn:EF; [cbn [bind]|discriminate]. intros H I. injection H as <-. cbn [v_maps] in I.
  apply dget_None in ED. destruct (dset_spec (t_id other) (@nil (nat * nat), emap') (v_maps self) ND) as [D1 D2]. apply D2 in I. destruct I as [[_ I]|[I _]]; [injection I as -> ->|contradiction I; reflexivity].
  apply tags_fold in EF. destruct EF as [EF ET]. destruct (entities_sound _ _ _ _ _ [] _ (NoDup_nil _) EF) as [S1 [S2 S3]].
  assert (RE : forall e, In e (visited other tags) -> (e < length (t_e2v other))%nat). { intros e I. apply visited_In in I. destruct I as [t [_ I]]. rewrite <- HL. apply nth_error_Some. rewrite I. discriminate. }
  assert (RC : forall c e, fresh self other locate tol e c -> (c < length (v_c2v self))%nat). { intros c e [F1 [F2 _]]. destruct (nth e (t_e2v other) []) as [|v vs]; [contradiction|]. exact (HR _ _ (F1 v (or_introl eq_refl))). }
  split; [exact ET|]. split.
  - intros e. split.
    + intros I. apply in_map_iff in I. destruct I as [[c e'] [<- I]]. cbn [snd]. destruct (S2 _ _ I) as [[T _]|[]]. apply visited_In. exact T.
    + intros T. apply visited_In in T. destruct (S3 e T) as [c [e' [F1 [F2 [F3 [F4 [F5 F6]]]]]]]. assert (e = e') as ->; [|apply in_map_iff; exists (c, e'); split; [reflexivity|exact F3]].
      apply (entity_unique self other tol n gdim c); try assumption; [exact (RC _ _ F2)|exact (RE _ T)|exact (RE _ F4)|apply F2|apply F6].
  - intros c e I. destruct (S2 _ _ I) as [[T [_ F]]|[]]. split; [apply F|]. apply (lies_on_covered self other tol n gdim); try assumption; [exact (RC _ _ F)|exact (RE _ T)|apply F].
Qed.
Print Assumptions C62_all.
(** It returns when every entity with a tag is a cell of the mesh which the locator finds
    from all the vertices, and every tag is used *)
Theorem C62_returns : forall (self : viewer) (other : tagging) (locate : list R -> list nat) (tol : R) (tags : list nat),
  v_tdim self = t_dim other -> v_gdim self = t_gdim other -> ~ In (t_id other) (map fst (v_maps self)) ->
  (forall t, In t tags -> exists e, nth_error (t_values other) e = Some t) -> (forall p c, In c (locate p) -> nth c (v_c2v self) [] <> []) ->
  (forall e, has_tag other tags e -> nth e (t_e2v other) [] <> [] /\ exists c, lies_on self other tol c e /\ forall v, In v (nth e (t_e2v other) []) -> In c (locate (nth v (t_x other) []))) ->
  exists self', compute_embedding self other locate tol tags = Ok self'.
Proof.
  intros self other locate tol tags E1 E2 NI HT HC HE. unfold compute_embedding. rewrite E1, E2, !Nat.eqb_refl. cbn [py_assert bind]. destruct (dget (t_id other) (v_maps self)) as [m|] eqn:ED.
  { apply dget_In in ED. contradiction NI. apply in_map_iff. exists (t_id other, m). split; [reflexivity|exact ED]. }
  destruct (entities_return self other locate tol (visited other tags)) with (emap := @nil (nat * nat)) as [r Hr].
  - intros e I. apply visited_In in I. destruct (HE e I) as [N [c [C1 C2]]]. exists c. split; [exact C2|]. split; [exact N|]. split; [|exact C1]. destruct (nth e (t_e2v other) []) as [|v vs]; [contradiction|]. exact (HC _ _ (C2 v (or_introl eq_refl))).
  - intros e c' I H. apply visited_In in I. destruct (HE e I) as [N _]. destruct (nth e (t_e2v other) []) as [|v vs]; [contradiction|]. exact (HC _ _ (H v (or_introl eq_refl))).
  - rewrite (tags_fold_ok _ _ _ _ _ HT _ _ Hr). cbn [bind]. eexists. reflexivity.
Qed.
Print Assumptions C62_returns.
(** It does not return with an entity that is no cell: whatever the locator says, every
    tagged entity has a cell with its vertices next to those of the entity *)
Theorem C62_checked : forall (self : viewer) (other : tagging) (locate : list R -> list nat) (tol : R) (tags : list nat) (e : nat),
  has_tag other tags e -> (forall c, nth c (v_c2v self) [] <> [] -> ~ lies_on self other tol c e) -> exists x, compute_embedding self other locate tol tags = Err x.
Proof.
  intros self other locate tol tags e T N. destruct (compute_embedding self other locate tol tags) as [s|x] eqn:E; [|exists x; reflexivity]. exfalso. revert E. unfold compute_embedding. destruct (py_assert _); [cbn [bind]|discriminate]. destruct (py_assert _); [cbn [bind]|discriminate].
  destruct (dget (t_id other) (v_maps self)) as [|] eqn:ED; [discriminate|]. destruct (foldM _ tags []) as [emap|] eqn:EF; [cbn [bind]|discriminate]. intros _.
  apply tags_fold in EF. destruct EF as [EF _]. destruct (entities_sound _ _ _ _ _ [] _ (NoDup_nil _) EF) as [_ [_ S3]]. apply visited_In in T. destruct (S3 e T) as [c [e' [_ [[_ [_ [F3 F4]]] _]]]]. exact (N c F3 F4).
Qed.
Print Assumptions C62_checked.
(** Only once for a mesh: a second view of it is refused, with whatever function and tags *)
Theorem C62_once : forall (self self' : viewer) (other other' : tagging) (locate locate' : list R -> list nat) (tol tol' : R) (tags tags' : list nat),
  NoDup (map fst (v_maps self)) -> compute_embedding self other locate tol tags = Ok self' -> t_id other' = t_id other -> t_dim other' = t_dim other -> t_gdim other' = t_gdim other ->
  compute_embedding self' other' locate' tol' tags' = Err ValueError.
Proof.
  intros self self' other other' locate locate' tol tol' tags tags' ND H I1 I2 I3. destruct (C62_partial _ _ _ _ _ _ ND H) as [E [D1 [D2 [_ [_ [_ [_ [vm [em [M _]]]]]]]]]]. injection E as A B _ _.
  unfold compute_embedding. rewrite A, B, I1, I2, I3, D1, D2, !Nat.eqb_refl. cbn [py_assert bind]. destruct (dget (t_id other) (v_maps self')) as [m|] eqn:ED; [reflexivity|]. apply dget_None in ED. contradiction ED.
  apply in_map_iff. exists (t_id other, (vm, em)). split; [reflexivity|]. apply M. right. split; reflexivity.
Qed.
Print Assumptions C62_once.
(** No vertex is ever mapped *)
Theorem C62_vertices_refuted : forall (self : viewer) (other : tagging) (locate : list R -> list nat) (tol : R) (tags : list nat) (self' : viewer) (vmap emap : list (nat * nat)),
  NoDup (map fst (v_maps self)) -> compute_embedding self other locate tol tags = Ok self' -> In (t_id other, (vmap, emap)) (v_maps self') -> vmap = [].
Proof.
  intros self other locate tol tags self' vmap emap ND. unfold compute_embedding. destruct (py_assert _); [cbn [bind]|discriminate]. destruct (py_assert _); [cbn [bind]|discriminate].
  destruct (dget (t_id other) (v_maps self)) as [|] eqn:ED; [discriminate|]. destruct (foldM _ tags []) as [emap'|] eqn:EF; [cbn [bind]|discriminate]. intros H I. injection H as <-. cbn [v_maps] in I.
  destruct (dset_spec (t_id other) (@nil (nat * nat), emap') (v_maps self) ND) as [_ D2]. apply D2 in I. destruct I as [[_ I]|[I _]]; [injection I as -> ->; reflexivity|contradiction I; reflexivity].
Qed.
Print Assumptions C62_vertices_refuted.
(** ... so that translate_markers for the mesh leaves the markers as they are, whatever the
    entities, maps of cells and tags *)
Theorem C62_markers_refuted : forall (child par : conns) (n : nat) (cmap p_values : list nat) (tags : option (list nat)) (f : option (list nat)),
  (forall e, (e < length p_values)%nat -> e2v par e <> []) ->
  translate_markers child par n [] cmap p_values tags f = Ok match f with Some f => f | None => repeat 0%nat n end.
Proof.
  intros child par n cmap p_values tags f H. unfold translate_markers. apply foldM_const. intros a t _. apply foldM_const. intros b e I. apply translate_one_empty, H. apply where_eq_In in I. apply nth_error_Some. rewrite I. discriminate.
Qed.
Print Assumptions C62_markers_refuted.

(** A broken line of two segments along three facets of a mesh, one of them tagged *)
Example ex_line : viewer := {| v_tdim := 1; v_gdim := 2; v_x := [[0; 0]; [1; 0]; [2; 0]]; v_c2v := [[0; 1]; [1; 2]]%nat; v_maps := [(7%nat, ([(0, 4)], [(0, 3)]))]%nat; v_parents := [7%nat] |}.
Example ex_facets : tagging := {| t_dim := 1; t_values := [0; 5; 0]%nat; t_id := 8; t_gdim := 2; t_x := [[2; 0]; [1; 0]; [0; 0]; [0; 1]]; t_e2v := [[0; 1]; [1; 2]; [2; 3]]%nat |}.
Example ex_find : list R -> list nat := fun p => (if Rle_dec (hd 0 p) 1 then [0%nat] else []) ++ (if Rle_dec 1 (hd 0 p) then [1%nat] else []).
Lemma ex_lies : lies_on ex_line ex_facets 1 0 1.
Proof.
  intros w [<- | [<- | []]]; [exists 2%nat|exists 1%nat]; (split; [cbn; tauto|]); cbn [nth t_x v_x ex_facets ex_line]; rewrite LineProofs.dist_refl; lra.
Qed.
Example ex_found : exists self', compute_embedding ex_line ex_facets ex_find 1 [5%nat] = Ok self'.
Proof.
  apply C62_returns; try reflexivity.
  - cbn. intros [H|[]]. discriminate.
  - intros t [<- | []]. exists 1%nat. reflexivity.
  - intros p c. unfold ex_find. rewrite in_app_iff. destruct (Rle_dec (hd 0 p) 1), (Rle_dec 1 (hd 0 p)); cbn; intros [[<- | []]|[<- | []]] || intros [[<- | []]|[]] || intros [[]|[<- | []]] || intros [[]|[]]; discriminate.
  - intros e [t [[<- | []] H]]. destruct e as [|[|[|[|]]]]; cbn in H; try discriminate. split; [discriminate|]. exists 0%nat. split; [exact ex_lies|]. intros v [<- | [<- | []]]; cbn [nth t_x ex_facets]; unfold ex_find; cbn [hd]; rewrite in_app_iff; left; destruct (Rle_dec _ 1); [left; reflexivity|lra|left; reflexivity|lra].
Qed.
(** It returns with a cell that is not mapped: there is no check that the tagged entities
    make up the mesh *)
Theorem C62_cells_refuted : exists (self : viewer) (other : tagging) (locate : list R -> list nat) (tol : R) (tags : list nat) (self' : viewer) (vmap emap : list (nat * nat)) (c : nat),
  compute_embedding self other locate tol tags = Ok self' /\ In (t_id other, (vmap, emap)) (v_maps self') /\ (c < length (v_c2v self'))%nat /\ ~ In c (map fst emap) /\ In 0%nat (map fst emap).
Proof.
  destruct ex_found as [s' E]. assert (ND : NoDup (map fst (v_maps ex_line))) by (repeat constructor; intros []). destruct (C62_partial _ _ _ _ _ _ ND E) as [EQ [_ [_ [_ [_ [_ [_ [vm [em [M [_ [UN S]]]]]]]]]]]].
  exists ex_line, ex_facets, ex_find, 1, [5%nat], s', vm, em, 1%nat. split; [exact E|]. split; [apply M; right; split; reflexivity|]. injection EQ as _ _ _ EC. rewrite EC. split; [cbn; lia|].
  assert (K : forall c e, In (c, e) em -> c = 0%nat /\ e = 1%nat).
  { intros c e I. destruct (S c e I) as [[t [[<- | []] T]] [_ [_ L]]]. assert (e = 1%nat) as -> by (destruct e as [|[|[|[|]]]]; cbn in T; congruence). split; [|reflexivity]. specialize (L 2%nat). cbn [nth t_e2v t_x ex_facets] in L. specialize (L ltac:(cbn; tauto)).
    revert L. unfold ex_find. cbn [hd]. destruct (Rle_dec 0 1); [|lra]. destruct (Rle_dec 1 0); [lra|]. intros [<- | []]. reflexivity. }
  split.
  - intros I. apply in_map_iff in I. destruct I as [[c e] [H I]]. cbn in H. subst c. destruct (K _ _ I) as [H _]. discriminate.
  - assert (Q : em <> []).
    { intros ->. revert E. unfold compute_embedding. cbn [v_tdim v_gdim t_dim t_gdim ex_line ex_facets Nat.eqb py_assert bind t_id v_maps dget]. destruct (foldM _ _ _) as [em|] eqn:EF; [cbn [bind]|discriminate]. intros E. injection E as <-. cbn [v_maps dset Nat.eqb] in M.
      apply tags_fold in EF. destruct EF as [EF _]. destruct (entities_sound _ _ _ _ _ [] _ (NoDup_nil _) EF) as [_ [_ S3]]. destruct (S3 1%nat) as [c [e' [_ [_ [I _]]]]]; [apply visited_In; exists 5%nat; split; [left; reflexivity|reflexivity]|].
      destruct (proj1 (M 8%nat ([], em))) as [[Z|[]]|[_ Z]]; [right; left; reflexivity|discriminate|]. injection Z as _ ->. destruct I. }
    destruct em as [|[c e] em]; [contradiction|]. destruct (K c e (or_introl eq_refl)) as [-> ->]. left. reflexivity.
Qed.
Print Assumptions C62_cells_refuted.
(** The hypotheses of C62_all are met with tolerance 1/4 *)
Example ex_apart : simplices (v_x ex_line) (v_c2v ex_line) 2 2 (1 / 4) /\ simplices (t_x ex_facets) (t_e2v ex_facets) 2 2 (1 / 4).
Proof.
  assert (D : forall a b c d, 1 <= (a - c) * (a - c) + (b - d) * (b - d) -> 2 * (1 / 4) <= GeomProofs.dist [a; b] [c; d]).
  { intros a b c d H. unfold GeomProofs.dist. apply Rle_trans with 1; [lra|]. rewrite <- sqrt_1 at 1. apply sqrt_le_1_alt. unfold sq_dist. cbn. lra. }
  split; (split; [|split; [|split]]).
  - intros c Hc. destruct c as [|[|]]; cbn in Hc |- *; try lia; (split; [repeat constructor; cbn; lia|]; split; [reflexivity|]; intros w H; lia).
  - intros w Hw. destruct w as [|[|[|]]]; cbn in Hw |- *; try lia; reflexivity.
  - intros w w' Hw Hw' N. destruct w as [|[|[|]]]; cbn in Hw; try lia; destruct w' as [|[|[|]]]; cbn in Hw'; try lia; cbn [nth v_x ex_line]; apply D; lra.
  - intros c c' Hc Hc' E. destruct c as [|[|]]; cbn in Hc; try lia; destruct c' as [|[|]]; cbn in Hc'; try lia; [specialize (E 0%nat)|specialize (E 0%nat)]; cbn in E; lia.
  - intros c Hc. destruct c as [|[|[|]]]; cbn in Hc |- *; try lia; (split; [repeat constructor; cbn; lia|]; split; [reflexivity|]; intros w H; lia).
  - intros w Hw. destruct w as [|[|[|[|]]]]; cbn in Hw |- *; try lia; reflexivity.
  - intros w w' Hw Hw' N. destruct w as [|[|[|[|]]]]; cbn in Hw; try lia; destruct w' as [|[|[|[|]]]]; cbn in Hw'; try lia; cbn [nth t_x ex_facets]; apply D; lra.
  - intros c c' Hc Hc' E. assert (E0 := E 0%nat). assert (E1 := E 1%nat). assert (E2 := E 2%nat). destruct c as [|[|[|]]]; cbn in Hc; try lia; destruct c' as [|[|[|]]]; cbn in Hc'; try lia; cbn in E0, E1, E2; lia.
Qed.
