(** Property C100: Skeleton is the mesh of the interior facets. *)
From Verif Require Import Base BaseProofs FillModel FillProofs EmbedModel EmbedProofs EmbedProps SkeletonModel SkeletonProofs.
From Coq Require Import Permutation Sorted.
Local Open Scope nat_scope.
Local Close Scope Q_scope.
Local Close Scope Qc_scope.

Lemma skeleton_of {X} submesh (m : @fmesh X) values P : 1 < fm_dim m -> fmesh_ok m ->
  length values = length (conn (fm_facets m)) ->
  (forall f, nth_error values f = Some 1 <-> f < length (conn (fm_facets m)) /\ P f) ->
  exists em, embedded_mesh submesh (fm_dim m) (fm_dim m - 1) (fm_facets m) values [1] = Ok em /\ facet_mesh m P em.
Proof.
  intros D O L V.
  destruct (C38_entities submesh (fm_dim m) (fm_dim m - 1) (fm_facets m) values [1]) as (em & E & B & S & I & T).
  - lia.
  - split; [exact L|]. apply (fo_vertices m O).
  - repeat constructor. intros [].
  - discriminate.
  - exists em. split; [exact E|]. destruct B as [B1 B2 B3 B4 B5 B6 B7]. constructor; auto.
    + intros f. rewrite B2, <- V. split; [intros (k & E1 & [<- | [] ]); exact E1|intros E1; exists 1; split; [exact E1|left; reflexivity] ].
    + assert (W : forall f, In f (em_cmap em) -> nth_error values f = Some 1).
      { intros f F. apply B2 in F. destruct F as (k & E1 & [<- | [] ]). exact E1. }
      revert W. generalize (em_cmap em) (em_f em) B7. clear. intros c g H. induction H as [|k f g c H1 H2 IH]; intros W; constructor.
      * assert (Y := W f (or_introl eq_refl)). congruence.
      * apply IH. intros e He. apply W. right. exact He.
Qed.

(** Without the boundary: exactly the facets shared by two different cells. *)
Theorem C100_interior : forall {X} submesh (m : @fmesh X), 1 < fm_dim m -> fmesh_ok m ->
  exists em, skeleton submesh m false = Ok em /\
  facet_mesh m (fun f => exists c d, c <> d /\ has_facet m c f /\ has_facet m d f) em.
Proof.
  intros X submesh m D O. unfold skeleton. destruct (Nat.ltb_spec 1 (fm_dim m)); [cbn [py_assert bind]|lia].
  apply skeleton_of; auto.
  - rewrite mark_length, repeat_length. reflexivity.
  - intros f. split.
    + intros E. destruct (mark_nth _ _ _ _ E) as [L H0]. split; [exact L|]. apply interior_iff; [apply (fo_cells m O); exact L|tauto].
    + intros [L I]. destruct (nth_error (mark_boundary m (repeat 1 (length (conn (fm_facets m)))) 0) f) as [k|] eqn:E.
      * destruct (mark_nth _ _ _ _ E) as [_ K]. f_equal. apply K. apply interior_iff; [apply (fo_cells m O); exact L|exact I].
      * apply nth_error_None in E. rewrite mark_length, repeat_length in E. lia.
Qed.
Print Assumptions C100_interior.

(** With the boundary: all facets. *)
Theorem C100_all : forall {X} submesh (m : @fmesh X), 1 < fm_dim m -> fmesh_ok m ->
  exists em, skeleton submesh m true = Ok em /\ facet_mesh m (fun _ => True) em.
Proof.
  intros X submesh m D O. unfold skeleton. destruct (Nat.ltb_spec 1 (fm_dim m)); [cbn [py_assert bind]|lia].
  apply skeleton_of; auto.
  - apply repeat_length.
  - intros f. split.
    + intros E. split; [|exact I]. rewrite <- (repeat_length 1 (length _)). apply nth_error_Some. congruence.
    + intros [L _]. apply nth_error_repeat. exact L.
Qed.
Print Assumptions C100_all.

(** The facets of an interval are points: refused. *)
Theorem C100_intervals : forall {X} submesh (m : @fmesh X) b, fm_dim m <= 1 -> skeleton submesh m b = Err AssertionError.
Proof. intros X submesh m b D. unfold skeleton. destruct (Nat.ltb_spec 1 (fm_dim m)); [lia|reflexivity]. Qed.
Print Assumptions C100_intervals.

(** Two triangles 0 1 3 and 1 2 3 share the edge 1 3. *)
Definition C100_mesh : @fmesh nat := FMesh 2 (Mesh [10; 11; 12; 13] [[0; 1]; [0; 3]; [1; 3]; [1; 2]; [2; 3] ]) [[0; 1; 2]; [2; 3; 4] ].
Example C100_ex : fmesh_ok C100_mesh /\
  exists em, skeleton dolfin_submesh C100_mesh false = Ok em /\ em_cmap em = [2] /\ em_vmap em = [1; 3] /\ coords (em_mesh em) = [11; 13].
Proof.
  split.
  - constructor.
    + cbn. intros vs v Hv. repeat (destruct Hv as [<- | Hv]; [intros W; repeat (destruct W as [<- | W]; [lia|]); contradiction|]). contradiction.
    + cbn. intros [|[|[|[|[|f] ] ] ] ] H; try lia; first [exists 0; eexists; split; [reflexivity|cbn; tauto] | exists 1; eexists; split; [reflexivity|cbn; tauto] ].
  - eexists. split; [reflexivity|]. repeat split; reflexivity.
Qed.
