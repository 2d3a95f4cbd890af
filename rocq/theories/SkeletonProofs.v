(** Lemmas for C100. *)
From Verif Require Import Base BaseProofs FillModel FillProofs EmbedModel EmbedProofs SkeletonModel.
From Coq Require Import Permutation Sorted.
Local Open Scope nat_scope.
Local Close Scope Q_scope.
Local Close Scope Qc_scope.

(** Facet [f] is a facet of cell [c]. *)
Definition has_facet {X} (m : @fmesh X) (c f : nat) : Prop := exists fs, nth_error (fm_c2f m) c = Some fs /\ In f fs.
(** Facets have existing vertices, and every facet is one of some cell. *)
Record fmesh_ok {X} (m : @fmesh X) : Prop := {
  fo_vertices : forall vs v, In vs (conn (fm_facets m)) -> In v vs -> v < length (coords (fm_facets m));
  fo_cells : forall f, f < length (conn (fm_facets m)) -> exists c, has_facet m c f }.
(** [em] is the mesh of the facets that satisfy [P]: every one of them is a cell
    once, with its vertices at their places, and there are no other vertices. *)
Record facet_mesh {X} (m : @fmesh X) (P : nat -> Prop) (em : @emesh X) : Prop := {
  fa_once : NoDup (em_cmap em);
  fa_cells : forall f, In f (em_cmap em) <-> f < length (conn (fm_facets m)) /\ P f;
  fa_incidence : Forall2 (fun cell f => exists vs, nth_error (conn (fm_facets m)) f = Some vs /\ Forall2 (fun v w => nth_error (em_vmap em) v = Some w) cell vs) (conn (em_mesh em)) (em_cmap em);
  fa_coords : Forall2 (fun x w => nth_error (coords (fm_facets m)) w = Some x) (coords (em_mesh em)) (em_vmap em);
  fa_vertex_once : NoDup (em_vmap em);
  fa_vertices : forall w, In w (em_vmap em) <-> exists f vs, In f (em_cmap em) /\ nth_error (conn (fm_facets m)) f = Some vs /\ In w vs;
  fa_marks : Forall2 (fun k _ => k = 1) (em_f em) (em_cmap em) }.

Lemma cells_of_In {X} (m : @fmesh X) f c : In c (cells_of m f) <-> has_facet m c f.
Proof.
  unfold cells_of, has_facet. rewrite filter_In, in_seq, existsb_exists. split.
  - intros [L (g & I & E)]. apply Nat.eqb_eq in E. subst g. exists (nth c (fm_c2f m) []). split; [apply nth_error_nth'; lia|exact I].
  - intros (fs & E & I). assert (c < length (fm_c2f m)) by (apply nth_error_Some; congruence). split; [lia|].
    exists f. rewrite (nth_error_nth _ _ [] E). split; [exact I|apply Nat.eqb_refl].
Qed.

Lemma cells_of_NoDup {X} (m : @fmesh X) f : NoDup (cells_of m f).
Proof. apply NoDup_filter, seq_NoDup. Qed.

Lemma interior_iff {X} (m : @fmesh X) f : (exists c, has_facet m c f) ->
  length (cells_of m f) <> 1 <-> exists c d, c <> d /\ has_facet m c f /\ has_facet m d f.
Proof.
  intros [c0 H0]. apply cells_of_In in H0. assert (N := cells_of_NoDup m f). split.
  - intros L. destruct (cells_of m f) as [|c [|d l] ] eqn:E; [contradiction|cbn in L; lia|].
    exists c, d. rewrite <- !cells_of_In, E. split; [|split; [left|right; left]; reflexivity].
    intros ->. inversion N as [|x y N1 N2]. apply N1. left. reflexivity.
  - intros (c & d & D & Hc & Hd) L. rewrite <- !cells_of_In in *.
    destruct (cells_of m f) as [|x [|y l] ]; cbn in L; try lia. destruct Hc as [<- | [] ], Hd as [<- | [] ]. congruence.
Qed.

Lemma mark_length {X} (m : @fmesh X) g v : length (mark_boundary m g v) = length g.
Proof. unfold mark_boundary. rewrite map_length, seq_length. reflexivity. Qed.

Lemma mark_nth {X} (m : @fmesh X) n f k : nth_error (mark_boundary m (repeat 1 n) 0) f = Some k ->
  f < n /\ (k = 1 <-> length (cells_of m f) <> 1).
Proof.
  intros E. assert (L : f < n) by (rewrite <- (repeat_length 1 n), <- (mark_length m (repeat 1 n) 0); apply nth_error_Some; congruence).
  split; [exact L|]. unfold mark_boundary in E. rewrite repeat_length, nth_error_map in E.
  rewrite (nth_error_nth' _ 0) in E by (rewrite seq_length; exact L). rewrite seq_nth in E by exact L. cbn in E.
  injection E as <-. destruct (Nat.eqb_spec (length (cells_of m f)) 1) as [H|H].
  - split; [discriminate|congruence].
  - rewrite (nth_error_nth (repeat 1 n) f 0 (x := 1)); [tauto|]. apply nth_error_repeat. exact L.
Qed.
