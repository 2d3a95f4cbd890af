(** Specification vocabulary for the checks before the loops, and lemmas. *)
From Verif Require Import Base ElementModel ElementProofs AnnotateModel AnnotateProofs CheckModel.

(** ** Vocabulary *)

(** the function [v] of the space [V] on a mesh of cells [c] *)
Definition of_space (st : state) (v : nat) (c : cell) (V : space) : Prop :=
  reducible st v c V /\ exists m, nth_error (meshes st) (s_mesh V) = Some m /\ m_cell m = c.

(** the mesh has a map to the mesh [p] *)
Definition child_of (m : mesh) (p : nat) : Prop := exists maps, m_maps m = Some maps /\ In p (map fst maps).

(** ** Lemmas *)
Lemma shape_eqb_eq a b : shape_eqb a b = true <-> a = b.
Proof. unfold shape_eqb. destruct (list_eq_dec Nat.eq_dec a b); split; intros H; try assumption; try reflexivity; try discriminate H. contradiction. Qed.
Lemma shape_eqb_refl a : shape_eqb a a = true.
Proof. apply shape_eqb_eq. reflexivity. Qed.
Lemma family_eqb_eq a b : family_eqb a b = true <-> a = b.
Proof.
  destruct a, b; cbn; split; intros H; try reflexivity; try discriminate H;
    try (apply Nat.eqb_eq in H; subst; reflexivity); inversion H; apply Nat.eqb_refl.
Qed.
Lemma check_ok b u : check b = Ok u <-> b = true.
Proof. destruct b, u; cbn; split; intros H; try reflexivity; discriminate H. Qed.
Lemma key_in_spec k l : key_in k l = true <-> In k (map fst l).
Proof.
  unfold key_in. rewrite existsb_exists, in_map_iff. split.
  - intros (p & Hp & E). apply Nat.eqb_eq in E. exists p. split; assumption.
  - intros (p & E & Hp). exists p. split; [exact Hp | apply Nat.eqb_eq; exact E].
Qed.

(** what is looked up for a copy *)
Lemma copied_get st v c V mk st' r :
  of_space st v c V -> copied st v mk st' r ->
  exists o, get st' r = Ok o /\ space_of o = Ok V /\ o_marks o = [mk].
Proof.
  intros [(o & Ho & _ & Hs) _] (_ & _ & o' & Ho' & Hr). rewrite Ho in Ho'. injection Ho' as <-.
  exists (Obj (o_sort o) [mk]). unfold get. rewrite Hr. split; [reflexivity |]. split; [| reflexivity].
  unfold space_of. cbn [o_sort]. destruct Hs as [-> | [-> | [x ->]]]; reflexivity.
Qed.
Lemma copied_pass vs pm st v c V mk st' r rm :
  of_space st v c V -> copied st v mk st' r -> pass vs pm st' r rm = passes_mark vs pm st' V mk rm.
Proof.
  intros Hv Hc. destruct (copied_get st v c V mk st' r Hv Hc) as (o & Eo & Es & Em). unfold pass. rewrite Eo. cbn [bind].
  rewrite Es. cbn [bind]. rewrite Em. reflexivity.
Qed.
Lemma copied_mesh st v mk st' r i : copied st v mk st' r -> get_mesh st' i = get_mesh st i.
Proof. intros [[E _] _]. unfold get_mesh. rewrite E. reflexivity. Qed.
Lemma get_mesh_some st i m : nth_error (meshes st) i = Some m -> get_mesh st i = Ok m.
Proof. intros E. unfold get_mesh. rewrite E. reflexivity. Qed.

(** the shape of the space for extensions *)
Lemma extension_family e t : extension_element e = Ok t -> (forall l, e <> ME l) -> e_family t = match e_family e with Lagrange => Lagrange | _ => DiscLagrange end.
Proof.
  intros E Hm. destruct e as [f c d | s n | s sh | l]; [| | | contradiction (Hm l); reflexivity];
    cbn [extension_element] in E;
    (destruct (e_cell _) as [k | x]; cbn [bind] in E; [| discriminate E]);
    (destruct (extension_cell k) as [k' | x]; cbn [bind] in E; [| discriminate E]);
    (apply by_rank_ok in E; [apply E | destruct (e_family _); auto]).
Qed.

(** point traces: the copy or the function itself carries the mark in front *)
Lemma reconstructed_get st v c V mk o st' r :
  reducible st v c V -> nth_error (heap st) v = Some o -> reconstruct_and_mark st v o mk = Ok (st', r) ->
  meshes st' = meshes st /\ exists o' l, get st' r = Ok o' /\ space_of o' = Ok V /\ o_marks o' = mk :: l.
Proof.
  intros (o1 & Ho1 & _ & Hs) Ho E. rewrite Ho in Ho1. injection Ho1 as <-. unfold reconstruct_and_mark in E.
  assert (Hl : v < length (heap st)) by (apply nth_error_Some; rewrite Ho; discriminate).
  destruct Hs as [Es | [Es | [x Es]]]; rewrite Es in E.
  - injection E as <- <-. split; [reflexivity |]. eexists. exists []. unfold get. cbn [heap].
    rewrite nth_error_app2, Nat.sub_diag; [| lia]. cbn. split; [reflexivity |]. cbn. rewrite ?Es. split; reflexivity.
  - injection E as <- <-. split; [reflexivity |]. eexists. exists []. unfold get. cbn [heap].
    rewrite nth_error_app2, Nat.sub_diag; [| lia]. cbn. split; [reflexivity |]. cbn. rewrite ?Es. split; reflexivity.
  - injection E as <- <-. split; [reflexivity |]. eexists. eexists. unfold get. cbn [heap].
    rewrite nth_error_app2; [| rewrite firstn_length; lia]. rewrite firstn_length, Nat.min_l by lia. rewrite Nat.sub_diag. cbn.
    split; [reflexivity |]. unfold set_mark, space_of. cbn. rewrite Es. split; reflexivity.
Qed.
