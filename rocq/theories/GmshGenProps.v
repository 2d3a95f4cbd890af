(** C80: data of gmsh models *)
From Verif Require Import Base BaseProofs EmbedModel GmshModel GmshProofs GmshProps GmshGenModel GmshGenProofs.
From Coq Require Import List Arith Lia Permutation Reals.
Import ListNotations.
Local Open Scope nat_scope.

(** It returns, and of each type the data has the elements in the groups, in order,
    with the tags of the groups and one less than the tags of nodes *)
Theorem C80_elements : forall wd M, meshed wd M -> exists nodes data, msh_gmsh_model M = Ok (nodes, data) /\ NoDup (map fst data) /\
  (forall elm, In elm (map fst data) <-> listing wd M elm <> []) /\
  forall elm d, In (elm, d) data -> e_width d = wd elm /\
    e_rows d = map (fun x => map (fun v => v - 1) (fst x)) (listing wd M elm) /\ e_tags d = map snd (listing wd M elm).
Proof.
  intros wd M HM. destruct (groups_ok wd M (m_groups M) [] []) as [data [E [N [K D]]]].
  - split; [constructor | split; [intros e; cbn; split; [intros [] | intros H; contradiction] | intros e d []]].
  - intros [dim tag] entity Hg He. apply (HM dim tag entity Hg He).
  - unfold msh_gmsh_model. rewrite E. cbn [bind]. eexists. exists data. split; [reflexivity |]. split; [exact N |].
    cbn [app] in *. split; [intros elm; rewrite listing_all; apply K |]. intros elm d Hd. rewrite listing_all. apply D, Hd.
Qed.
(** In a listing are the elements of entities in groups, with the tag of the group *)
Theorem C80_listed : forall wd M elm nodes tag, meshed wd M ->
  (In (nodes, tag) (listing wd M elm) <->
   exists dim entity n l i, In (dim, tag) (m_groups M) /\ In entity (m_entities M dim tag) /\ m_elements M dim entity = [(elm, (n, l))] /\ i < n /\
     length nodes = wd elm /\ forall j, j < wd elm -> nth_error nodes j = nth_error l (i * wd elm + j)).
Proof.
  intros wd M elm nodes tag HM.
  assert (Hel : forall n l i, length l = n * wd elm -> i < n -> length (element (wd elm) l i) = wd elm /\
    forall j, j < wd elm -> nth_error (element (wd elm) l i) j = nth_error l (i * wd elm + j)).
  { intros n l i Hl Hi. unfold element. split; [rewrite map_length, seq_length; reflexivity |]. intros j Hj.
    rewrite nth_error_map, (nth_error_nth' _ 0) by (rewrite seq_length; auto). rewrite seq_nth by auto. cbn [option_map Nat.add].
    symmetry. apply nth_error_nth'. rewrite Hl. nia. }
  unfold listing. split.
  - intros H. apply in_flat_map in H. destruct H as [[dim tag'] [Hg H]]. apply in_flat_map in H. destruct H as [entity [He H]].
    cbn [fst snd] in *. destruct (HM dim tag' entity Hg He) as [t [n [l [E [Hn Hl]]]]]. rewrite E in H. cbn [flat_map fst snd app] in H. rewrite app_nil_r in H.
    destruct (Nat.eqb_spec t elm) as [-> | _]; [| destruct H]. apply in_map_iff in H. destruct H as [i [H Hi]]. apply in_seq in Hi. injection H as <- <-.
    exists dim, entity, n, l, i. destruct (Hel n l i Hl ltac:(lia)) as [H1 H2]. repeat split; auto; lia.
  - intros [dim [entity [n [l [i [Hg [He [E [Hi [Hl Hj]]]]]]]]]]. apply in_flat_map. exists (dim, tag). split; auto. cbn [fst snd].
    apply in_flat_map. exists entity. split; auto. rewrite E. cbn [flat_map fst snd app]. rewrite Nat.eqb_refl, app_nil_r. apply in_map_iff. exists i.
    split; [| apply in_seq; lia]. f_equal. destruct (HM dim tag entity Hg He) as [t' [n' [l' [E' [_ Hl']]]]]. rewrite E in E'. injection E' as <- <- <-.
    destruct (Hel n l i Hl' Hi) as [H1 H2]. apply (nth_ext _ _ 0 0); [congruence |]. intros j Hlt. rewrite H1 in Hlt.
    specialize (H2 j Hlt). rewrite <- (Hj j Hlt) in H2. destruct (nth_error nodes j) as [x |] eqn:En; [| apply nth_error_None in En; lia].
    apply nth_error_nth with (d := 0) in H2. apply nth_error_nth with (d := 0) in En. congruence.
Qed.
(** If the nodes have the tags 1, ..., n, in any order, the coordinates are at their place *)
Theorem C80_coordinates : forall M nodes data, Permutation (map fst (m_nodes M)) (seq 1 (length (m_nodes M))) -> msh_gmsh_model M = Ok (nodes, data) ->
  length nodes = length (m_nodes M) /\ forall tag x, In (tag, x) (m_nodes M) -> 1 <= tag /\ nth_error nodes (tag - 1) = Some x.
Proof.
  intros M nodes data Hp H. unfold msh_gmsh_model in H. destruct (foldM _ _ _); cbn [bind] in H; [| discriminate]. injection H as <- _.
  set (l := map (fun n => (fst n - 1, snd n)) (m_nodes M)).
  assert (Hl : length l = length (m_nodes M)) by (apply map_length). split.
  - rewrite map_length, <- Hl. apply Permutation_length, sort_nodes_perm.
  - intros tag x Hx. assert (Ht : In tag (seq 1 (length (m_nodes M)))) by (apply (Permutation_in _ Hp); apply in_map_iff; exists (tag, x); auto).
    apply in_seq in Ht. split; [lia |]. apply sorted_nth.
    + rewrite Hl. unfold l. rewrite map_map. cbn [fst]. rewrite <- (map_map fst (fun t => t - 1)).
      eapply perm_trans; [apply Permutation_map, Hp |]. rewrite <- seq_shift, map_map.
      rewrite (map_ext _ (fun t => t)) by (intros; lia). rewrite map_id. apply Permutation_refl.
    + apply in_map_iff. exists (tag, x). auto.
Qed.

(** From gmsh to dolfin: in the mesh that mesh_from_gmsh makes of the data, vertex j of
    cell i has the coordinates of node j of element i *)
Theorem C80_mesh_partial : forall M edges TOL nodes data m fs, meshed nodes_of_type M -> Permutation (map fst (m_nodes M)) (seq 1 (length (m_nodes M))) ->
  Forall (fun n => length (snd n) = 3) (m_nodes M) -> (forall elm nodes tag v, In (nodes, tag) (listing nodes_of_type M elm) -> In v nodes -> In v (map fst (m_nodes M))) ->
  msh_gmsh_model M = Ok (nodes, data) -> mesh_from_gmsh edges nodes data TOL = Ok (m, fs) ->
  exists elm, (elm = 2 \/ elm = 1 /\ listing nodes_of_type M 2 = [] /\ listing nodes_of_type M 4 = []) /\ length (g_cells m) = length (listing nodes_of_type M elm) /\
  forall i j e tag, nth_error (listing nodes_of_type M elm) i = Some (e, tag) -> j < length e ->
    exists x, In (nth j e 0, x) (m_nodes M) /\ length (nth i (g_cells m) []) = length e /\ nth (nth j (nth i (g_cells m) []) 0) (g_x m) [] = firstn (g_gdim m) x.
Proof.
  intros M edges TOL nodes data m fs HM Hp H3 Hin H Hm.
  destruct (C80_elements nodes_of_type M HM) as [nodes' [data' [E [N [K D]]]]]. rewrite H in E. injection E as <- <-.
  destruct (C80_coordinates M nodes data Hp H) as [Hl Hc].
  assert (PR : proper data).
  { apply Forall_forall. intros [elm d] Hd. cbn [fst snd]. destruct (D elm d Hd) as [Hw [Hr Ht]]. split; [rewrite Hw; reflexivity |]. split.
    - rewrite Hr, Hw. apply Forall_forall. intros row Hrow. apply in_map_iff in Hrow. destruct Hrow as [[e tag] [<- He]]. rewrite map_length.
      apply (C80_listed nodes_of_type M elm e tag HM) in He. destruct He as [dim [entity [n [l [i [_ [_ [_ [_ [He _]]]]]]]]]]. exact He.
    - rewrite Hr, Ht, !map_length. reflexivity. }
  assert (N3 : Forall (fun p => length p = 3) nodes).
  { apply Forall_forall. intros x Hx. apply In_nth_error in Hx. destruct Hx as [k Hk].
    assert (Hkl : k < length (m_nodes M)) by (rewrite <- Hl; apply nth_error_Some; congruence).
    assert (Hkin : In (S k) (map fst (m_nodes M))) by (apply (Permutation_in _ (Permutation_sym Hp)); apply in_seq; lia).
    apply in_map_iff in Hkin. destruct Hkin as [[tag y] [Ey Hy]]. cbn in Ey. subst tag. destruct (Hc _ _ Hy) as [_ Hy']. cbn [Nat.sub] in Hy'. rewrite Nat.sub_0_r in Hy'.
    rewrite Hk in Hy'. injection Hy' as ->. rewrite Forall_forall in H3. apply (H3 _ Hy). }
  destruct (C46_partial edges nodes data TOL m fs PR N3 Hm) as [elm [d [Hd [Helm [_ [Hmax [[Hlen HE] _]]]]]]].
  destruct (D elm d Hd) as [Hw [Hr _]]. exists elm. split; [| split].
  - destruct Helm as [-> | ->]; auto. right. split; auto.
    assert (Hno : forall e, e = 2 \/ e = 4 -> listing nodes_of_type M e = []).
    { intros e He. destruct (listing nodes_of_type M e) eqn:El; auto. exfalso. assert (Hk : In e (map fst data)) by (apply K; rewrite El; discriminate).
      destruct (Hmax eq_refl e Hk). destruct He; contradiction. }
    split; apply Hno; auto.
  - rewrite Hlen, Hr, map_length. reflexivity.
  - intros i j e tag Hi Hj.
    assert (Er : nth_error (e_rows d) i = Some (map (fun v => v - 1) e)) by (rewrite Hr, nth_error_map, Hi; reflexivity).
    assert (Er' := nth_error_nth _ _ [] Er). assert (Hil : i < length (e_rows d)) by (apply nth_error_Some; congruence).
    destruct (HE i j Hil) as [L1 [_ HX]]; [rewrite Er', map_length; exact Hj |]. rewrite Er', map_length in L1. rewrite Er' in HX.
    assert (Ev : nth j (map (fun v => v - 1) e) 0 = nth j e 0 - 1) by (exact (map_nth (fun v => v - 1) e 0 j)).
    assert (Hv : In (nth j e 0) (map fst (m_nodes M))) by (apply (Hin elm e tag); [eapply nth_error_In; exact Hi | apply nth_In, Hj]).
    apply in_map_iff in Hv. destruct Hv as [[v x] [Evx Hx]]. cbn in Evx. subst v. exists x. split; [exact Hx |]. split; [exact L1 |].
    rewrite HX, Ev. f_equal. destruct (Hc _ _ Hx) as [_ Hn]. apply nth_error_nth. exact Hn.
Qed.

(** An entity with no elements or elements of two types is a ValueError *)
Theorem C80_raises : forall M dim tag data entity, (length (m_elements M dim entity) <> 1 \/ exists t l, m_elements M dim entity = [(t, (0, l))]) ->
  add_entity M dim tag data entity = Err ValueError.
Proof.
  intros M dim tag data entity [H | [t [l H]]]; unfold add_entity.
  - destruct (m_elements M dim entity) as [| [t [n l]] [| y r]]; cbn in H; auto. lia.
  - rewrite H. reflexivity.
Qed.

(** Two segments in a group *)
Definition two_lines (tags : list nat) : gmodel :=
  GModel (combine tags [[0%R; 0%R; 0%R]; [1%R; 0%R; 0%R]; [2%R; 0%R; 0%R]]) [(1, 7)] (fun _ _ => [1])
         (fun _ _ => [(1, (2, [nth 0 tags 0; nth 1 tags 0; nth 1 tags 0; nth 2 tags 0]))]).
Example case_lines : meshed nodes_of_type (two_lines [2; 3; 1]) /\ Permutation (map fst (m_nodes (two_lines [2; 3; 1]))) (seq 1 3) /\
  listing nodes_of_type (two_lines [2; 3; 1]) 1 = [([2; 3], 7); ([3; 1], 7)] /\
  msh_gmsh_model (two_lines [2; 3; 1]) = Ok ([[2%R; 0%R; 0%R]; [0%R; 0%R; 0%R]; [1%R; 0%R; 0%R]], [(1, {| e_width := 2; e_rows := [[1; 2]; [2; 0]]; e_tags := [7; 7] |})]).
Proof.
  split; [| split; [| split; reflexivity]].
  - intros dim tag entity _ _. exists 1, 2, [2; 3; 3; 1]. cbn. auto.
  - cbn. apply perm_trans with [2; 1; 3]; [apply perm_skip, perm_swap | apply perm_swap].
Qed.

(** False if tags are left out: an edge of the second and third of the nodes 2, 3, 4 ... gets
    the coordinates of others, or none *)
Theorem C80_gaps_refuted : exists M nodes data d, meshed nodes_of_type M /\ NoDup (map fst (m_nodes M)) /\ Forall (fun n => 1 <= fst n) (m_nodes M) /\
  msh_gmsh_model M = Ok (nodes, data) /\ In (1, d) data /\
  (exists x y, In (2, x) (m_nodes M) /\ nth_error (listing nodes_of_type M 1) 0 = Some ([2; 3], 7) /\ nth_error (e_rows d) 0 = Some [1; 2] /\ nth_error nodes 1 = Some y /\ x <> y) /\
  nth_error (listing nodes_of_type M 1) 1 = Some ([3; 4], 7) /\ nth_error (e_rows d) 1 = Some [2; 3] /\ nth_error nodes 3 = None.
Proof.
  exists (two_lines [2; 3; 4]). eexists. eexists. eexists. split; [intros dim tag entity _ _; exists 1, 2, [2; 3; 3; 4]; cbn; auto |].
  split; [repeat constructor; cbn; intuition congruence |]. split; [repeat constructor; cbn; lia |]. split; [reflexivity |]. split; [left; reflexivity |].
  split; [| repeat split; reflexivity].
  exists [0%R; 0%R; 0%R], [1%R; 0%R; 0%R]. split; [cbn; auto |]. split; [reflexivity |]. split; [reflexivity |]. split; [reflexivity |].
  intros E. injection E as E. apply R1_neq_R0. symmetry. exact E.
Qed.
(** False: an element of an entity in two groups is there twice *)
Theorem C80_twice_refuted : exists M nodes d, meshed nodes_of_type M /\ NoDup (m_groups M) /\ (forall dim tag, NoDup (m_entities M dim tag)) /\
  msh_gmsh_model M = Ok (nodes, [(1, d)]) /\ e_rows d = [[0; 1]; [0; 1]] /\ e_tags d = [7; 8].
Proof.
  exists (GModel [(1, [0%R; 0%R; 0%R]); (2, [1%R; 0%R; 0%R])] [(1, 7); (1, 8)] (fun _ _ => [1]) (fun _ _ => [(1, (1, [1; 2]))])).
  eexists. eexists. split; [intros dim tag entity _ _; exists 1, 1, [1; 2]; cbn; auto |].
  split; [repeat constructor; cbn; intuition congruence |]. split; [intros; repeat constructor; cbn; intuition congruence |]. split; [reflexivity |]. split; reflexivity.
Qed.

Print Assumptions C80_elements.
Print Assumptions C80_listed.
Print Assumptions C80_coordinates.
Print Assumptions C80_mesh_partial.
Print Assumptions C80_raises.
Print Assumptions C80_gaps_refuted.
Print Assumptions C80_twice_refuted.
