(** Meshes made of branches (property C44). *)
From Verif Require Import LineModel LineProofs GeomProofs BaseProofs.
From Coq Require Import Psatz.
Local Open Scope R_scope.

(** ** C44 *)
(** Every branch with an inner point is in the mesh, segment by segment, and
    the mesh has no other cells *)
Theorem C44_partial : forall (tol : R) (branches : list (list (list R))), 0 <= tol -> branches <> [] -> Forall (fun b => 3 <= length b)%nat branches ->
  exists m, line_mesh branches tol = Ok m /\ represents tol m branches /\ length (l_cells m) = list_sum (map (fun b => length b - 1)%nat branches).
Proof.
  intros tol branches T NE F. destruct (line_mesh_spec tol branches T NE) as [m [E P]]; [eapply Forall_impl; [|exact F]; intros b L ->; cbn in L; lia|]. exists m.
  assert (FL : filter long branches = branches). { clear - F. induction F as [|b bs L F IH]; [reflexivity|]. cbn [filter]. unfold long at 1. destruct (Nat.leb_spec 3 (length b)); [rewrite IH; reflexivity|lia]. }
  rewrite FL in P. split; [exact E|]. split; [exact P|]. exact (represents_count _ _ _ P).
Qed.
Print Assumptions C44_partial.
(** In general the branches with at most two points add no cell *)
Theorem C44_skipped : forall (tol : R) (branches : list (list (list R))), 0 <= tol -> branches <> [] -> Forall (fun b => b <> []) branches ->
  exists m, line_mesh branches tol = Ok m /\ represents tol m (filter (fun b => 3 <=? length b)%nat branches).
Proof. intros tol branches T NE F. exact (line_mesh_spec tol branches T NE F). Qed.
Print Assumptions C44_skipped.
Theorem C44_segment_refuted : forall (p q : list R) (tol : R), line_mesh [[p; q]] tol = Ok {| l_x := [p; q]; l_cells := [] |}.
Proof. reflexivity. Qed.
Print Assumptions C44_segment_refuted.
Theorem C44_raises : forall (tol : R) (before after : list (list (list R))), 0 <= tol -> Forall (fun b => b <> []) before ->
  line_mesh [] tol = Err StopIteration /\ line_mesh (before ++ [] :: after) tol = Err IndexError.
Proof.
  intros tol before after T F. split; [reflexivity|]. destruct F as [|b bs NB F]; [reflexivity|]. unfold line_mesh. cbn [app]. rewrite (endpoints_ok b NB). cbn [bind fst snd].
  assert (G : forall nodes, nodes <> [] -> bounds tol nodes (bs ++ [] :: after) = Err IndexError).
  { clear - T F. induction F as [|b bs NB F IH]; intros nodes NE; [reflexivity|]. cbn [app bounds]. rewrite (endpoints_ok b NB). cbn [bind fst snd]. destruct (place_spec tol nodes (nth 0 b []) T NE) as [f [n1 [-> [_ [NE1 _]]]]]. cbn [bind fst snd]. destruct (place_spec tol n1 (nth (length b - 1) b []) T NE1) as [l [n2 [-> [_ [NE2 _]]]]]. cbn [bind fst snd]. rewrite (IH n2 NE2). reflexivity. }
  rewrite G by discriminate. reflexivity.
Qed.
Print Assumptions C44_raises.
(** End points of branches are one vertex exactly if they are one point, when
    different ones are more than [tol] apart and the first branch is not closed *)
Theorem C44_junctions : forall (tol : R) (branches : list (list (list R))), 0 <= tol -> branches <> [] -> Forall (fun b => b <> []) branches -> apart tol branches ->
  nth 0 (nth 0 branches []) [] <> nth (length (nth 0 branches []) - 1) (nth 0 branches []) [] ->
  exists m idxs, line_mesh branches tol = Ok m /\ Forall2 (follows tol (l_x m)) (filter (fun b => 3 <=? length b)%nat branches) idxs /\ l_cells m = flat_map consecutive idxs /\
  let ends := flat_map end_vertices (combine (filter (fun b => 3 <=? length b)%nat branches) idxs) in
  (forall v, In v ends -> nth (snd v) (l_x m) [] = fst v) /\ (forall v w, In v ends -> In w ends -> (fst v = fst w <-> snd v = snd w)).
Proof. exact junctions. Qed.
Print Assumptions C44_junctions.
(** A loop as the first branch is not closed in the mesh *)
Theorem C44_loop_refuted : forall (p q r : list R) (tol : R), line_mesh [[p; q; r; p]] tol = Ok {| l_x := [p; p; q; r]; l_cells := [(0, 2); (2, 3); (3, 1)]%nat |}.
Proof. reflexivity. Qed.
Print Assumptions C44_loop_refuted.
(** n cells for every n from 2; the vertices divide the segment evenly *)
Theorem C44_straight_partial : forall (A B : list R) (n : nat), (2 <= n)%nat -> length A = length B -> exists m idx, straight_line_mesh A B n = Ok m /\
  length (l_cells m) = n /\ length idx = S n /\ l_cells m = consecutive idx /\
  forall j, (j <= n)%nat -> (nth j idx 0 < length (l_x m))%nat /\ length (nth (nth j idx 0%nat) (l_x m) []) = length A /\
    forall i, nth i (nth (nth j idx 0%nat) (l_x m) []) 0 = nth i A 0 + INR j / INR n * (nth i B 0 - nth i A 0).
Proof.
  intros A B n N L. unfold straight_line_mesh. rewrite (line_mesh_one_tol _ _ 0). pose proof (line_length A B (S n)) as LL. destruct (line_mesh_places 0 [line A B (S n)] (Rle_refl 0) ltac:(discriminate)) as [bs [nodes [idxs [m [more [Hb [E [P [C [NR X]]]]]]]]]]; [constructor; [destruct (line A B (S n)); [discriminate LL|discriminate]|constructor]|]. exists m. cbn [nth tl bounds] in Hb. injection Hb as <- <-. cbn [combine filter snd] in P. unfold long in P. rewrite LL in P. destruct (Nat.leb_spec 3 (S n)) as [_|]; [|lia]. inversion P as [|bb idx bbs idxs' P1 P2]; subst. inversion P2; subst. destruct P1 as [[IL [D I]] [H0 H1]]. cbn [fst snd] in *. rewrite LL in *. exists idx. cbn [flat_map] in C. rewrite app_nil_r in C. split; [exact E|]. split; [rewrite C; unfold consecutive; rewrite map_length, seq_length; lia|]. split; [exact IL|]. split; [exact C|].
  assert (EQ : forall j, (j <= n)%nat -> nth (nth j idx 0%nat) (l_x m) [] = nth j (line A B (S n)) []).
  { intros j J. destruct (Nat.eq_dec j 0) as [-> |J0]; [rewrite H0, X; reflexivity|]. destruct (Nat.eq_dec j n) as [-> |JN]; [|apply I; lia]. replace (S n - 1)%nat with n in * by lia. rewrite H1, X. reflexivity. }
  intros j J. split; [apply D; lia|]. rewrite (EQ j J), line_nth by lia. split; [apply on_line_length, L|]. intros i. apply on_line, L.
Qed.
Print Assumptions C44_straight_partial.
Theorem C44_straight_refuted : forall A B : list R, exists m, straight_line_mesh A B 1 = Ok m /\ l_cells m = [].
Proof. intros A B. eexists. split; reflexivity. Qed.
Print Assumptions C44_straight_refuted.

(** Three branches meeting at a point, and one with no inner point *)
Definition star : list (list (list R)) := [[[0; 0]; [1; 0]; [2; 0]]; [[0; 0]; [0; 1]; [0; 2]; [0; 3]]; [[0; 0]; [5; 5]]; [[0; 3]; [1; 3]; [2; 0]]].
Example C44_example : exists m, line_mesh (firstn 2 star) 0 = Ok m /\ represents 0 m (firstn 2 star) /\ length (l_cells m) = 5%nat.
Proof. apply C44_partial; [lra|discriminate|]. repeat constructor; cbn; lia. Qed.
Example C44_junctions_example : Forall (fun b => b <> []) star /\ apart (1 / 2) star /\ nth 0 (nth 0 star []) [] <> nth (length (nth 0 star []) - 1) (nth 0 star []) [].
Proof.
  split; [repeat constructor; discriminate|]. split; [|cbn; intros E; injection E; lra]. intros p q P Q. cbn in P, Q.
  assert (S : forall a, 1 <= a -> 1 / 2 < sqrt a). { intros a H. apply Rlt_le_trans with (sqrt 1); [rewrite sqrt_1; lra|apply sqrt_le_1; lra]. }
  decompose [or] P; decompose [or] Q; subst; try contradiction; first [left; reflexivity|right; unfold dist; apply S; cbn; lra].
Qed.
