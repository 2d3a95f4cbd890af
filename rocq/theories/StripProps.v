(** C137: the strip of the harmonic extension *)
From Coq Require Import Reals Lra Lia.
From Verif Require Import StripModel StripProofs.
Local Open Scope R_scope.

(** For odd nx and a tolerance up to the width of a cell the cells of the auxiliary mesh are exactly the cells of the
    background mesh that meet the curve x = 1/2, and there are two in each row *)
Theorem C137_cells : forall k ny tol, 0 < tol <= / INR (2 * k + 1) ->
  (forall c, In c (aux_cells (2 * k + 1) ny tol) <-> In c (mesh_cells (2 * k + 1) ny) /\ meets_line (2 * k + 1) c (1 / 2)) /\
  length (aux_cells (2 * k + 1) ny tol) = (2 * ny)%nat.
Proof.
  intros k ny tol T. split.
  - intros c. unfold aux_cells. rewrite filter_In, (cell_f_iff k tol T), (meets_iff k tol T). reflexivity.
  - rewrite (aux_cells_eq k ny tol T). unfold strip_cells. induction ny as [|n IH]; [reflexivity|].
    rewrite seq_S, flat_map_app, app_length, IH. simpl. lia.
Qed.
Print Assumptions C137_cells.

(** The facets to which the function is extended are exactly those on the two sides of the strip: the lines at the
    distance of half a cell from the curve *)
Theorem C137_extend : forall k tol f, 0 < tol <= / INR (2 * k + 1) ->
  (extend_f (2 * k + 1) tol f = 1%nat <->
   on_line (2 * k + 1) f (1 / 2 - / 2 / INR (2 * k + 1)) \/ on_line (2 * k + 1) f (1 / 2 + / 2 / INR (2 * k + 1))) /\
  (extend_f (2 * k + 1) tol f <= 1)%nat.
Proof.
  intros k tol f T.
  pose proof (nx_pos k) as P. pose proof (nx_val k) as V.
  replace (1 / 2 - / 2 / INR (2 * k + 1)) with (INR k / INR (2 * k + 1)) by (rewrite V; field; rewrite <- V; lra).
  replace (1 / 2 + / 2 / INR (2 * k + 1)) with (INR (S k) / INR (2 * k + 1)) by (rewrite S_INR, V; field; rewrite <- V; lra).
  rewrite (on_line_iff k tol T), (on_line_iff k tol T), <- (left_iff k tol T), <- (right_iff k tol T). unfold extend_f.
  destruct (tested _ (right _ _) _), (tested _ (left _ _) _); split; intuition; discriminate.
Qed.
Print Assumptions C137_extend.

(** The marks of a facet of the auxiliary mesh: 2 on the two sides of the strip, 1 on its two ends, 0 inside *)
Theorem C137_marks : forall k ny tol f c, 0 < tol <= / INR (2 * k + 1) -> In c (aux_cells (2 * k + 1) ny tol) -> In f (cell_facets c) ->
  (aux_f (2 * k + 1) ny tol f = 2%nat <->
   on_line (2 * k + 1) f (1 / 2 - / 2 / INR (2 * k + 1)) \/ on_line (2 * k + 1) f (1 / 2 + / 2 / INR (2 * k + 1))) /\
  (aux_f (2 * k + 1) ny tol f = 1%nat <-> on_ends ny f) /\ (aux_f (2 * k + 1) ny tol f <= 2)%nat.
Proof.
  intros k ny tol f c T Ic If.
  pose proof (nx_pos k) as P. pose proof (nx_val k) as V.
  replace (1 / 2 - / 2 / INR (2 * k + 1)) with (INR k / INR (2 * k + 1)) by (rewrite V; field; rewrite <- V; lra).
  replace (1 / 2 + / 2 / INR (2 * k + 1)) with (INR (S k) / INR (2 * k + 1)) by (rewrite S_INR, V; field; rewrite <- V; lra).
  rewrite (on_line_iff k tol T), (on_line_iff k tol T).
  pose proof (left_iff k tol T f) as HL. pose proof (right_iff k tol T f) as HR. rewrite <- HL, <- HR.
  assert (CE : aux_count (2 * k + 1) ny tol f = expected k ny f).
  { unfold aux_count. rewrite (aux_cells_eq k ny tol T). apply count_strip. }
  unfold aux_f. rewrite CE.
  unfold aux_cells in Ic. apply filter_In in Ic. destruct Ic as [Im Ic]. apply (cell_f_iff k tol T) in Ic. apply in_mesh in Im.
  assert (E : (exists j, f = Ver k j \/ f = Ver (S k) j) \/ (exists j, f = Hor k j /\ (j <= ny)%nat) \/ (exists j, f = Dia k j /\ (j < ny)%nat)).
  { destruct c as [i j|i j]; simpl in Ic, Im; subst i; simpl in If; destruct If as [<-|[<-|[<-|[]]]]; first
    [ left; eexists; left; reflexivity | left; eexists; right; reflexivity
    | right; left; eexists; split; [reflexivity|lia] | right; right; eexists; split; [reflexivity|lia] ]. }
  destruct E as [(j & [E|E])|[(j & E & J)|(j & E & J)]]; subst f.
  - rewrite (proj2 HL) by eauto. destruct (tested _ (right _ _) _); (split; [tauto|split; [|lia]]);
    (split; [discriminate|]); intros [H|H]; simpl in H;
      pose proof (H _ (or_introl eq_refl)); pose proof (H _ (or_intror (or_introl eq_refl))); simpl in *; lia.
  - rewrite (proj2 HR) by eauto. (split; [tauto|split; [|lia]]);
    (split; [discriminate|]); intros [H|H]; simpl in H;
      pose proof (H _ (or_introl eq_refl)); pose proof (H _ (or_intror (or_introl eq_refl))); simpl in *; lia.
  - destruct (tested _ (right _ _) _); [destruct (proj1 HR eq_refl); discriminate|].
    destruct (tested _ (left _ _) _); [destruct (proj1 HL eq_refl); discriminate|].
    assert (N : (0 < ny)%nat) by (destruct Im; lia).
    cbn [expected]. rewrite Nat.eqb_refl. unfold on_ends. cbn [facet_vertices In].
    assert (G : ((j = 0 \/ j = ny) <-> (forall v, (k, j) = v \/ (S k, j) = v \/ False -> snd v = 0) \/ (forall v, (k, j) = v \/ (S k, j) = v \/ False -> snd v = ny))%nat).
    { split.
      - intros [->| ->]; [left|right]; intros v [<-|[<-|[]]]; reflexivity.
      - intros [H|H]; [left|right]; apply (H (k, j)); auto. }
    rewrite <- G. clear G.
    destruct (Nat.ltb_spec j ny), (Nat.leb_spec 1 j), (Nat.leb_spec j ny); simpl; (split; [split; [discriminate|intuition discriminate]|]);
      (split; [|lia]); split; intros; try lia; try discriminate; try reflexivity.
  - destruct (tested _ (right _ _) _); [destruct (proj1 HR eq_refl); discriminate|].
    destruct (tested _ (left _ _) _); [destruct (proj1 HL eq_refl); discriminate|].
    cbn [expected]. rewrite Nat.eqb_refl. rewrite (proj2 (Nat.ltb_lt j ny) J). simpl.
    split; [split; [discriminate|intuition discriminate]|split; [|lia]]. split; [discriminate|].
    intros [H|H]; pose proof (H _ (or_introl eq_refl)); pose proof (H _ (or_intror (or_introl eq_refl))); simpl in *; lia.
Qed.
Print Assumptions C137_marks.

(** Why the number of columns is odd: for an even one no cell is marked and the auxiliary mesh is empty *)
Theorem C137_even : forall k ny tol, 0 < tol <= / INR (2 * (2 * k)) -> aux_cells (2 * k) ny tol = [].
Proof.
  intros k ny tol T. destruct (Nat.eq_dec k 0) as [->|K]; [reflexivity|].
  assert (P : 0 < INR k) by (apply lt_0_INR; lia).
  assert (V : INR (2 * k) = 2 * INR k) by (rewrite mult_INR; simpl; lra).
  assert (W : / INR (2 * (2 * k)) = / 2 / INR (2 * k)) by (rewrite !mult_INR; simpl; field; lra).
  assert (Q : 0 < / INR (2 * k)) by (apply Rinv_0_lt_compat; lra).
  unfold aux_cells. induction (mesh_cells (2 * k) ny) as [|c l IH]; [reflexivity|]. cbn [filter].
  destruct (cell_f (2 * k) tol c) eqn:E; [exfalso|exact IH]. clear IH.
  unfold cell_f, tested in E. apply andb_prop in E. destruct E as [E _]. rewrite forallb_forall in E.
  assert (H1 : between (2 * k) tol (coord (2 * k) (column c, match c with Lower _ j | Upper _ j => j end)) = true) by (apply E, in_map; destruct c; simpl; auto).
  assert (H2 : between (2 * k) tol (coord (2 * k) (S (column c), S match c with Lower _ j | Upper _ j => j end)) = true) by (apply E, in_map; destruct c; simpl; auto).
  assert (B : forall x, between (2 * k) tol x = true -> line_A (2 * k) - tol < x < line_B (2 * k) + tol).
  { intros x. unfold between. destruct (Rlt_dec (line_A (2 * k) - tol) x); [destruct (Rlt_dec x (line_B (2 * k) + tol))|]; intros; try easy; lra. }
  apply B in H1. apply B in H2. unfold coord in H1, H2. cbn [fst] in H1, H2. rewrite S_INR in H2. set (i := column c) in *.
  assert (LA : line_A (2 * k) = INR k / INR (2 * k) - / 2 / INR (2 * k)) by (unfold line_A; rewrite V; field; lra).
  assert (LB : line_B (2 * k) = INR k / INR (2 * k) + / 2 / INR (2 * k)) by (unfold line_B; rewrite V; field; lra).
  assert (LO : (INR k - 1) * / INR (2 * k) < INR i * / INR (2 * k)).
  { unfold Rdiv in *. lra. }
  assert (HI : (INR i + 1) * / INR (2 * k) < (INR k + 1) * / INR (2 * k)).
  { unfold Rdiv in *. lra. }
  apply Rmult_lt_reg_r in LO; [|exact Q]. apply Rmult_lt_reg_r in HI; [|exact Q].
  assert (INR i < INR k) as L1 by lra. apply INR_lt in L1.
  assert (INR k < INR (S i)) as L2 by (rewrite S_INR; lra). apply INR_lt in L2. lia.
Qed.
Print Assumptions C137_even.

(** The script builds the mesh *)
Definition strip_built : Prop := forall nx, (0 < nx)%Z -> Z.odd nx = true -> exists m, script_mesh nx = Ok m.
(** The division gives a float and the mesh does not take it, so no number of cells gets past the construction *)
Theorem C137_built_refuted : ~ strip_built /\ forall nx, script_mesh nx = Err TypeError.
Proof.
  split; [|reflexivity]. intros H. destruct (H 31%Z eq_refl eq_refl) as (m & E). discriminate E.
Qed.
Print Assumptions C137_built_refuted.

(** The script's numbers: 31 columns, the tolerance of dolfin, and 16 rows as intended *)
Example C137_ex : 0 < 3 / 10 ^ 16 <= / INR (2 * 15 + 1) /\ In (Lower 15 3) (aux_cells 31 16 (3 / 10 ^ 16)) /\
  ~ In (Lower 14 3) (aux_cells 31 16 (3 / 10 ^ 16)).
Proof.
  assert (T : 0 < 3 / 10 ^ 16 <= / INR (2 * 15 + 1)).
  { replace (INR (2 * 15 + 1)) with 31 by (simpl; lra). split; [|apply Rmult_le_reg_r with 31; [lra|]]; simpl; lra. }
  split; [exact T|]. change 31%nat with (2 * 15 + 1)%nat. unfold aux_cells. split.
  - apply filter_In. split; [apply (in_mesh 15); simpl; lia|]. apply (cell_f_iff 15 _ T). reflexivity.
  - intros H. apply filter_In in H. destruct H as [_ H]. apply (cell_f_iff 15 _ T) in H. discriminate H.
Qed.
