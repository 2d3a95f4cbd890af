(** C48, C49 and C50: circumcenters, points in simplices, segments meeting cells *)
From Verif Require Import GeomModel GeomProofs BaseProofs.
From Coq Require Import Psatz.
Local Open Scope R_scope.

(** ** C48 *)
Lemma dist_eq x p q : sq_dist x p = sq_dist x q -> dist x p = dist x q.
Proof. unfold dist. intros ->. reflexivity. Qed.
(** On every non-degenerate triangle in 2d and 3d and on every non-degenerate tetrahedron
    CellCircumcenter is in the affine hull of the cell, at the same distance to all vertices *)
Theorem C48_circumcenter : forall lu tdim gdim cell, solves_regular lu -> (tdim, gdim) = (2, 2)%nat \/ (tdim, gdim) = (2, 3)%nat \/ (tdim, gdim) = (3, 3)%nat ->
  is_cell (S tdim) gdim cell -> nondegenerate gdim cell ->
  exists x, cell_circumcenter lu tdim gdim cell = Ok x /\ in_hull gdim cell x /\ forall p q, In p cell -> In q cell -> dist x p = dist x q.
Proof.
  intros lu tdim gdim cell LU H IC N. destruct H as [H|[H|H]]; injection H as -> ->; [destruct (circ_2_2_ok lu LU cell IC N) as [x [A [B C]]]|destruct (circ_2_3_ok lu LU cell IC N) as [x [A [B C]]]|destruct (circ_3_3_ok lu LU cell IC N) as [x [A [B C]]]];
    exists x; (split; [exact A|split; [exact B|]]); intros p q P Q; apply dist_eq, C; assumption.
Qed.
Print Assumptions C48_circumcenter.
(** Intervals: the midpoint in 2d, no result otherwise *)
Theorem C48_interval : forall lu cell, is_cell 2 2 cell -> exists x, cell_circumcenter lu 1 2 cell = Ok x /\ in_hull 2 cell x /\ forall p q, In p cell -> In q cell -> dist x p = dist x q.
Proof. intros lu cell IC. destruct (circ_1_2_ok lu cell IC) as [x [A [B C]]]. exists x. split; [exact A|split; [exact B|]]. intros p q P Q. apply dist_eq, C; assumption. Qed.
Print Assumptions C48_interval.
Theorem C48_interval_elsewhere : forall lu cell, cell_circumcenter lu 1 3 cell = Err RuntimeError /\ forall gdim, gdim <> 2%nat -> gdim <> 3%nat -> cell_circumcenter lu 1 gdim cell = Err KeyError.
Proof. intros lu cell. split; [reflexivity|]. intros [|[|[|[|gdim]]]] H2 H3; try reflexivity; contradiction. Qed.
Print Assumptions C48_interval_elsewhere.
Theorem C48_interval_elsewhere_refuted : ~ forall lu gdim cell, solves_regular lu -> is_cell 2 gdim cell -> nondegenerate gdim cell -> exists x, cell_circumcenter lu 1 gdim cell = Ok x.
Proof.
  intros H. destruct (H cramer 3%nat [[0; 0; 0]; [1; 0; 0]] cramer_regular) as [x E]; [|intros w L T W|discriminate E].
  - split; [reflexivity|]. fall reflexivity.
  - destruct w as [|a [|b [|]]]; try discriminate L. specialize (W 0%nat ltac:(lia)). cbn in W, T. fall ltac:(lra).
Qed.
Print Assumptions C48_interval_elsewhere_refuted.
Lemma det_nondegenerate_2 ax ay bx by_ cx cy : (bx - ax) * (cy - ay) - (by_ - ay) * (cx - ax) <> 0 -> nondegenerate 2 [[ax; ay]; [bx; by_]; [cx; cy]].
Proof.
  intros D w L T W. destruct w as [|p [|q [|r [|]]]]; try discriminate L. pose proof (W 0%nat ltac:(lia)) as W0. pose proof (W 1%nat ltac:(lia)) as W1. cbn in T, W0, W1. assert (P : p = - q - r) by lra. subst p.
  assert (Q : q = 0). { apply (Rmult_eq_reg_r ((bx - ax) * (cy - ay) - (by_ - ay) * (cx - ax))); [|exact D]. rewrite Rmult_0_l. transitivity ((cy - ay) * ((- q - r) * ax + (q * bx + (r * cx + 0))) - (cx - ax) * ((- q - r) * ay + (q * by_ + (r * cy + 0)))); [ring|rewrite W0, W1; ring]. }
  assert (Z : r = 0). { apply (Rmult_eq_reg_r ((bx - ax) * (cy - ay) - (by_ - ay) * (cx - ax))); [|exact D]. rewrite Rmult_0_l. transitivity ((bx - ax) * ((- q - r) * ay + (q * by_ + (r * cy + 0))) - (by_ - ay) * ((- q - r) * ax + (q * bx + (r * cx + 0)))); [ring|rewrite W0, W1; ring]. }
  fall ltac:(lra).
Qed.
(** A triangle with an obtuse angle: its circumcenter is the expected point outside *)
Example C48_obtuse : is_cell 3 2 [[0; 0]; [4; 0]; [2; 1]] /\ nondegenerate 2 [[0; 0]; [4; 0]; [2; 1]] /\ cell_circumcenter cramer 2 2 [[0; 0]; [4; 0]; [2; 1]] = Ok [2; - (3 / 2)].
Proof.
  split; [split; [reflexivity|fall reflexivity]|]. split; [apply det_nondegenerate_2; lra|]. cbn. unfold at_. cbn. do 2 f_equal; [|f_equal]; field.
Qed.

(** ** C49 *)
Lemma exact_decides gdim x cell : exact_at gdim x cell ->
  (in_simplex gdim cell x -> forall tol, 0 < tol -> point_is_inside x cell tol = Ok true) /\
  (~ in_simplex gdim cell x -> exists eps, 0 < eps /\ forall tol, tol <= eps -> point_is_inside x cell tol = Ok false).
Proof.
  intros [d [E [P H]]]. unfold point_is_inside. rewrite E. cbn [bind]. split.
  - intros I tol T. apply H in I. destruct (Rlt_dec d tol); [reflexivity|lra].
  - intros NI. exists d. assert (d <> 0) by tauto. split; [lra|]. intros tol T. destruct (Rlt_dec d tol); [lra|reflexivity].
Qed.
(** Cells as the code meets them: intervals in any space, triangles in 2d and 3d, tetrahedra *)
Definition good_cell (gdim : nat) (cell : list (list R)) : Prop :=
  is_cell 2 gdim cell \/ (is_cell 3 gdim cell /\ (gdim = 2 \/ gdim = 3)%nat /\ nondegenerate gdim cell) \/ (is_cell 4 gdim cell /\ gdim = 3%nat /\ nondegenerate gdim cell).
Lemma good_exact gdim cell x : good_cell gdim cell -> length x = gdim -> exact_at gdim x cell.
Proof.
  intros G L. destruct G as [[LN F]|[[IC [[-> | ->] N]]|[IC [-> N]]]].
  - destruct cell as [|A [|B [|]]]; try discriminate LN. apply Forall_cons_iff in F. destruct F as [FA F]. apply Forall_cons_iff in F. destruct F as [FB _]. apply exact_segment; assumption.
  - apply exact_2_2; assumption.
  - apply exact_2_3; assumption.
  - apply exact_3_3; assumption.
Qed.
(** A point of the cell passes for every tolerance, any other point fails for all small
    ones: the test number is exact, the tolerance is not. *)
Theorem C49_partial : forall gdim cell x, good_cell gdim cell -> length x = gdim ->
  (in_simplex gdim cell x -> forall tol, 0 < tol -> point_is_inside x cell tol = Ok true) /\
  (~ in_simplex gdim cell x -> exists eps, 0 < eps /\ forall tol, tol <= eps -> point_is_inside x cell tol = Ok false).
Proof.
  intros gdim cell x G L. apply exact_decides, good_exact; assumption.
Qed.
Print Assumptions C49_partial.
(** Many points: all pass if each is in its cell *)
Theorem C49_many : forall gdim pairs tol, 0 < tol -> (forall x c, In (x, c) pairs -> good_cell gdim c /\ in_simplex gdim c x) -> points_are_inside (map fst pairs) (map snd pairs) tol = Ok true.
Proof.
  intros gdim pairs tol T. induction pairs as [|[x c] pairs IH]; intros H; [reflexivity|]. cbn. destruct (H x c (or_introl eq_refl)) as [G I]. rewrite (proj1 (C49_partial gdim c x G (proj1 I)) I tol T). cbn. apply IH. intros y d Y. apply H. right. exact Y.
Qed.
Print Assumptions C49_many.
Lemma outside_unit t : t < 0 -> ~ in_simplex 1 [[0]; [1]] [t].
Proof.
  intros T [_ [w [L [W [P H]]]]]. destruct w as [|a [|b [|]]]; try discriminate L. specialize (H 0%nat ltac:(lia)). cbn in H. apply Forall_cons_iff in P. destruct P as [_ P]. apply Forall_cons_iff in P. destruct P as [P _]. lra.
Qed.
(** No tolerance makes the test exact: with 0 or less nothing is inside, with more than 0
    some points outside are. *)
Theorem C49_refuted : forall tol, ~ forall cell x, is_cell 2 1 cell -> nondegenerate 1 cell -> length x = 1%nat -> (point_is_inside x cell tol = Ok true <-> in_simplex 1 cell x).
Proof.
  intros tol H. assert (IC : is_cell 2 1 [[0]; [1]]) by (split; [reflexivity|fall reflexivity]). assert (ND : nondegenerate 1 [[0]; [1]]). { intros w L T W. destruct w as [|a [|b [|]]]; try discriminate L. specialize (W 0%nat ltac:(lia)). cbn in W, T. fall ltac:(lra). }
  destruct (Rle_lt_dec tol 0) as [T|T].
  - assert (I0 : in_simplex 1 [[0]; [1]] [0]). { split; [reflexivity|]. exists [1; 0]. split; [reflexivity|]. cbn. split; [lra|]. split; [fall ltac:(lra)|]. intros [|i] Hi; [cbn; lra|lia]. }
    apply (H [[0]; [1]] [0] IC ND eq_refl) in I0. destruct (exact_segment 1 [0] [1] [0] eq_refl eq_refl eq_refl) as [d [E [P _]]]. unfold point_is_inside in I0. rewrite E in I0. cbn [bind] in I0. destruct (Rlt_dec d tol); [lra|discriminate].
  - assert (I0 : point_is_inside [- tol / 4] [[0]; [1]] tol = Ok true).
    { unfold point_is_inside, area_diff, rnorm. cbn [simplex_area bind simplices map length seq combos Nat.sub app nth mapM lsum fold_right rsub rdot]. unfold rnorm. cbn [rsub rdot nth].
      replace ((1 - 0) * (1 - 0) + 0) with (1 * 1) by ring. replace ((0 - - tol / 4) * (0 - - tol / 4) + 0) with ((tol / 4) * (tol / 4)) by field. replace ((1 - - tol / 4) * (1 - - tol / 4) + 0) with ((1 + tol / 4) * (1 + tol / 4)) by field. rewrite !sqrt_square by lra.
      rewrite Rabs_left by lra. destruct (Rlt_dec _ tol); [reflexivity|lra]. }
    apply (H [[0]; [1]] [- tol / 4] IC ND eq_refl) in I0. apply (outside_unit (- tol / 4)); [lra|exact I0].
Qed.
Print Assumptions C49_refuted.
(** The hypothesis that triangles are not flat is needed: for flat ones every point of their
    line passes, however small the tolerance. *)
Theorem C49_flat_refuted : ~ forall cell x, is_cell 3 2 cell -> length x = 2%nat -> (forall tol, 0 < tol -> point_is_inside x cell tol = Ok true) -> in_simplex 2 cell x.
Proof.
  intros H. assert (I : in_simplex 2 [[0; 0]; [1; 0]; [2; 0]] [5; 0]).
  { apply H; [split; [reflexivity|fall reflexivity]|reflexivity|]. intros tol T. unfold point_is_inside, area_diff, simplices. cbn [length seq Nat.sub combos map app mapM bind simplex_area Nat.eqb nth]. cbn. unfold at_. cbn.
    match goal with |- context [Rlt_dec ?d tol] => replace d with 0 end; [destruct (Rlt_dec 0 tol); [reflexivity|lra]|].
    symmetry. match goal with |- Rabs (?a - (?b + (?c + (?d + 0)))) = 0 => replace a with 0; [replace b with 0; [replace c with 0; [replace d with 0|]|]|] end.
    1: replace (0 - (0 + (0 + (0 + 0)))) with 0 by ring; apply Rabs_R0.
    all: rewrite <- Rabs_R0 at 1; f_equal; field. }
  destruct I as [_ [w [L [W [P I]]]]]. destruct w as [|a [|b [|c [|]]]]; try discriminate L. pose proof (I 0%nat ltac:(lia)) as I0. cbn in I0, W. apply Forall3 in P. lra.
Qed.
Print Assumptions C49_flat_refuted.
(** The areas are the measures of the cells: the square root of the Gram determinant of the
    edges at the first vertex over 1, 2, 6, the factorial of their number *)
Definition inner (p q r s : list R) : R := total (map (fun i => (nth i q 0 - nth i p 0) * (nth i s 0 - nth i r 0)) (seq 0 (length p))).
Definition gram (cell : list (list R)) : R :=
  match cell with
  | [A; B] => inner A B A B
  | [A; B; C] => inner A B A B * inner A C A C - inner A B A C * inner A B A C
  | [A; B; C; D] => inner A B A B * (inner A C A C * inner A D A D - inner A C A D * inner A C A D) - inner A B A C * (inner A B A C * inner A D A D - inner A C A D * inner A B A D) + inner A B A D * (inner A B A C * inner A C A D - inner A C A C * inner A B A D)
  | _ => 0
  end.
Theorem C49_measure : forall gdim cell, (exists n, is_cell n gdim cell /\ (n = 2 \/ n = 3 /\ (gdim = 2 \/ gdim = 3) \/ n = 4 /\ gdim = 3)%nat) -> simplex_area cell = Ok (sqrt (gram cell) / INR (fact (length cell - 1))).
Proof.
  intros gdim cell [n [IC [-> |[[-> [-> | ->]]|[-> ->]]]]].
  - destruct IC as [LN F]. destruct cell as [|A [|B [|]]]; try discriminate LN. apply Forall_cons_iff in F. destruct F as [FA F]. apply Forall_cons_iff in F. destruct F as [FB _]. cbn [simplex_area length Nat.sub fact Nat.mul Nat.add INR gram]. unfold rnorm. f_equal. unfold Rdiv. rewrite Rinv_1, Rmult_1_r. f_equal. unfold inner. rewrite FA.
    assert (G : forall k, (k <= gdim)%nat -> rdot (rsub (skipn (gdim - k) B) (skipn (gdim - k) A)) (rsub (skipn (gdim - k) B) (skipn (gdim - k) A)) = total (map (fun i => (nth i B 0 - nth i A 0) * (nth i B 0 - nth i A 0)) (seq (gdim - k) k))).
    { induction k as [|k IH]; intros K; [rewrite !skipn_all2 by lia; reflexivity|]. specialize (IH ltac:(lia)). cbn [seq map total]. replace (S (gdim - S k)) with (gdim - k)%nat by lia. rewrite <- IH.
      assert (SK : forall l : list R, length l = gdim -> skipn (gdim - S k) l = nth (gdim - S k) l 0 :: skipn (gdim - k) l).
      { intros l L. replace (gdim - k)%nat with (S (gdim - S k)) by lia. assert (H : (gdim - S k < length l)%nat) by lia. revert H. generalize (gdim - S k)%nat. clear. induction l as [|a l IHl]; intros [|j] H; cbn in *; try lia; [reflexivity|]. apply IHl. lia. }
      rewrite (SK A FA), (SK B FB). cbn [rsub rdot]. reflexivity. }
    specialize (G gdim (le_n _)). rewrite Nat.sub_diag in G. cbn [skipn] in G. exact G.
  - apply cell_3_2 in IC. destruct IC as [ax [ay [bx [by_ [cx [cy ->]]]]]]. cbn [simplex_area length Nat.eqb]. f_equal. unfold Rdiv. rewrite Rabs_mult, <- sqrt_Rsqr_abs. f_equal; [f_equal; unfold Rsqr, inner, at_; cbn; unfold at_; cbn; ring|]. cbn. rewrite Rabs_right; lra.
  - apply cell_3_3 in IC. destruct IC as [ax [ay [az [bx [by_ [bz [cx [cy [cz ->]]]]]]]]]. cbn [simplex_area length Nat.eqb]. f_equal. unfold Rdiv. f_equal. unfold rnorm. f_equal. unfold rcross, inner, at_. cbn. ring.
  - apply cell_4_3 in IC. destruct IC as [ax [ay [az [bx [by_ [bz [cx [cy [cz [dx [dy [dz ->]]]]]]]]]]]]. cbn [simplex_area length Nat.eqb map app]. f_equal. rewrite det4_ones. unfold Rdiv. rewrite Rabs_mult, Rabs_Ropp, <- sqrt_Rsqr_abs. f_equal; [f_equal; unfold Rsqr, inner, det4e; cbn; ring|]. cbn. rewrite Rabs_right; lra.
Qed.
Print Assumptions C49_measure.
Example C49_cases : good_cell 2 [[0; 0]; [4; 0]; [2; 1]] /\ in_simplex 2 [[0; 0]; [4; 0]; [2; 1]] [2; 1 / 3] /\ ~ in_simplex 2 [[0; 0]; [4; 0]; [2; 1]] [2; 2].
Proof.
  split; [right; left; split; [split; [reflexivity|fall reflexivity]|split; [auto|apply det_nondegenerate_2; lra]]|]. split.
  - split; [reflexivity|]. exists [1 / 3; 1 / 3; 1 / 3]. split; [reflexivity|]. cbn. split; [lra|]. split; [fall ltac:(lra)|]. intros [|[|i]] Hi; [| |lia]; cbn; lra.
  - intros [_ [w [L [W [P H]]]]]. destruct w as [|a [|b [|c [|]]]]; try discriminate L. pose proof (H 0%nat ltac:(lia)) as H0. pose proof (H 1%nat ltac:(lia)) as H1. cbn in H0, H1, W. apply Forall3 in P. lra.
Qed.

(** ** C50 *)
Fixpoint minus (p q : list R) : list R := match p, q with a :: p', b :: q' => (a - b) :: minus p' q' | _, _ => [] end.
Definition meets (gdim : nat) (cell : list (list R)) (X Y : list R) : Prop := exists p, in_simplex gdim cell p /\ in_simplex gdim [X; Y] p.
(** The directions of the cell and of the segment are independent *)
Definition transversal (gdim : nat) (cell : list (list R)) (X Y : list R) : Prop :=
  forall w, length w = length cell -> (forall i, (i < gdim)%nat -> weighted w (map (fun p => minus p (hd [] cell)) (tl cell) ++ [minus Y X]) i = 0) -> Forall (fun a => a = 0) w.
Definition right_shape (gdim : nat) (cell : list (list R)) (X Y : list R) : Prop :=
  (gdim = 2%nat /\ is_cell 2 gdim cell \/ gdim = 3%nat /\ is_cell 3 gdim cell) /\ length X = gdim /\ length Y = gdim.

Lemma transversal_det2 ax ay bx by_ x0 x1 y0 y1 : transversal 2 [[ax; ay]; [bx; by_]] [x0; x1] [y0; y1] <-> (bx - ax) * (x1 - y1) - (x0 - y0) * (by_ - ay) <> 0.
Proof.
  split.
  - intros T D. assert (W : forall p q, p * (bx - ax) + q * (y0 - x0) = 0 -> p * (by_ - ay) + q * (y1 - x1) = 0 -> p = 0 /\ q = 0).
    { intros p q H1 H2. assert (F : Forall (fun a => a = 0) [p; q]) by (apply T; [reflexivity|]; intros [|[|i]] Hi; [| |lia]; cbn; lra). apply Forall_cons_iff in F. destruct F as [F1 F]. apply Forall_cons_iff in F. tauto. }
    destruct (W (y0 - x0) (- (bx - ax))) as [A1 A2]; [ring|rewrite <- D; ring|]. destruct (W (y1 - x1) (- (by_ - ay))) as [B1 B2]; [transitivity (- ((bx - ax) * (x1 - y1) - (x0 - y0) * (by_ - ay))); [ring|rewrite D; ring]|ring|]. destruct (W 1 0) as [C _]; lra.
  - intros D w L H. destruct w as [|p [|q [|]]]; try discriminate L. pose proof (H 0%nat ltac:(lia)) as H0. pose proof (H 1%nat ltac:(lia)) as H1. cbn in H0, H1.
    assert (P : p = 0). { apply (Rmult_eq_reg_r ((bx - ax) * (x1 - y1) - (x0 - y0) * (by_ - ay))); [|exact D]. rewrite Rmult_0_l. transitivity ((x1 - y1) * (p * (bx - ax) + (q * (y0 - x0) + 0)) - (x0 - y0) * (p * (by_ - ay) + (q * (y1 - x1) + 0))); [ring|rewrite H0, H1; ring]. }
    assert (Q : q = 0). { apply (Rmult_eq_reg_r ((bx - ax) * (x1 - y1) - (x0 - y0) * (by_ - ay))); [|exact D]. rewrite Rmult_0_l. transitivity (- (bx - ax) * (p * (by_ - ay) + (q * (y1 - x1) + 0)) + (by_ - ay) * (p * (bx - ax) + (q * (y0 - x0) + 0))); [ring|rewrite H0, H1; ring]. }
    fall assumption.
Qed.
Lemma transversal_det3 ax ay az bx by_ bz cx cy cz x0 x1 x2 y0 y1 y2 : transversal 3 [[ax; ay; az]; [bx; by_; bz]; [cx; cy; cz]] [x0; x1; x2] [y0; y1; y2] <->
  (bx - ax) * ((cy - ay) * (x2 - y2) - (x1 - y1) * (cz - az)) - (cx - ax) * ((by_ - ay) * (x2 - y2) - (x1 - y1) * (bz - az)) + (x0 - y0) * ((by_ - ay) * (cz - az) - (cy - ay) * (bz - az)) <> 0.
Proof.
  set (ux := bx - ax). set (uy := by_ - ay). set (uz := bz - az). set (vx := cx - ax). set (vy := cy - ay). set (vz := cz - az). set (wx := x0 - y0). set (wy := x1 - y1). set (wz := x2 - y2).
  assert (E : forall p q r i, (i < 3)%nat -> weighted [p; q; r] (map (fun p => minus p (hd [] [[ax; ay; az]; [bx; by_; bz]; [cx; cy; cz]])) (tl [[ax; ay; az]; [bx; by_; bz]; [cx; cy; cz]]) ++ [minus [y0; y1; y2] [x0; x1; x2]]) i = match i with O => p * ux + q * vx - r * wx | S O => p * uy + q * vy - r * wy | _ => p * uz + q * vz - r * wz end).
  { intros p q r [|[|[|i]]] Hi; [| | |lia]; cbn; unfold ux, uy, uz, vx, vy, vz, wx, wy, wz; ring. }
  split.
  - intros T D. assert (W : forall p q r, p * ux + q * vx + r * wx = 0 -> p * uy + q * vy + r * wy = 0 -> p * uz + q * vz + r * wz = 0 -> p = 0 /\ q = 0 /\ r = 0).
    { intros p q r H1 H2 H3. assert (F : Forall (fun a => a = 0) [p; q; - r]) by (apply T; [reflexivity|]; intros i Hi; rewrite E by exact Hi; destruct i as [|[|[|i]]]; [| | |lia]; lra). apply Forall3 in F. lra. }
    destruct (W (vy * wz - vz * wy) (wy * uz - wz * uy) (uy * vz - uz * vy)) as [A1 [A2 A3]]; [rewrite <- D; ring|ring|ring|].
    destruct (W (vz * wx - vx * wz) (wz * ux - wx * uz) (uz * vx - ux * vz)) as [B1 [B2 B3]]; [ring|rewrite <- D; ring|ring|].
    destruct (W (vx * wy - vy * wx) (wx * uy - wy * ux) (ux * vy - uy * vx)) as [C1 [C2 C3]]; [ring|ring|rewrite <- D; ring|].
    destruct (W vx (- ux) 0) as [E1 [E2 _]]; [ring|lra|lra|]. destruct (W vy (- uy) 0) as [F1 [F2 _]]; [lra|ring|lra|]. destruct (W vz (- uz) 0) as [G1 [G2 _]]; [lra|lra|ring|]. destruct (W 1 0 0) as [X _]; lra.
  - intros D w L H. destruct w as [|p [|q [|r [|]]]]; try discriminate L. pose proof (H 0%nat ltac:(lia)) as H0. pose proof (H 1%nat ltac:(lia)) as H1. pose proof (H 2%nat ltac:(lia)) as H2. rewrite E in H0, H1, H2 by lia.
    set (DD := ux * (vy * wz - wy * vz) - vx * (uy * wz - wy * uz) + wx * (uy * vz - vy * uz)) in *.
    assert (P : p = 0). { apply (Rmult_eq_reg_r DD); [|exact D]. rewrite Rmult_0_l. transitivity ((vy * wz - vz * wy) * (p * ux + q * vx - r * wx) + (vz * wx - vx * wz) * (p * uy + q * vy - r * wy) + (vx * wy - vy * wx) * (p * uz + q * vz - r * wz)); [unfold DD; ring|rewrite H0, H1, H2; ring]. }
    assert (Q : q = 0). { apply (Rmult_eq_reg_r DD); [|exact D]. rewrite Rmult_0_l. transitivity ((wy * uz - wz * uy) * (p * ux + q * vx - r * wx) + (wz * ux - wx * uz) * (p * uy + q * vy - r * wy) + (wx * uy - wy * ux) * (p * uz + q * vz - r * wz)); [unfold DD; ring|rewrite H0, H1, H2; ring]. }
    assert (Z : r = 0). { apply (Rmult_eq_reg_r DD); [|exact D]. rewrite Rmult_0_l. transitivity (- ((uy * vz - uz * vy) * (p * ux + q * vx - r * wx) + (uz * vx - ux * vz) * (p * uy + q * vy - r * wy) + (ux * vy - uy * vx) * (p * uz + q * vz - r * wz))); [unfold DD; ring|rewrite H0, H1, H2; ring]. }
    fall assumption.
Qed.

(** Parameters of the point where the lines (plane and line) meet *)
Definition decided (solve : list (list R) -> list R -> res (list R)) (gdim : nat) (cell : list (list R)) (X Y : list R) : Prop :=
  (meets gdim cell X Y -> forall tol, 0 < tol -> intersects solve cell (X, Y) tol = Ok true) /\
  (~ meets gdim cell X Y -> exists eps, 0 < eps /\ forall tol, tol <= eps -> intersects solve cell (X, Y) tol = Ok false).
Lemma decided2 solve cell X Y : solves_exactly solve -> is_cell 2 2 cell -> length X = 2%nat -> length Y = 2%nat -> transversal 2 cell X Y -> decided solve 2 cell X Y.
Proof.
  intros SV IC LX LY T. apply cell_2_2 in IC. destruct IC as [ax [ay [bx [by_ ->]]]]. destruct X as [|x0 [|x1 [|]]]; try discriminate LX. destruct Y as [|y0 [|y1 [|]]]; try discriminate LY. apply transversal_det2 in T.
  destruct (solve2 solve SV (bx - ax) (x0 - y0) (by_ - ay) (x1 - y1) (x0 - ax) (x1 - ay)) as [_ S2]. destruct (S2 T) as [s [t [E [E1 E2]]]].
  assert (R : forall tol, intersects solve [[ax; ay]; [bx; by_]] ([x0; x1], [y0; y1]) tol = Ok (within tol s && within tol t)).
  { intros tol. unfold intersects. cbn [bind hd length rsub Nat.eqb columns map seq at_ nth]. unfold columns, at_. cbn [hd length seq map nth]. rewrite E. cbn [forallb length Nat.eqb andb]. rewrite !andb_true_r. reflexivity. }
  assert (M : meets 2 [[ax; ay]; [bx; by_]] [x0; x1] [y0; y1] <-> 0 <= s <= 1 /\ 0 <= t <= 1).
  { split.
    - intros [p [[LP [w [LW [TW [PW HW]]]]] [_ [v [LV [TV [PV HV]]]]]]]. destruct w as [|w0 [|w1 [|]]]; try discriminate LW. destruct v as [|v0 [|v1 [|]]]; try discriminate LV. pose proof (HW 0%nat ltac:(lia)) as HW0. pose proof (HW 1%nat ltac:(lia)) as HW1. rewrite (HV 0%nat ltac:(lia)) in HW0. rewrite (HV 1%nat ltac:(lia)) in HW1. cbn in HW0, HW1, TW, TV.
      apply Forall_cons_iff in PW. destruct PW as [P0 PW]. apply Forall_cons_iff in PW. destruct PW as [P1 _]. apply Forall_cons_iff in PV. destruct PV as [Q0 PV]. apply Forall_cons_iff in PV. destruct PV as [Q1 _]. replace w0 with (1 - w1) in * by lra. replace v0 with (1 - v1) in * by lra.
      set (D := (bx - ax) * (x1 - y1) - (x0 - y0) * (by_ - ay)) in *. assert (F1 : (bx - ax) * w1 + (x0 - y0) * v1 = x0 - ax) by lra. assert (F2 : (by_ - ay) * w1 + (x1 - y1) * v1 = x1 - ay) by lra.
      assert (SW : s = w1). { apply (Rmult_eq_reg_r D); [|exact T]. transitivity ((x1 - y1) * ((bx - ax) * s + (x0 - y0) * t) - (x0 - y0) * ((by_ - ay) * s + (x1 - y1) * t)); [unfold D; ring|]. rewrite E1, E2, <- F1, <- F2. unfold D. ring. }
      assert (TV1 : t = v1). { apply (Rmult_eq_reg_r D); [|exact T]. transitivity ((bx - ax) * ((by_ - ay) * s + (x1 - y1) * t) - (by_ - ay) * ((bx - ax) * s + (x0 - y0) * t)); [unfold D; ring|]. rewrite E1, E2, <- F1, <- F2. unfold D. ring. }
      lra.
    - intros [HS HT]. exists [(1 - s) * ax + s * bx; (1 - s) * ay + s * by_]. split; (split; [reflexivity|]).
      + exists [1 - s; s]. split; [reflexivity|]. cbn. split; [ring|]. split; [fall ltac:(lra)|]. intros [|[|i]] Hi; [| |lia]; cbn; ring.
      + exists [1 - t; t]. split; [reflexivity|]. cbn. split; [ring|]. split; [fall ltac:(lra)|]. intros [|[|i]] Hi; [| |lia]; cbn; lra. }
  split.
  - intros H tol TL. apply M in H. rewrite R. rewrite (proj2 (within_true tol s)), (proj2 (within_true tol t)) by lra. reflexivity.
  - intros H. assert (O : forall u, ~ (0 <= u <= 1) -> exists eps, 0 < eps /\ forall tol, tol <= eps -> within tol u = false).
    { intros u NU. destruct (Rlt_dec u 0) as [L|L]; [exists (- u)|exists (u - 1)]; (split; [lra|]); intros tol TL; (destruct (within tol u) eqn:Q; [apply within_true in Q; lra|reflexivity]). }
    assert (C : ~ (0 <= s <= 1) \/ ~ (0 <= t <= 1)). { destruct (Rle_dec 0 s); destruct (Rle_dec s 1); destruct (Rle_dec 0 t); destruct (Rle_dec t 1); try (left; lra); try (right; lra). exfalso. apply H, M. lra. }
    destruct C as [C|C]; destruct (O _ C) as [eps [EP EW]]; exists eps; (split; [exact EP|]); intros tol TL; rewrite R, (EW tol TL), ?andb_false_r; reflexivity.
Qed.
Lemma decided3 solve cell X Y : solves_exactly solve -> is_cell 3 3 cell -> length X = 3%nat -> length Y = 3%nat -> transversal 3 cell X Y -> decided solve 3 cell X Y.
Proof.
  intros SV IC LX LY T. apply cell_3_3 in IC. destruct IC as [ax [ay [az [bx [by_ [bz [cx [cy [cz ->]]]]]]]]]. destruct X as [|x0 [|x1 [|x2 [|]]]]; try discriminate LX. destruct Y as [|y0 [|y1 [|y2 [|]]]]; try discriminate LY. apply transversal_det3 in T.
  destruct (solve3 solve SV (bx - ax) (cx - ax) (x0 - y0) (by_ - ay) (cy - ay) (x1 - y1) (bz - az) (cz - az) (x2 - y2) (x0 - ax) (x1 - ay) (x2 - az)) as [_ S2]. destruct (S2 T) as [s [r [t [E [E1 [E2 E3]]]]]].
  assert (R : forall tol, intersects solve [[ax; ay; az]; [bx; by_; bz]; [cx; cy; cz]] ([x0; x1; x2], [y0; y1; y2]) tol = Ok (within tol s && (within tol r && within tol t) && within tol (s + r))).
  { intros tol. unfold intersects. cbn [bind hd length rsub Nat.eqb columns map seq at_ nth]. unfold columns, at_. cbn [hd length seq map nth]. rewrite E. cbn [forallb length Nat.eqb andb nth]. rewrite !andb_true_r. reflexivity. }
  assert (M : meets 3 [[ax; ay; az]; [bx; by_; bz]; [cx; cy; cz]] [x0; x1; x2] [y0; y1; y2] <-> 0 <= s <= 1 /\ 0 <= r <= 1 /\ 0 <= t <= 1 /\ 0 <= s + r <= 1).
  { split.
    - intros [p [[LP [w [LW [TW [PW HW]]]]] [_ [v [LV [TV [PV HV]]]]]]]. destruct w as [|w0 [|w1 [|w2 [|]]]]; try discriminate LW. destruct v as [|v0 [|v1 [|]]]; try discriminate LV. pose proof (HW 0%nat ltac:(lia)) as HW0. pose proof (HW 1%nat ltac:(lia)) as HW1. pose proof (HW 2%nat ltac:(lia)) as HW2. rewrite (HV 0%nat ltac:(lia)) in HW0. rewrite (HV 1%nat ltac:(lia)) in HW1. rewrite (HV 2%nat ltac:(lia)) in HW2. cbn in HW0, HW1, HW2, TW, TV.
      apply Forall3 in PW. destruct PW as [P0 [P1 P2]]. apply Forall_cons_iff in PV. destruct PV as [Q0 PV]. apply Forall_cons_iff in PV. destruct PV as [Q1 _]. replace w0 with (1 - w1 - w2) in * by lra. replace v0 with (1 - v1) in * by lra.
      set (ux := bx - ax) in *. set (uy := by_ - ay) in *. set (uz := bz - az) in *. set (vx := cx - ax) in *. set (vy := cy - ay) in *. set (vz := cz - az) in *. set (wx := x0 - y0) in *. set (wy := x1 - y1) in *. set (wz := x2 - y2) in *.
      set (D := ux * (vy * wz - wy * vz) - vx * (uy * wz - wy * uz) + wx * (uy * vz - vy * uz)) in *.
      assert (F1 : ux * w1 + vx * w2 + wx * v1 = x0 - ax) by (unfold ux, vx, wx; lra). assert (F2 : uy * w1 + vy * w2 + wy * v1 = x1 - ay) by (unfold uy, vy, wy; lra). assert (F3 : uz * w1 + vz * w2 + wz * v1 = x2 - az) by (unfold uz, vz, wz; lra).
      assert (SW : s = w1). { apply (Rmult_eq_reg_r D); [|exact T]. transitivity ((vy * wz - vz * wy) * (ux * s + vx * r + wx * t) + (vz * wx - vx * wz) * (uy * s + vy * r + wy * t) + (vx * wy - vy * wx) * (uz * s + vz * r + wz * t)); [unfold D; ring|]. rewrite E1, E2, E3, <- F1, <- F2, <- F3. unfold D. ring. }
      assert (RW : r = w2). { apply (Rmult_eq_reg_r D); [|exact T]. transitivity ((wy * uz - wz * uy) * (ux * s + vx * r + wx * t) + (wz * ux - wx * uz) * (uy * s + vy * r + wy * t) + (wx * uy - wy * ux) * (uz * s + vz * r + wz * t)); [unfold D; ring|]. rewrite E1, E2, E3, <- F1, <- F2, <- F3. unfold D. ring. }
      assert (TV1 : t = v1). { apply (Rmult_eq_reg_r D); [|exact T]. transitivity ((uy * vz - uz * vy) * (ux * s + vx * r + wx * t) + (uz * vx - ux * vz) * (uy * s + vy * r + wy * t) + (ux * vy - uy * vx) * (uz * s + vz * r + wz * t)); [unfold D; ring|]. rewrite E1, E2, E3, <- F1, <- F2, <- F3. unfold D. ring. }
      lra.
    - intros [HS [HR [HT HSR]]]. exists [(1 - s - r) * ax + s * bx + r * cx; (1 - s - r) * ay + s * by_ + r * cy; (1 - s - r) * az + s * bz + r * cz]. split; (split; [reflexivity|]).
      + exists [1 - s - r; s; r]. split; [reflexivity|]. cbn. split; [ring|]. split; [fall ltac:(lra)|]. intros [|[|[|i]]] Hi; [| | |lia]; cbn; ring.
      + exists [1 - t; t]. split; [reflexivity|]. cbn. split; [ring|]. split; [fall ltac:(lra)|]. intros [|[|[|i]]] Hi; [| | |lia]; cbn; lra. }
  split.
  - intros H tol TL. apply M in H. rewrite R. rewrite (proj2 (within_true tol s)), (proj2 (within_true tol r)), (proj2 (within_true tol t)), (proj2 (within_true tol (s + r))) by lra. reflexivity.
  - intros H. assert (O : forall u, ~ (0 <= u <= 1) -> exists eps, 0 < eps /\ forall tol, tol <= eps -> within tol u = false).
    { intros u NU. destruct (Rlt_dec u 0) as [L|L]; [exists (- u)|exists (u - 1)]; (split; [lra|]); intros tol TL; (destruct (within tol u) eqn:Q; [apply within_true in Q; lra|reflexivity]). }
    assert (C : ~ (0 <= s <= 1) \/ ~ (0 <= r <= 1) \/ ~ (0 <= t <= 1) \/ ~ (0 <= s + r <= 1)). { destruct (Rle_dec 0 s); [|left; lra]. destruct (Rle_dec s 1); [|left; lra]. destruct (Rle_dec 0 r); [|right; left; lra]. destruct (Rle_dec r 1); [|right; left; lra]. destruct (Rle_dec 0 t); [|right; right; left; lra]. destruct (Rle_dec t 1); [|right; right; left; lra]. destruct (Rle_dec (s + r) 1); [|right; right; right; lra]. exfalso. apply H, M. lra. }
    destruct C as [C|[C|[C|C]]]; destruct (O _ C) as [eps [EP EW]]; exists eps; (split; [exact EP|]); intros tol TL; rewrite R, (EW tol TL), ?andb_false_r; reflexivity.
Qed.
(** If the directions of cell and segment are independent, a segment that meets the cell
    is found for every tolerance, one that does not is not found for small ones. *)
Theorem C50_partial : forall solve gdim cell X Y, solves_exactly solve -> right_shape gdim cell X Y -> transversal gdim cell X Y -> decided solve gdim cell X Y.
Proof. intros solve gdim cell X Y SV [[[-> IC]|[-> IC]] [LX LY]] T; [apply decided2|apply decided3]; assumption. Qed.
Print Assumptions C50_partial.
(** With the tolerance that is used: found exactly if cell and segment, both made longer by 10^-13 of
    their size, have a point in common *)
Definition near01 (a : R) : Prop := - (1 / 10 ^ 13) < a < 1 + 1 / 10 ^ 13.
Definition nearly_meets (gdim : nat) (cell : list (list R)) (X Y : list R) : Prop :=
  exists w t, S (length w) = length cell /\ near01 t /\ Forall near01 w /\ near01 (fold_right Rplus 0 w) /\
    forall i, (i < gdim)%nat -> nth i (hd [] cell) 0 + weighted w (map (fun p => minus p (hd [] cell)) (tl cell)) i = nth i X 0 + t * (nth i Y 0 - nth i X 0).
Theorem C50_default_tolerance : forall solve gdim cell X Y, solves_exactly solve -> right_shape gdim cell X Y -> transversal gdim cell X Y ->
  exists b, collides_cell solve cell (X, Y) = Ok b /\ (b = true <-> nearly_meets gdim cell X Y).
Proof.
  intros solve gdim cell X Y SV [[[-> IC]|[-> IC]] [LX LY]] T0; pose proof T0 as T; unfold collides_cell.
  - apply cell_2_2 in IC. destruct IC as [ax [ay [bx [by_ ->]]]]. destruct X as [|x0 [|x1 [|]]]; try discriminate LX. destruct Y as [|y0 [|y1 [|]]]; try discriminate LY. apply transversal_det2 in T.
    destruct (solve2 solve SV (bx - ax) (x0 - y0) (by_ - ay) (x1 - y1) (x0 - ax) (x1 - ay)) as [_ S2]. destruct (S2 T) as [s [t [E [E1 E2]]]].
    exists (within (1 / 10 ^ 13) s && within (1 / 10 ^ 13) t). split.
    { unfold intersects. cbn [bind hd length rsub Nat.eqb columns map seq at_ nth]. unfold columns, at_. cbn [hd length seq map nth]. rewrite E. cbn [forallb length Nat.eqb andb]. rewrite !andb_true_r. reflexivity. }
    rewrite andb_true_iff, !within_true. split.
    + intros [Hs Ht]. exists [s], t. unfold near01. cbn [length fold_right]. split; [reflexivity|]. split; [lra|]. split; [fall ltac:(lra)|]. split; [lra|]. intros [|[|i]] Hi; [| |lia]; cbn; lra.
    + intros [w [t' [Lw [Nt [Nw [Ns H]]]]]]. destruct w as [|s' [|]]; try discriminate Lw. pose proof (H 0%nat ltac:(lia)) as H0. pose proof (H 1%nat ltac:(lia)) as H1. cbn in H0, H1.
      assert (F : Forall (fun a => a = 0) [s - s'; - (t - t')]) by (apply T0; [reflexivity|]; intros [|[|i]] Hi; [| |lia]; cbn; lra).
      apply Forall_cons_iff in F. destruct F as [F1 F]. apply Forall_cons_iff in F. destruct F as [F2 _]. apply Forall_cons_iff in Nw. destruct Nw as [Nw _]. unfold near01 in *. replace s with s' by lra. replace t with t' by lra. lra.
  - apply cell_3_3 in IC. destruct IC as [ax [ay [az [bx [by_ [bz [cx [cy [cz ->]]]]]]]]]. destruct X as [|x0 [|x1 [|x2 [|]]]]; try discriminate LX. destruct Y as [|y0 [|y1 [|y2 [|]]]]; try discriminate LY. apply transversal_det3 in T.
    destruct (solve3 solve SV (bx - ax) (cx - ax) (x0 - y0) (by_ - ay) (cy - ay) (x1 - y1) (bz - az) (cz - az) (x2 - y2) (x0 - ax) (x1 - ay) (x2 - az)) as [_ S2]. destruct (S2 T) as [s [r [t [E [E1 [E2 E3]]]]]].
    exists (within (1 / 10 ^ 13) s && (within (1 / 10 ^ 13) r && within (1 / 10 ^ 13) t) && within (1 / 10 ^ 13) (s + r)). split.
    { unfold intersects. cbn [bind hd length rsub Nat.eqb columns map seq at_ nth]. unfold columns, at_. cbn [hd length seq map nth]. rewrite E. cbn [forallb length Nat.eqb andb nth]. rewrite !andb_true_r. reflexivity. }
    rewrite !andb_true_iff, !within_true. split.
    + intros [[Hs [Hr Ht]] Hsr]. exists [s; r], t. unfold near01. cbn [length fold_right]. split; [reflexivity|]. split; [lra|]. split; [fall ltac:(lra)|]. split; [lra|]. intros [|[|[|i]]] Hi; [| | |lia]; cbn; lra.
    + intros [w [t' [Lw [Nt [Nw [Ns H]]]]]]. destruct w as [|s' [|r' [|]]]; try discriminate Lw. pose proof (H 0%nat ltac:(lia)) as H0. pose proof (H 1%nat ltac:(lia)) as H1. pose proof (H 2%nat ltac:(lia)) as H2. cbn in H0, H1, H2, Ns.
      assert (F : Forall (fun a => a = 0) [s - s'; r - r'; - (t - t')]) by (apply T0; [reflexivity|]; intros [|[|[|i]]] Hi; [| | |lia]; cbn; lra).
      apply Forall3 in F. destruct F as [F1 [F2 F3]]. apply Forall_cons_iff in Nw. destruct Nw as [Nw Nr]. apply Forall_cons_iff in Nr. destruct Nr as [Nr _]. unfold near01 in *. replace s with s' by lra. replace r with r' by lra. replace t with t' by lra. lra.
Qed.
Print Assumptions C50_default_tolerance.
(** A segment at the distance 2*10^-13 from the end of the cell is not found, one at half that of the tolerance is *)
Example C50_default_ex : right_shape 2 [[0; 0]; [1; 0]] [1; -1] [1; 1] /\ transversal 2 [[0; 0]; [1; 0]] [1; -1] [1; 1] /\
  nearly_meets 2 [[0; 0]; [1; 0]] [1 + 1 / (2 * 10 ^ 13); -1] [1 + 1 / (2 * 10 ^ 13); 1] /\ ~ nearly_meets 2 [[0; 0]; [1; 0]] [1 + 2 / 10 ^ 13; -1] [1 + 2 / 10 ^ 13; 1].
Proof.
  split; [split; [left; split; [reflexivity|split; [reflexivity|fall reflexivity]]|auto]|]. split; [rewrite transversal_det2; lra|]. split.
  - exists [1 + 1 / (2 * 10 ^ 13)], (1 / 2). unfold near01. cbn [length fold_right]. split; [reflexivity|]. split; [lra|]. split; [fall ltac:(lra)|]. split; [lra|]. intros [|[|i]] Hi; [| |lia]; cbn; lra.
  - intros [w [t [Lw [Nt [Nw [Ns H]]]]]]. destruct w as [|s [|]]; try discriminate Lw. pose proof (H 0%nat ltac:(lia)) as H0. cbn in H0, Ns. unfold near01 in *. lra.
Qed.
(** If they are dependent nothing is ever found. *)
Theorem C50_dependent : forall solve gdim cell X Y tol, solves_exactly solve -> right_shape gdim cell X Y -> ~ transversal gdim cell X Y -> intersects solve cell (X, Y) tol = Ok false.
Proof.
  intros solve gdim cell X Y tol SV [[[-> IC]|[-> IC]] [LX LY]] T.
  - apply cell_2_2 in IC. destruct IC as [ax [ay [bx [by_ ->]]]]. destruct X as [|x0 [|x1 [|]]]; try discriminate LX. destruct Y as [|y0 [|y1 [|]]]; try discriminate LY. rewrite transversal_det2 in T.
    unfold intersects, columns, at_. cbn [bind hd length rsub Nat.eqb map seq nth]. rewrite (proj1 (solve2 solve SV (bx - ax) (x0 - y0) (by_ - ay) (x1 - y1) (x0 - ax) (x1 - ay))); [reflexivity|]. destruct (Req_dec ((bx - ax) * (x1 - y1) - (x0 - y0) * (by_ - ay)) 0); tauto.
  - apply cell_3_3 in IC. destruct IC as [ax [ay [az [bx [by_ [bz [cx [cy [cz ->]]]]]]]]]. destruct X as [|x0 [|x1 [|x2 [|]]]]; try discriminate LX. destruct Y as [|y0 [|y1 [|y2 [|]]]]; try discriminate LY. rewrite transversal_det3 in T.
    unfold intersects, columns, at_. cbn [bind hd length rsub Nat.eqb map seq nth]. rewrite (proj1 (solve3 solve SV (bx - ax) (cx - ax) (x0 - y0) (by_ - ay) (cy - ay) (x1 - y1) (bz - az) (cz - az) (x2 - y2) (x0 - ax) (x1 - ay) (x2 - az))); [reflexivity|].
    match goal with |- ?a = 0 => destruct (Req_dec a 0); tauto end.
Qed.
Print Assumptions C50_dependent.
(** A segment that lies on the cell is not found; with any tolerance some segment apart from
    the cell is. *)
Theorem C50_parallel_refuted : forall tol, ~ forall solve cell X Y, solves_exactly solve -> right_shape 2 cell X Y -> meets 2 cell X Y -> intersects solve cell (X, Y) tol = Ok true.
Proof.
  intros tol H. assert (RS : right_shape 2 [[0; 0]; [1; 0]] [0; 0] [1; 0]) by (split; [left; split; [reflexivity|split; [reflexivity|fall reflexivity]]|auto]).
  specialize (H cramer_solve [[0; 0]; [1; 0]] [0; 0] [1; 0] cramer_exact RS). rewrite (C50_dependent cramer_solve 2 [[0; 0]; [1; 0]] [0; 0] [1; 0] tol cramer_exact RS) in H; [|rewrite transversal_det2; lra].
  assert (X : Ok false = Ok true) by (apply H; exists [0; 0]; split; (split; [reflexivity|]; exists [1; 0]; split; [reflexivity|]; cbn; split; [lra|]; split; [fall ltac:(lra)|]; intros [|[|i]] Hi; [| |lia]; cbn; lra)). discriminate X.
Qed.
Print Assumptions C50_parallel_refuted.
Theorem C50_tolerance_refuted : forall tol, 0 < tol -> ~ forall solve cell X Y, solves_exactly solve -> right_shape 2 cell X Y -> intersects solve cell (X, Y) tol = Ok true -> meets 2 cell X Y.
Proof.
  intros tol TL H. assert (RS : right_shape 2 [[0; 0]; [1; 0]] [- tol / 2; 0] [- tol / 2; 1]) by (split; [left; split; [reflexivity|split; [reflexivity|fall reflexivity]]|auto]).
  assert (I : intersects cramer_solve [[0; 0]; [1; 0]] ([- tol / 2; 0], [- tol / 2; 1]) tol = Ok true).
  { unfold intersects, columns, at_. cbn [bind hd length rsub Nat.eqb map seq nth].
    destruct (solve2 cramer_solve cramer_exact (1 - 0) (- tol / 2 - - tol / 2) (0 - 0) (0 - 1) (- tol / 2 - 0) (0 - 0)) as [_ S2]. destruct S2 as [s [t [E [E1 E2]]]]; [lra|]. rewrite E. cbn [forallb length Nat.eqb nth]. rewrite (proj2 (within_true tol s)), (proj2 (within_true tol t)) by lra. reflexivity. }
  apply (H cramer_solve _ _ _ cramer_exact RS) in I. destruct I as [p [[_ [w [LW [TW [PW HW]]]]] [_ [v [LV [TV [PV HV]]]]]]]. destruct w as [|w0 [|w1 [|]]]; try discriminate LW. destruct v as [|v0 [|v1 [|]]]; try discriminate LV. pose proof (HW 0%nat ltac:(lia)) as HW0. rewrite (HV 0%nat ltac:(lia)) in HW0. cbn in HW0, TW, TV.
  apply Forall_cons_iff in PW. destruct PW as [P0 PW]. apply Forall_cons_iff in PW. destruct PW as [P1 _]. assert (v0 = 1 - v1) by lra. subst v0. lra.
Qed.
Print Assumptions C50_tolerance_refuted.
(** Segments of 3d are never found to meet a segment (the system is not square). *)
Theorem C50_segments_3d_refuted : ~ forall solve cell X Y tol, solves_exactly solve -> 0 < tol -> is_cell 2 3 cell -> length X = 3%nat -> length Y = 3%nat -> transversal 3 cell X Y -> meets 3 cell X Y -> intersects solve cell (X, Y) tol = Ok true.
Proof.
  intros H. assert (X : intersects cramer_solve [[-1; 0; 0]; [1; 0; 0]] ([0; -1; 0], [0; 1; 0]) 1 = Ok true).
  { apply H; [exact cramer_exact|lra|split; [reflexivity|fall reflexivity]|reflexivity|reflexivity| |].
    - intros w L W. destruct w as [|a [|b [|]]]; try discriminate L. pose proof (W 0%nat ltac:(lia)) as W0. pose proof (W 1%nat ltac:(lia)) as W1. cbn in W0, W1. fall ltac:(lra).
    - exists [0; 0; 0]. split; (split; [reflexivity|]; exists [1 / 2; 1 / 2]; split; [reflexivity|]; cbn; split; [lra|]; split; [fall ltac:(lra)|]; intros [|[|[|i]]] Hi; [| | |lia]; cbn; lra). }
  discriminate X.
Qed.
Print Assumptions C50_segments_3d_refuted.
Example C50_triangle : right_shape 3 [[0; 0; 0]; [1; 0; 0]; [0; 1; 0]] [1 / 4; 1 / 4; -1] [1 / 4; 1 / 4; 1] /\ transversal 3 [[0; 0; 0]; [1; 0; 0]; [0; 1; 0]] [1 / 4; 1 / 4; -1] [1 / 4; 1 / 4; 1] /\
  meets 3 [[0; 0; 0]; [1; 0; 0]; [0; 1; 0]] [1 / 4; 1 / 4; -1] [1 / 4; 1 / 4; 1].
Proof.
  split; [split; [right; split; [reflexivity|split; [reflexivity|fall reflexivity]]|auto]|]. split; [apply transversal_det3; lra|]. exists [1 / 4; 1 / 4; 0]. split; (split; [reflexivity|]); [exists [1 / 2; 1 / 4; 1 / 4]|exists [1 / 2; 1 / 2]]; (split; [reflexivity|]; cbn; split; [lra|]; split; [fall ltac:(lra)|]; intros [|[|[|i]]] Hi; [| | |lia]; cbn; lra).
Qed.
