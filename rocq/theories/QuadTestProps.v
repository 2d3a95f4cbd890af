(** C128: the averages expected by the tests. *)
From Coq Require Import ZArith QArith Reals Lra Lia.
From Verif Require Import Base BaseProofs ShapeModel ShapeProofs ShapeProps DiskModel DiskProofs DiskProps QuadTestModel QuadTestProofs.
Local Open Scope R_scope.
Local Close Scope Q_scope.

(** ** Averages of the square of the distance from the centre, for every normal *)
Theorem C128_circle inside radius gauss x0 n : nonzero n -> 0 < radius x0 -> fold_right (fun g s => snd g + s) 0 gauss = 2 ->
  (forall p, dist p x0 = radius x0 -> inside p = true) ->
  average inside (circle_quadrature radius gauss) (fun p => sqdist p x0) x0 n = Ok (radius x0 ^ 2).
Proof. intros NZ R0 W IN. apply circle_average; try assumption. intros p D _. split; [apply IN, D|]. rewrite sqdist_dist, D. reflexivity. Qed.
Theorem C128_rim inside P gauss x0 n : nonzero n -> in_plane x0 n (P x0) -> P x0 <> x0 -> integrates_squares gauss ->
  (forall p, in_plane x0 n p -> sqdist p x0 <= sqdist (P x0) x0 -> inside p = true) ->
  average inside (rim_quadrature P gauss) (fun p => sqdist p x0) x0 n = Ok (2 / 3 * sqdist (P x0) x0).
Proof. intros NZ PL NE G IN. rewrite (rim_average inside P gauss _ 1 x0 n) by (assumption || (intros; ring)). f_equal. ring. Qed.
Theorem C128_square inside P gauss x0 n : nonzero n -> in_plane x0 n (P x0) -> P x0 <> x0 -> integrates_squares gauss ->
  (forall p, in_plane x0 n p -> sqdist p x0 <= sqdist (P x0) x0 -> inside p = true) ->
  average inside (square_quadrature P gauss) (fun p => sqdist p x0) x0 n = Ok (1 / 3 * sqdist (P x0) x0).
Proof. intros NZ PL NE G IN. rewrite (square_average inside P gauss _ 1 x0 n) by (assumption || (intros; ring)). f_equal. ring. Qed.
(** For disks to the precision of the tables, with degrees that have a rule for squares *)
Theorem C128_disk_partial inside radius degree pts ws x0 n : (2 <= degree <= 9 \/ 12 <= degree <= 15)%Z -> disk_quadrature degree = Ok (pts, ws) ->
  nonzero n -> 0 < radius x0 -> (forall p, In p pts -> inside (disk_point x0 n (radius x0) p) = true) ->
  exists a, average inside (disk_shape radius degree) (fun p => sqdist p x0) x0 n = Ok a /\ Rabs (a - radius x0 ^ 2 / 2) <= radius x0 ^ 2 * / 10 ^ 14.
Proof.
  intros D E NZ R0 IN. exists (disk_sum (fun _ => true) (fun p => radius x0 ^ 2 * (dec (fst p) ^ 2 + dec (snd p) ^ 2)) pts ws / moment_of 0 0 pts ws). split.
  { apply (disk_average degree inside radius _ (fun _ => true) _ x0 n pts ws E NZ R0 IN). intros p Hp _. apply disk_point_sqdist; [exact NZ|lra]. }
  rewrite disk_sum_squares. destruct (C36_area) as (A0 & A2 & _).
  assert (DR : (2 <= rule_degree degree)%Z).
  { unfold rule_degree. assert (C : (degree = 2 \/ degree = 3 \/ degree = 4 \/ degree = 5 \/ degree = 6 \/ degree = 7 \/ degree = 8 \/ degree = 9 \/ degree = 12 \/ degree = 13 \/ degree = 14 \/ degree = 15)%Z) by lia.
    repeat (destruct C as [->|C]; [vm_compute; discriminate|]). subst degree. vm_compute. discriminate. }
  assert (D' : (0 <= degree <= 9 \/ 12 <= degree <= 15)%Z) by lia.
  assert (A2' : disk_moment 0 2 (PI / 4)).
  { apply disk_moment_value. change (moment_coef 0 2) with (1 # 4)%Q. unfold Q2R. cbn. field. }
  pose proof (C36_exact_partial degree pts ws 0 0 PI D' E ltac:(cbn; lia) A0) as M0.
  pose proof (C36_exact_partial degree pts ws 2 0 _ D' E ltac:(cbn; lia) A2) as M1.
  pose proof (C36_exact_partial degree pts ws 0 2 _ D' E ltac:(cbn; lia) A2') as M2.
  apply le_abs in M0. apply le_abs in M1. apply le_abs in M2. set (m0 := moment_of 0 0 pts ws) in *. set (m1 := moment_of 2 0 pts ws) in *. set (m2 := moment_of 0 2 pts ws) in *.
  assert (T : / 10 ^ 14 <= / 100). { apply Rinv_le_contravar; [lra|]. replace 100 with (10 ^ 2) by ring. apply Rle_pow; [lra|lia]. }
  assert (T0 : 0 < / 10 ^ 14) by (apply Rinv_0_lt_compat, pow_lt; lra). set (e := / 10 ^ 14) in *. clearbody e m0 m1 m2.
  assert (P3 : 3 < PI) by (pose proof PI2_3_2; lra). assert (MP : 2 < m0) by lra.
  replace (radius x0 ^ 2 * (m1 + m2) / m0 - radius x0 ^ 2 / 2) with (radius x0 ^ 2 * ((2 * (m1 + m2) - m0) / (2 * m0))) by (field; lra).
  rewrite Rabs_mult, (Rabs_pos_eq (radius x0 ^ 2)) by apply pow2_ge_0. apply Rmult_le_compat_l; [apply pow2_ge_0|].
  apply Rabs_le. split; apply (Rmult_le_reg_r (2 * m0)); try lra; (replace ((2 * (m1 + m2) - m0) / (2 * m0) * (2 * m0)) with (2 * (m1 + m2) - m0) by (field; lra)); nra.
Qed.

(** ** The tests *)
Theorem C128_circle_tests gauss x0 n : fold_right (fun g s => snd g + s) 0 gauss = 2 -> on_L x0 n ->
  average in_cube (circle_quadrature r_const gauss) f_sanity x0 n = Ok 1 /\
  (on_I x0 n -> average in_cube (circle_quadrature r_const gauss) f_identity x0 n = Ok (vz x0 * vz x0) /\
                average in_cube (circle_quadrature r_test gauss) f_foo x0 n = Ok (true_circle x0)).
Proof.
  intros W L. destruct (L_axis x0 n L) as [NZ AX].
  assert (RT : r_test x0 = / 10) by (unfold r_test; field).
  assert (IN : forall p, dist p x0 = / 10 -> in_plane x0 n p -> in_cube p = true).
  { intros p D PL. apply (L_inside x0 n p L PL). rewrite sqdist_dist, D. lra. }
  split; [|intros I; split].
  - apply circle_average; [exact NZ|unfold r_const; lra|exact W|]. intros p D PL. split; [apply IN; [exact D|apply PL, AX]|reflexivity].
  - apply circle_average; [exact NZ|unfold r_const; lra|exact W|]. intros p D PL. split; [apply IN; [exact D|apply PL, AX]|]. unfold f_identity. destruct (I_plane x0 n p I (PL AX)) as [-> _]. reflexivity.
  - apply circle_average; [exact NZ|rewrite RT; lra|exact W|]. rewrite RT. intros p D PL. split; [apply IN; [exact D|apply PL, AX]|]. destruct (I_plane x0 n p I (PL AX)) as [_ ->]. rewrite sqdist_dist, D. unfold true_circle. field.
Qed.
Lemma I_corner x0 n s : on_I x0 n -> 0 < s <= / 4 -> let Q := vminus x0 (V3 s s 0) in in_plane x0 n Q /\ Q <> x0 /\ sqdist Q x0 = 2 * s ^ 2 /\
  (forall p, in_plane x0 n p -> sqdist p x0 <= sqdist Q x0 -> in_cube p = true).
Proof.
  intros I B Q. assert (SQ : sqdist Q x0 = 2 * s ^ 2) by (unfold Q, sqdist, vminus; cbn [vx vy vz]; ring).
  split; [|split; [|split; [exact SQ|]]].
  - destruct I as (z & h & -> & _ & -> & _). unfold Q, in_plane, vminus. cbn [vx vy vz]. ring.
  - intros E. rewrite E in SQ. unfold sqdist in SQ. replace (_ + _) with 0 in SQ by ring. nra.
  - intros p PL D. apply (L_inside x0 n p (or_introl I) PL). rewrite SQ in D. nra.
Qed.
Lemma test_size z : 0 <= z <= 1 -> 0 < size + size * z <= / 4.
Proof. unfold size. lra. Qed.
Theorem C128_square_tests gauss x0 n : integrates_squares gauss -> on_I x0 n ->
  (average in_cube (square_quadrature p_const gauss) f_sanity x0 n = Ok 1 /\
   average in_cube (square_quadrature p_const gauss) f_identity x0 n = Ok (vz x0 * vz x0) /\
   average in_cube (square_quadrature p_test gauss) f_foo x0 n = Ok (true_square x0)) /\
  (average in_cube (rim_quadrature p_const gauss) f_sanity x0 n = Ok 1 /\
   average in_cube (rim_quadrature p_const gauss) f_identity x0 n = Ok (vz x0 * vz x0) /\
   average in_cube (rim_quadrature p_test gauss) f_foo x0 n = Ok (true_rim x0)).
Proof.
  intros G I. destruct (I_axis x0 n I) as [NZ _].
  destruct (I_corner x0 n (/ 10) I ltac:(lra)) as (C1 & C2 & _ & C4).
  assert (Z : 0 <= vz x0 <= 1) by (destruct I as (z & h & -> & HZ & _); exact HZ).
  destruct (I_corner x0 n _ I (test_size _ Z)) as (T1 & T2 & T3 & T4).
  assert (ID : forall p, in_plane x0 n p -> f_identity p = vz x0 * vz x0) by (intros p PL; unfold f_identity; destruct (I_plane x0 n p I PL) as [-> _]; reflexivity).
  assert (FO : forall p, in_plane x0 n p -> f_foo p = vz x0 * sqdist p x0) by (intros p PL; apply (I_plane x0 n p I PL)).
  split; (split; [|split]).
  - apply (square_constant in_cube p_const gauss f_sanity 1 x0 n NZ C1 C2 G C4). reflexivity.
  - apply (square_constant in_cube p_const gauss f_identity _ x0 n NZ C1 C2 G C4 ID).
  - rewrite (square_average in_cube p_test gauss f_foo (vz x0) x0 n NZ T1 T2 G T4 FO). unfold p_test. rewrite T3. f_equal. unfold true_square. field.
  - apply (rim_constant in_cube p_const gauss f_sanity 1 x0 n NZ C1 C2 G C4). reflexivity.
  - apply (rim_constant in_cube p_const gauss f_identity _ x0 n NZ C1 C2 G C4 ID).
  - rewrite (rim_average in_cube p_test gauss f_foo (vz x0) x0 n NZ T1 T2 G T4 FO). unfold p_test. rewrite T3. f_equal. unfold true_rim. field.
Qed.

(** With the disk: four points of the table are outside of the cube, at a distance of more than ten radii, and their weights are
    part of the measure *)
Definition the_disk : list (Z * Z) * list Z := match disk_quadrature 10 with Ok pw => pw | Err _ => ([], []) end.
Lemma the_disk_ok : disk_quadrature 10 = Ok (fst the_disk, snd the_disk).
Proof. vm_compute. reflexivity. Qed.
Definition kept : Z := Eval vm_compute in zsum (fun _ => 1%Z) (fst the_disk) (snd the_disk).
Definition weights : Z := Eval vm_compute in fold_right Z.add 0%Z (map snd (combine (fst the_disk) (snd the_disk))).
Definition squares : Z := Eval vm_compute in zsum (fun p => (fst p * fst p + snd p * snd p)%Z) (fst the_disk) (snd the_disk).
Lemma kept_ok : zsum (fun _ => 1%Z) (fst the_disk) (snd the_disk) = kept.
Proof. vm_compute. reflexivity. Qed.
Lemma weights_ok : fold_right Z.add 0%Z (map snd (combine (fst the_disk) (snd the_disk))) = weights.
Proof. vm_compute. reflexivity. Qed.
Lemma squares_ok : zsum (fun p => (fst p * fst p + snd p * snd p)%Z) (fst the_disk) (snd the_disk) = squares.
Proof. vm_compute. reflexivity. Qed.
Theorem C128_disk_tests_refuted x0 n : on_I x0 n ->
  (exists a, average in_cube (disk_shape r_const 10) f_sanity x0 n = Ok a /\ 1 - 8 / 10 ^ 4 < a < 1 - 7 / 10 ^ 4) /\
  (0 < vz x0 -> exists a, average in_cube (disk_shape r_const 10) f_identity x0 n = Ok a /\ a < vz x0 * vz x0 * (1 - 7 / 10 ^ 4)) /\
  (0 < vz x0 -> exists a, average in_cube (disk_shape r_test 10) f_foo x0 n = Ok a /\ a < true_disk x0 * (1 - 3 / 10 ^ 3)).
Proof.
  intros I. destruct (I_axis x0 n I) as [NZ AX]. assert (RC : r_const x0 = / 10) by reflexivity. assert (RT : r_test x0 = / 10) by (unfold r_test; field).
  assert (T : 0 < 10 ^ 15) by (apply pow_lt; lra).
  assert (PLZ : forall r p, 0 <= r -> vz (disk_point x0 n r p) = vz x0) by (intros r p Hr; apply (I_plane x0 n _ I), disk_point_plane; [exact NZ|exact Hr|left; exact AX]).
  assert (K : forall k v, (forall p, v p = k * (IZR 1 * 1)) -> disk_sum near_b v (fst the_disk) (snd the_disk) / moment_of 0 0 (fst the_disk) (snd the_disk) = k * (IZR kept / IZR weights)).
  { intros k v V. rewrite (disk_sum_zsum k 1 (fun _ => 1%Z) v _ _ V), moment_zsum, kept_ok, weights_ok. field. unfold weights. repeat split; lra. }
  assert (KB : 1 - 8 / 10 ^ 4 < IZR kept / IZR weights < 1 - 7 / 10 ^ 4) by (unfold kept, weights; lra).
  split; [|split].
  - exists (1 * (IZR kept / IZR weights)). split; [|lra]. rewrite (disk_average 10 in_cube r_const f_sanity near_b (fun _ => 1) x0 n _ _ the_disk_ok NZ).
    + f_equal. apply K. intros; ring.
    + rewrite RC. lra.
    + intros p _. rewrite RC. apply I_disk_inside, I.
    + reflexivity.
  - intros Z0. exists (vz x0 * vz x0 * (IZR kept / IZR weights)). split; [|apply Rmult_lt_compat_l; [nra|lra]].
    rewrite (disk_average 10 in_cube r_const f_identity near_b (fun _ => vz x0 * vz x0) x0 n _ _ the_disk_ok NZ).
    + f_equal. apply K. intros; ring.
    + rewrite RC. lra.
    + intros p _. rewrite RC. apply I_disk_inside, I.
    + intros p _ _. unfold f_identity. rewrite PLZ by (rewrite RC; lra). reflexivity.
  - intros Z0. exists (vz x0 * (/ 10) ^ 2 * / (10 ^ 15 * 10 ^ 15) * (IZR squares / IZR weights)). split.
    + rewrite (disk_average 10 in_cube r_test f_foo near_b (fun p => vz x0 * ((/ 10) ^ 2 * (dec (fst p) ^ 2 + dec (snd p) ^ 2))) x0 n _ _ the_disk_ok NZ).
      * f_equal. rewrite (disk_sum_zsum (vz x0 * (/ 10) ^ 2) (/ (10 ^ 15 * 10 ^ 15)) (fun p => (fst p * fst p + snd p * snd p)%Z)).
        2:{ intros p. rewrite plus_IZR, !mult_IZR. unfold dec. field. }
        rewrite moment_zsum, squares_ok, weights_ok. field. unfold weights. repeat split; lra.
      * rewrite RT. lra.
      * intros p _. rewrite RT. apply I_disk_inside, I.
      * intros p _ _. rewrite RT. destruct (I_plane x0 n (disk_point x0 n (/ 10) p) I) as [_ ->]; [apply disk_point_plane; [exact NZ|lra|left; exact AX]|]. rewrite disk_point_sqdist by (first [exact NZ|lra]). reflexivity.
    + unfold true_disk. assert (B : / (10 ^ 15 * 10 ^ 15) * (IZR squares / IZR weights) < / 2 * (1 - 3 / 10 ^ 3)) by (unfold squares, weights; lra).
      apply (Rmult_lt_compat_l (vz x0)) in B; [|exact Z0]. lra.
Qed.

(** The older tests of squares expect the value of the rim: test/avg_test_square.py with a square of today has the half of it *)
Theorem C128_old_square_refuted gauss s z h : integrates_squares gauss -> 0 < s -> h <> 0 ->
  average (fun _ => true) (square_quadrature (p_old s) gauss) f_xxyy (V3 0 0 z) (V3 0 0 h) = Ok (old_value s / 2) /\
  average (fun _ => true) (rim_quadrature (p_old s) gauss) f_xxyy (V3 0 0 z) (V3 0 0 h) = Ok (old_value s) /\ old_value s / 2 <> old_value s.
Proof.
  intros G S H. assert (NZ : nonzero (V3 0 0 h)) by (right; right; exact H). set (x0 := V3 0 0 z).
  assert (PL : in_plane x0 (V3 0 0 h) (p_old s x0)) by (unfold in_plane, p_old, x0; cbn [vx vy vz]; ring).
  assert (SQ : sqdist (p_old s x0) x0 = 2 * s ^ 2) by (unfold sqdist, p_old, x0; cbn [vx vy vz]; ring).
  assert (NE : p_old s x0 <> x0). { intros E. rewrite E in SQ. unfold sqdist in SQ. nra. }
  assert (F : forall p, in_plane x0 (V3 0 0 h) p -> f_xxyy p = 1 * sqdist p x0).
  { intros p P. unfold in_plane, x0 in P. cbn [vx vy vz] in P. assert (E : vz p - z = 0) by (apply (Rmult_eq_reg_r h); [lra|exact H]). unfold f_xxyy, sqdist, x0. cbn [vx vy vz]. rewrite E. ring. }
  split; [|split].
  - rewrite (square_average (fun _ => true) (p_old s) gauss f_xxyy 1 x0 (V3 0 0 h) NZ PL NE G (fun _ _ _ => eq_refl) F), SQ. f_equal. unfold old_value. field.
  - rewrite (rim_average (fun _ => true) (p_old s) gauss f_xxyy 1 x0 (V3 0 0 h) NZ PL NE G (fun _ _ _ => eq_refl) F), SQ. f_equal. unfold old_value. field.
  - unfold old_value. nra.
Qed.

(** ** The hypotheses hold for: the rule with two points, a point in the middle of the line *)
Definition two_points : list (R * R) := [(- / sqrt 3, 1); (/ sqrt 3, 1)].
Example C128_two_points : integrates_squares two_points.
Proof.
  assert (S : 1 < sqrt 3) by (rewrite <- sqrt_1 at 1; apply sqrt_lt_1; lra). assert (Q : sqrt 3 * sqrt 3 = 3) by (apply sqrt_sqrt; lra).
  assert (I : 0 < / sqrt 3 < 1). { split; [apply Rinv_0_lt_compat; lra|]. rewrite <- Rinv_1. apply Rinv_lt_contravar; lra. }
  split; [|split].
  - intros g [<-|[<-|[]]]; cbn [fst]; lra.
  - cbn [two_points fold_right snd]. lra.
  - cbn [two_points fold_right fst snd]. assert (E : (/ sqrt 3) ^ 2 = / 3). { rewrite pow_inv. f_equal. cbn [pow]. rewrite Rmult_1_r. exact Q. }
    replace ((- / sqrt 3) ^ 2) with ((/ sqrt 3) ^ 2) by ring. rewrite E. lra.
Qed.
Example C128_on_I : on_I (V3 (/ 2) (/ 2) (/ 4)) (V3 0 0 (- / 8)).
Proof. exists (/ 4), (- / 8). repeat split; lra. Qed.
Example C128_on_L : on_L (V3 (3 / 4) (/ 2) (/ 2)) (V3 (/ 8) 0 0).
Proof. right. exists (3 / 4), (/ 8). repeat split; lra. Qed.
Example C128_square_nonvacuous : average in_cube (square_quadrature p_test two_points) f_foo (V3 (/ 2) (/ 2) (/ 4)) (V3 0 0 (- / 8)) = Ok (/ 384).
Proof.
  destruct (C128_square_tests two_points _ _ C128_two_points C128_on_I) as [(_ & _ & E) _]. rewrite E. f_equal. unfold true_square, size. cbn [vz]. field.
Qed.
Example C128_disk_nonvacuous : exists a, average in_cube (disk_shape r_const 10) f_sanity (V3 (/ 2) (/ 2) (/ 4)) (V3 0 0 (- / 8)) = Ok a /\ ~ is_close a 1.
Proof.
  destruct (C128_disk_tests_refuted _ _ C128_on_I) as [(a & E & B) _]. exists a. split; [exact E|]. unfold is_close. rewrite Rabs_left by lra. intros H. lra.
Qed.

Print Assumptions C128_circle.
Print Assumptions C128_rim.
Print Assumptions C128_square.
Print Assumptions C128_disk_partial.
Print Assumptions C128_circle_tests.
Print Assumptions C128_square_tests.
Print Assumptions C128_disk_tests_refuted.
Print Assumptions C128_old_square_refuted.
