(** Specification vocabulary and proofs for ShapeModel.v. *)
From Verif Require Import Base BaseProofs ShapeModel.
From Coq Require Import Nsatz.
Local Open Scope R_scope.

(** ** Specification vocabulary *)
Fixpoint rlsum (l : list R) : R := match l with [] => 0 | x :: l' => x + rlsum l' end.
(** [p] lies in the plane through [x0] orthogonal to [n]. *)
Definition in_plane (x0 n p : v3) : Prop := (vx p - vx x0) * vx n + (vy p - vy x0) * vy n + (vz p - vz x0) * vz n = 0.
Definition dist (p q : v3) : R := sqrt ((vx p - vx q) ^ 2 + (vy p - vy q) ^ 2 + (vz p - vz q) ^ 2).
(** The length of the part of [n / |n|] orthogonal to the z axis: the sine of the
    angle between them. *)
Definition sine_to_axis (n : v3) : R := sqrt ((vx n ^ 2 + vy n ^ 2) / (vx n ^ 2 + vy n ^ 2 + vz n ^ 2)).

(** ** Proofs *)

Lemma tol13_pos : 0 < tol13.
Proof. unfold tol13. apply Rinv_0_lt_compat, pow_lt. lra. Qed.

Lemma norm3_sq a : norm3 a * norm3 a = vdot3 a a.
Proof. apply sqrt_sqrt. unfold vdot3. nra. Qed.
Lemma norm3_nonneg a : 0 <= norm3 a.
Proof. apply sqrt_pos. Qed.
Lemma norm3_zero a : norm3 a = 0 -> a = V3 0 0 0.
Proof. intros H. pose proof (norm3_sq a) as E. rewrite H in E. destruct a as [x y z]. unfold vdot3 in E. cbn [vx vy vz] in E. rewrite Rmult_0_l in E.
  assert (S0 : forall t, t * t = 0 -> t = 0) by (intros t Ht; apply Rmult_integral in Ht; tauto).
  pose proof (Rle_0_sqr x). pose proof (Rle_0_sqr y). pose proof (Rle_0_sqr z). unfold Rsqr in *. f_equal; apply S0; lra.
Qed.
Lemma norm3_unit n : norm3 n <> 0 -> vdot3 (vmul (/ norm3 n) n) (vmul (/ norm3 n) n) = 1.
Proof. intros H. pose proof (norm3_sq n) as E. unfold vdot3 in *. cbn. replace (_ + _ + _) with (/ norm3 n * / norm3 n * (vx n * vx n + vy n * vy n + vz n * vz n)) by ring. rewrite <- E. field. assumption. Qed.
Lemma norm3_one a : vdot3 a a = 1 -> norm3 a = 1.
Proof. intros H. unfold norm3. rewrite H. apply sqrt_1. Qed.

Section Rot.
Variable n : v3.
Hypothesis U : vdot3 n n = 1.

Lemma cross_ez_sq : norm3 (cross ez n) * norm3 (cross ez n) = vx n * vx n + vy n * vy n.
Proof. rewrite norm3_sq. unfold vdot3, cross, ez. cbn. ring. Qed.
Lemma c_ez : vdot3 ez n = vz n.
Proof. unfold vdot3, ez. cbn. ring. Qed.
Lemma s_sq : sqrt (1 - vz n ^ 2) * sqrt (1 - vz n ^ 2) = 1 - vz n ^ 2.
Proof. apply sqrt_sqrt. unfold vdot3 in U. nra. Qed.
Lemma s_eq : sqrt (1 - vz n ^ 2) = norm3 (cross ez n).
Proof. unfold norm3. f_equal. unfold vdot3, cross, ez in *. cbn. nra. Qed.

(** Away from the axis the rotation takes the plane z = 0 isometrically to the
    plane orthogonal to n. *)
Lemma rot_generic p q : ~ norm3 (cross ez n) < tol13 ->
  let y := app3 (rotation n) (V3 p q 0) in vdot3 y n = 0 /\ vdot3 y y = p * p + q * q.
Proof.
  intros H. unfold rotation, rotation_axis. destruct (Rlt_dec (norm3 (cross ez n)) tol13) as [H'|_]; [contradiction|]. rewrite c_ez, s_eq.
  pose proof cross_ez_sq as E. pose proof tol13_pos as TP. set (k := norm3 (cross ez n)) in *. assert (K : k <> 0) by lra.
  unfold app3, vdot3, cross, ez, vmul in *. cbn [vx vy vz] in *. destruct n as [a b c]. cbn [vx vy vz] in *. clearbody k.
  assert (IK : / k * k = 1) by (field; assumption). set (i := / k) in *. clearbody i. clear H TP K.
  rewrite !Rmult_0_l, !Rmult_1_l, !Rmult_0_r, !Rminus_0_r, !Rminus_0_l, !Rplus_0_r, ?Rmult_0_r.
  split; nsatz.
Qed.
(** Near the axis it is the rotation of the plane z = 0 in itself. *)
Lemma rot_axis p q : norm3 (cross ez n) < tol13 ->
  let y := app3 (rotation n) (V3 p q 0) in vz y = 0 /\ vdot3 y y = p * p + q * q.
Proof.
  intros H. unfold rotation, rotation_axis. destruct (Rlt_dec (norm3 (cross ez n)) tol13) as [_|H']; [|contradiction]. rewrite c_ez.
  pose proof s_sq as E. set (s := sqrt (1 - vz n ^ 2)) in *. clearbody s. unfold app3, vdot3, ez in *. cbn [vx vy vz] in *. split; [ring|]. clear H U.
  replace (vz n ^ 2) with (vz n * vz n) in E by ring. set (c := vz n) in *. clearbody c. nsatz.
Qed.
Lemma cauchy2 a b x y : (a * x + b * y) * (a * x + b * y) <= (a * a + b * b) * (x * x + y * y).
Proof. assert (0 <= (a * y - b * x) * (a * y - b * x)) by (apply Rle_0_sqr). nra. Qed.
Lemma rot_dot p q : norm3 (cross ez n) < tol13 ->
  vdot3 (app3 (rotation n) (V3 p q 0)) n * vdot3 (app3 (rotation n) (V3 p q 0)) n <= norm3 (cross ez n) * norm3 (cross ez n) * (p * p + q * q).
Proof.
  intros H. destruct (rot_axis p q H) as [Z E]. rewrite <- E, cross_ez_sq. set (y := app3 (rotation n) (V3 p q 0)) in *. clearbody y.
  destruct y as [y1 y2 y3]. cbn in Z. subst y3. unfold vdot3. cbn. pose proof (cauchy2 y1 y2 (vx n) (vy n)). nra.
Qed.
Lemma rot_isometry p q : vdot3 (app3 (rotation n) (V3 p q 0)) (app3 (rotation n) (V3 p q 0)) = p * p + q * q.
Proof. destruct (Rlt_dec (norm3 (cross ez n)) tol13) as [H|H]; [apply rot_axis, H|apply rot_generic, H]. Qed.
End Rot.

Lemma unit_of n : norm3 n <> 0 -> vdot3 (vmul (/ norm3 n) n) (vmul (/ norm3 n) n) = 1.
Proof. apply norm3_unit. Qed.
Lemma map_ok x0 n r x : norm3 n <> 0 -> map_from_reference x0 n r x = Ok (vplus x0 (vmul r (app3 (rotation (vmul (/ norm3 n) n)) x))).
Proof.
  intros H. unfold map_from_reference. destruct (Req_EM_T (norm3 n) 0) as [E|_]; [contradiction|].
  destruct (Rlt_dec _ tol13) as [_|N]; [reflexivity|]. exfalso. apply N. rewrite (norm3_one _ (unit_of n H)). rewrite Rminus_diag_eq, Rabs_R0 by reflexivity. apply tol13_pos.
Qed.
Lemma map_err x0 n r x : norm3 n = 0 -> map_from_reference x0 n r x = Err AssertionError.
Proof. intros H. unfold map_from_reference. destruct (Req_EM_T (norm3 n) 0); [reflexivity|contradiction]. Qed.

Lemma sine_cross n : norm3 n <> 0 -> norm3 (cross ez (vmul (/ norm3 n) n)) = sine_to_axis n.
Proof.
  intros H. unfold norm3 at 1, sine_to_axis. f_equal. pose proof (norm3_sq n) as E. unfold vdot3, cross, ez, vmul in *. cbn.
  assert (D : vx n * vx n + vy n * vy n + vz n * vz n <> 0) by (rewrite <- E; intros X; apply Rmult_integral in X; tauto).
  replace (vx n * (vx n * 1) + vy n * (vy n * 1) + vz n * (vz n * 1)) with (norm3 n * norm3 n) by (rewrite E; ring). field. assumption.
Qed.

Lemma dist_shift x0 r y : 0 <= r -> dist (vplus x0 (vmul r y)) x0 = r * norm3 y.
Proof.
  intros H. unfold dist, norm3. rewrite <- (sqrt_pow2 r H) at 4. rewrite <- sqrt_mult_alt by nra. f_equal. unfold vdot3, vplus, vmul. cbn. ring.
Qed.
Lemma plane_shift x0 n r y : (vx (vplus x0 (vmul r y)) - vx x0) * vx n + (vy (vplus x0 (vmul r y)) - vy x0) * vy n + (vz (vplus x0 (vmul r y)) - vz x0) * vz n = r * vdot3 y n.
Proof. unfold vplus, vmul, vdot3. cbn. ring. Qed.
Lemma vdot3_scale_r y c n : vdot3 y (vmul c n) = c * vdot3 y n.
Proof. unfold vdot3, vmul. cbn. ring. Qed.

(** A point of the reference plane. *)
Lemma map_spec x0 n r p q P : 0 <= r -> norm3 n <> 0 -> map_from_reference x0 n r (V3 p q 0) = Ok P ->
  dist P x0 = r * sqrt (p ^ 2 + q ^ 2) /\
  (sine_to_axis n = 0 \/ tol13 <= sine_to_axis n -> in_plane x0 n P) /\
  (sine_to_axis n < tol13 -> Rabs ((vx P - vx x0) * vx n + (vy P - vy x0) * vy n + (vz P - vz x0) * vz n) <= r * sqrt (p ^ 2 + q ^ 2) * norm3 n * tol13).
Proof.
  intros Hr N E. rewrite map_ok in E by assumption. assert (EP : P = vplus x0 (vmul r (app3 (rotation (vmul (/ norm3 n) n)) (V3 p q 0)))) by congruence. subst P. clear E. set (u := vmul (/ norm3 n) n). pose proof (unit_of n N) as U. fold u in U.
  assert (SQ : sqrt (p ^ 2 + q ^ 2) * sqrt (p ^ 2 + q ^ 2) = p * p + q * q) by (rewrite sqrt_sqrt by nra; ring).
  assert (DU : forall y, vdot3 y n = norm3 n * vdot3 y u) by (intros y; unfold u; rewrite vdot3_scale_r; field; assumption).
  split; [|split].
  - rewrite dist_shift by assumption. f_equal. unfold norm3 at 1.
    rewrite rot_isometry by assumption. f_equal. ring.
  - intros H. unfold in_plane. rewrite plane_shift, DU. rewrite <- (sine_cross n N) in H. fold u in H.
    destruct (Rlt_dec (norm3 (cross ez u)) tol13) as [L|L].
    + pose proof (rot_dot u U p q L) as B. destruct H as [Z|G]; [|lra]. rewrite Z in B.
      assert (vdot3 (app3 (rotation u) (V3 p q 0)) u = 0) as -> by nra. ring.
    + destruct (rot_generic u U p q L) as [-> _]. ring.
  - intros L. rewrite plane_shift, DU. rewrite <- (sine_cross n N) in L. fold u in L. pose proof (rot_dot u U p q L) as B.
    set (d := vdot3 (app3 (rotation u) (V3 p q 0)) u) in *. set (k := norm3 (cross ez u)) in *. set (w := sqrt (p ^ 2 + q ^ 2)) in *.
    assert (W : 0 <= w) by apply sqrt_pos. assert (K : 0 <= k) by apply norm3_nonneg.
    assert (D : Rabs d <= w * k). { rewrite <- (Rabs_pos_eq (w * k)) by (apply Rmult_le_pos; assumption). apply Rsqr_le_abs_0. unfold Rsqr. nra. }
    rewrite <- Rmult_assoc, Rabs_mult. rewrite (Rabs_pos_eq (r * norm3 n)) by (apply Rmult_le_pos; [assumption|apply norm3_nonneg]).
    replace (r * w * norm3 n * tol13) with (r * norm3 n * (w * tol13)) by ring. apply Rmult_le_compat_l; [apply Rmult_le_pos; [assumption|apply norm3_nonneg]|].
    eapply Rle_trans; [exact D|]. apply Rmult_le_compat_l; lra.
Qed.

Lemma cos_sin_unit t : sqrt (cos t ^ 2 + sin t ^ 2) = 1.
Proof. rewrite <- sqrt_1. f_equal. pose proof (sin2_cos2 t) as H. unfold Rsqr in H. nra. Qed.

Lemma rlsum_app a b : rlsum (a ++ b) = rlsum a + rlsum b.
Proof. induction a as [|x a IH]; cbn [app map rlsum]; [ring|]. rewrite IH. ring. Qed.
Lemma rlsum_map_mul {A} (f : A -> R) c l : rlsum (map (fun x => f x * c) l) = rlsum (map f l) * c.
Proof. induction l as [|x l IH]; cbn [app map rlsum]; [ring|]. rewrite IH. ring. Qed.
Lemma rlsum_ext {A} (f g : A -> R) l : (forall x, f x = g x) -> rlsum (map f l) = rlsum (map g l).
Proof. intros H. f_equal. apply map_ext, H. Qed.
Lemma rlsum_prod (a b : list R) : rlsum (map (fun w => fst w * snd w) (list_prod a b)) = rlsum a * rlsum b.
Proof.
  induction a as [|x a IH]; cbn [list_prod]; [cbn [map rlsum]; ring|]. rewrite map_app, rlsum_app, IH, map_map. cbn [fst snd].
  rewrite (rlsum_ext _ (fun y => id y * x)) by (intros; unfold id; ring). rewrite rlsum_map_mul, map_id. cbn [rlsum]. ring.
Qed.
Lemma rlsum_repeat4 (f : R * R -> R) l : rlsum (flat_map (fun g => repeat (f g) 4) l) = 4 * rlsum (map f l).
Proof. induction l as [|x l IH]; cbn [flat_map map]; [cbn [rlsum]; ring|]. rewrite rlsum_app, IH. cbn [repeat rlsum]. ring. Qed.

(** ** Squares *)
Section Square.
Variables x0 n P : v3.
Hypothesis N : norm3 n <> 0.
Hypothesis Pl : in_plane x0 n P.
Let u := vmul (/ norm3 n) n.
Let vec := vminus P x0.

Lemma sq_U : vdot3 u u = 1.
Proof. apply unit_of, N. Qed.
Lemma sq_dot : vdot3 vec u = 0.
Proof. unfold u. rewrite vdot3_scale_r. unfold in_plane in Pl. unfold vdot3, vec, vminus. cbn. rewrite Pl. ring. Qed.
Lemma v3_eq a b : vx a = vx b -> vy a = vy b -> vz a = vz b -> a = b.
Proof. destruct a, b. cbn. congruence. Qed.
Lemma corners_ok : square_corners x0 n P = Ok (vplus x0 (cross u vec), vminus x0 (cross u vec)).
Proof.
  unfold square_corners. destruct (Req_EM_T (norm3 n) 0); [contradiction|]. fold u vec. rewrite sq_dot, Rabs_R0.
  destruct (Rlt_dec 0 tol13) as [_|H]; [|exfalso; apply H, tol13_pos].
  assert (D : vdot3 u vec = 0) by (rewrite <- sq_dot; unfold vdot3; ring). rewrite D. f_equal. f_equal; apply v3_eq; unfold vplus, vminus, vmul; cbn; ring.
Qed.
(** n x vec has the length of vec, is orthogonal to it and in the plane. *)
Lemma cross_len : vdot3 (cross u vec) (cross u vec) = vdot3 vec vec.
Proof. pose proof sq_U as A. pose proof sq_dot as B. revert A B. generalize u vec. intros [a b c] [d e f]. unfold vdot3, cross. cbn. intros. nsatz. Qed.
Lemma cross_orth : vdot3 (cross u vec) vec = 0.
Proof. unfold vdot3, cross. cbn. ring. Qed.
Lemma cross_plane : vdot3 (cross u vec) n = 0.
Proof. unfold u, vdot3, cross, vmul. cbn. ring. Qed.

(** The point with coordinates (a, b) in the frame vec, n x vec. *)
Definition frame (a b : R) : v3 := vplus x0 (vplus (vmul a vec) (vmul b (cross u vec))).
Lemma frame_plane a b : in_plane x0 n (frame a b).
Proof.
  unfold in_plane. transitivity (a * vdot3 vec n + b * vdot3 (cross u vec) n).
  - unfold frame, vplus, vmul, vdot3. cbn [vx vy vz]. ring.
  - rewrite cross_plane. assert (vdot3 vec n = 0) as ->; [exact Pl|]. ring.
Qed.
Lemma square_map_frame x y : Rabs x <= 1 -> Rabs y <= 1 -> square_map P (vplus x0 (cross u vec)) (vminus x0 (cross u vec)) (x, y) = Ok (frame (- (x + y) / 2) ((x - y) / 2)).
Proof.
  intros Hx Hy. unfold square_map. cbn [fst snd]. pose proof tol13_pos.
  destruct (Rlt_dec (Rabs x) (1 + tol13)); [|lra]. destruct (Rlt_dec (Rabs y) (1 + tol13)); [|lra]. f_equal.
  unfold frame; generalize (cross u vec); intros w; apply v3_eq; unfold vplus, vminus, vmul, vec; cbn; field.
Qed.
Lemma rim_map_frame x : Rabs x <= 1 -> rim_map [P; vplus x0 (cross u vec); vminus x0 (vminus P x0); vminus x0 (cross u vec)] x =
  Ok [frame ((1 - x) / 2) ((1 + x) / 2); frame (- (1 + x) / 2) ((1 - x) / 2); frame (- (1 - x) / 2) (- (1 + x) / 2); frame ((1 + x) / 2) (- (1 - x) / 2)].
Proof.
  intros Hx. unfold rim_map. pose proof tol13_pos. destruct (Rlt_dec (Rabs x) (1 + tol13)); [|lra]. cbn [tl app combine map fst snd]. f_equal.
  repeat f_equal; unfold frame; generalize (cross u vec); intros w; apply v3_eq; unfold vplus, vminus, vmul, vec; cbn; field.
Qed.
Lemma frame_dist a b c d : dist (frame a b) (frame c d) = sqrt ((a - c) ^ 2 + (b - d) ^ 2) * dist P x0.
Proof.
  unfold dist. rewrite <- sqrt_mult_alt by (apply Rplus_le_le_0_compat; apply pow2_ge_0). f_equal. pose proof cross_len as L. pose proof cross_orth as O.
  unfold frame, vplus, vmul. cbn [vx vy vz]. unfold vdot3 in L, O. revert L O. generalize (cross u vec). intros w L O. unfold vec, vminus in *. cbn [vx vy vz] in *.
  destruct w as [w1 w2 w3], P as [p1 p2 p3], x0 as [y1 y2 y3]. cbn [vx vy vz] in *. clear - L O.
  set (d1 := p1 - y1) in *. set (d2 := p2 - y2) in *. set (d3 := p3 - y3) in *. clearbody d1 d2 d3.
  replace ((y1 + (a * d1 + b * w1) - (y1 + (c * d1 + d * w1))) ^ 2 + (y2 + (a * d2 + b * w2) - (y2 + (c * d2 + d * w2))) ^ 2 + (y3 + (a * d3 + b * w3) - (y3 + (c * d3 + d * w3))) ^ 2)
    with ((a - c) ^ 2 * (d1 ^ 2 + d2 ^ 2 + d3 ^ 2) + (b - d) ^ 2 * (w1 * w1 + w2 * w2 + w3 * w3) + 2 * (a - c) * (b - d) * (w1 * d1 + w2 * d2 + w3 * d3)) by ring.
  rewrite L, O. ring.
Qed.
End Square.

Lemma rotation_is_rotation n : norm3 n = 1 -> / 10 ^ 13 <= sine_to_axis n ->
  app3 (rotation n) (V3 0 0 1) = n /\
  (forall x y, vdot3 (app3 (rotation n) x) (app3 (rotation n) y) = vdot3 x y) /\
  (forall x y, app3 (rotation n) (cross x y) = cross (app3 (rotation n) x) (app3 (rotation n) y)).
Proof.
  intros N S. assert (U : vdot3 n n = 1) by (rewrite <- norm3_sq, N; ring). assert (H : ~ norm3 (cross ez n) < tol13).
  { apply Rle_not_lt. unfold tol13. replace (norm3 (cross ez n)) with (sine_to_axis n); [exact S|]. unfold sine_to_axis, norm3. f_equal.
    unfold vdot3, cross, ez in *. cbn [vx vy vz]. replace (vx n ^ 2 + vy n ^ 2 + vz n ^ 2) with 1 by lra. field. }
  unfold rotation, rotation_axis. destruct (Rlt_dec (norm3 (cross ez n)) tol13) as [H'|_]; [contradiction|]. rewrite c_ez, (s_eq n U).
  pose proof (cross_ez_sq n) as E. pose proof tol13_pos as TP. set (k := norm3 (cross ez n)) in *. assert (K : k <> 0) by lra.
  unfold app3, vdot3, cross, ez, vmul in *. cbn [vx vy vz] in *. clear N S. destruct n as [a b c]. cbn [vx vy vz] in *. clearbody k.
  assert (IK : / k * k = 1) by (field; assumption). set (i := / k) in *. clearbody i. clear H TP K.
  split; [f_equal; nsatz|]. split; intros [x1 x2 x3] [y1 y2 y3]; cbn [vx vy vz]; [nsatz|f_equal; nsatz].
Qed.
