(** Proofs for TransformModel.v; the vocabulary is that of ShapeProofs *)
From Verif Require Import Base BaseProofs ShapeModel TransformModel ShapeProofs.
Local Open Scope R_scope.

(** [x] is a multiple of [n] *)
Definition along (n x : v3) : Prop := exists a, x = vmul a n.

Lemma vmul_vdot a n x : vdot3 x (vmul a n) = a * vdot3 x n. Proof. unfold vdot3, vmul; cbn [vx vy vz]; ring. Qed.
Lemma unit3_ok n : norm3 n <> 0 -> exists u, unit3 n = Some u /\ u = vmul (/ norm3 n) n /\ vdot3 u u = 1.
Proof. intros H. unfold unit3. destruct (Req_EM_T (norm3 n) 0); [contradiction |]. eexists. split; [reflexivity |]. split; [reflexivity |]. apply norm3_unit. exact H. Qed.
Lemma residual u x : vdot3 u u = 1 -> let y := vminus x (vmul (vdot3 x u) u) in vdot3 y y = vdot3 x x - vdot3 x u ^ 2 /\ vdot3 y u = 0.
Proof.
  intros U. cbv zeta. split.
  - transitivity (vdot3 x x - 2 * vdot3 x u ^ 2 + vdot3 x u ^ 2 * vdot3 u u); [unfold vdot3, vminus, vmul; cbn [vx vy vz]; ring | rewrite U; ring].
  - transitivity (vdot3 x u - vdot3 x u * vdot3 u u); [unfold vdot3, vminus, vmul; cbn [vx vy vz]; ring | rewrite U; ring].
Qed.
Lemma zero_vec y : vdot3 y y = 0 -> y = V3 0 0 0.
Proof. intros H. apply norm3_zero. unfold norm3. rewrite H. apply sqrt_0. Qed.
Lemma projected_ok u x : vdot3 u u = 1 -> ~ along u x -> exists y, projected x u = Some y /\ vdot3 y u = 0 /\ vdot3 y y = 1.
Proof.
  intros U N. destruct (residual u x U) as [E O]. set (y := vminus x (vmul (vdot3 x u) u)) in *. unfold projected. fold y. rewrite <- E.
  assert (P : 0 < vdot3 y y).
  { destruct (Rle_lt_or_eq_dec 0 (vdot3 y y)) as [L | Z]; [unfold vdot3; pose proof (Rle_0_sqr (vx y)); pose proof (Rle_0_sqr (vy y)); pose proof (Rle_0_sqr (vz y)); unfold Rsqr in *; lra | exact L |].
    exfalso. apply N. exists (vdot3 x u). symmetry in Z. apply zero_vec in Z. unfold y, vminus in Z. injection Z as Zx Zy Zz. destruct x as [p q r]. unfold vmul in *. cbn [vx vy vz] in *. f_equal; lra. }
  pose proof (sqrt_lt_R0 _ P) as S. destruct (Req_EM_T (sqrt (vdot3 y y)) 0) as [Z | _]; [lra |]. eexists. split; [reflexivity |].
  pose proof (sqrt_sqrt (vdot3 y y) (Rlt_le _ _ P)) as SS. set (s := sqrt (vdot3 y y)) in *. split.
  - replace (vdot3 (vmul (/ s) y) u) with (/ s * vdot3 y u) by (unfold vdot3, vmul; cbn [vx vy vz]; ring). rewrite O. ring.
  - replace (vdot3 (vmul (/ s) y) (vmul (/ s) y)) with (/ s * / s * vdot3 y y) by (unfold vdot3, vmul; cbn [vx vy vz]; ring). rewrite <- SS. field. lra.
Qed.
Lemma projected_nan u x : vdot3 u u = 1 -> along u x -> projected x u = None.
Proof.
  intros U [a ->]. unfold projected. replace (vdot3 (vmul a u) (vmul a u) - vdot3 (vmul a u) u ^ 2) with 0.
  - rewrite sqrt_0. destruct (Req_EM_T 0 0); [reflexivity | contradiction].
  - transitivity (a * a * vdot3 u u - (a * vdot3 u u) ^ 2); [rewrite U; ring | unfold vdot3, vmul; cbn [vx vy vz]; ring].
Qed.
Lemma along_unit n x : norm3 n <> 0 -> (along (vmul (/ norm3 n) n) x <-> along n x).
Proof.
  intros H. split; intros [a ->].
  - exists (a * / norm3 n). unfold vmul. cbn [vx vy vz]. f_equal; ring.
  - exists (a * norm3 n). unfold vmul. cbn [vx vy vz]. f_equal; field; exact H.
Qed.
Lemma shifted_plane x0 n t y : norm3 n <> 0 -> vdot3 y (vmul (/ norm3 n) n) = 0 -> in_plane x0 n (vplus x0 (vmul t y)).
Proof.
  intros H E. rewrite vmul_vdot in E. apply Rmult_integral in E. destruct E as [E | E]; [exfalso; revert E; apply Rinv_neq_0_compat; exact H |].
  unfold in_plane, vplus, vmul, vdot3 in *. cbn [vx vy vz]. replace _ with (t * (vx y * vx n + vy y * vy n + vz y * vz n)) by ring. rewrite E. ring.
Qed.
Lemma shifted_dist x0 t y : 0 <= t -> vdot3 y y = 1 -> dist (vplus x0 (vmul t y)) x0 = t.
Proof.
  intros T E. unfold dist, vplus, vmul, vdot3 in *. cbn [vx vy vz]. replace ((_ ^ 2 + _ ^ 2 + _ ^ 2)) with (t * t * (vx y * vx y + vy y * vy y + vz y * vz y)) by ring.
  rewrite E, Rmult_1_r. apply sqrt_square. exact T.
Qed.

(** The point of z = 0 which goes along [y] *)
Lemma preimage u y : vdot3 u u = 1 -> vz u <> 0 -> vdot3 y u = 0 -> 0 < vdot3 y y ->
  exists x, vz x = 0 /\ norm3 x = 1 /\ projected x u = Some (vmul (/ norm3 y) y).
Proof.
  intros U UZ O P. set (b := vz y / vz u). set (x' := vminus y (vmul b u)).
  assert (X2 : vdot3 x' x' = vdot3 y y + b * b). { transitivity (vdot3 y y - 2 * b * vdot3 y u + b * b * vdot3 u u); [unfold x', vdot3, vminus, vmul; cbn [vx vy vz]; ring | rewrite U, O; ring]. }
  assert (XU : vdot3 x' u = - b). { transitivity (vdot3 y u - b * vdot3 u u); [unfold x', vdot3, vminus, vmul; cbn [vx vy vz]; ring | rewrite U, O; ring]. }
  assert (M : 0 < norm3 x') by (unfold norm3; apply sqrt_lt_R0; rewrite X2; nra). pose proof (norm3_sq x') as MS. set (m := norm3 x') in *.
  assert (L : 0 < norm3 y) by (unfold norm3; apply sqrt_lt_R0; exact P). pose proof (norm3_sq y) as LS. set (l := norm3 y) in *.
  exists (vmul (/ m) x'). split; [unfold x', vmul, vminus; cbn [vz]; unfold b; field; split; [exact UZ | lra] |].
  assert (XX : vdot3 (vmul (/ m) x') (vmul (/ m) x') = 1). { transitivity (/ m * / m * vdot3 x' x'); [unfold vdot3, vmul; cbn [vx vy vz]; ring | rewrite <- MS; field; lra]. }
  split; [unfold norm3; rewrite XX; apply sqrt_1 |]. unfold projected.
  assert (XD : vdot3 (vmul (/ m) x') u = - b / m). { transitivity (/ m * vdot3 x' u); [unfold vdot3, vmul; cbn [vx vy vz]; ring | rewrite XU; unfold Rdiv; ring]. }
  rewrite XX, XD. assert (EQ : 1 - (- b / m) ^ 2 = (l / m) * (l / m)). { replace 1 with (/ m * / m * (m * m)) at 1 by (field; lra). rewrite MS, X2, <- LS. field. lra. }
  rewrite EQ, sqrt_square by (apply Rlt_le, Rdiv_lt_0_compat; lra). destruct (Req_EM_T (l / m) 0) as [Z | _]; [exfalso; assert (0 < l / m) by (apply Rdiv_lt_0_compat; lra); lra |].
  f_equal. apply v3_eq; unfold x', vmul, vminus; cbn [vx vy vz]; field; lra.
Qed.
Lemma projected_flat u x y : vdot3 u u = 1 -> vz u = 0 -> vz x = 0 -> projected x u = Some y -> vz y = 0 /\ (y = V3 (- vy u) (vx u) 0 \/ y = V3 (vy u) (- vx u) 0).
Proof.
  intros U UZ XZ E. assert (N : ~ along u x) by (intros A; rewrite projected_nan in E by assumption; discriminate).
  destruct (projected_ok u x U N) as [y' [E' [O Y]]]. assert (y' = y) by congruence. subst y'. unfold projected in E. destruct (Req_EM_T _ 0) as [_ | D]; [discriminate |].
  assert (YZ : vz y = 0). { injection E as <-. unfold vmul, vminus. cbn [vz]. rewrite UZ, XZ. ring. }
  split; [exact YZ |]. clear E E' D N. destruct y as [p q s], u as [a b c]. unfold vdot3 in *. cbn [vx vy vz] in *. subst c s.
  rewrite Rmult_0_l, Rplus_0_r in U, Y, O. set (k := a * q - b * p).
  assert (KK : k * k = 1). { transitivity ((a * a + b * b) * (p * p + q * q) - (p * a + q * b) * (p * a + q * b)); [unfold k; ring | rewrite U, Y, O; ring]. }
  assert (EP : p = - b * k). { transitivity (p * (a * a + b * b) - a * (p * a + q * b)); [rewrite U, O; ring | unfold k; ring]. }
  assert (EQ : q = a * k). { transitivity (q * (a * a + b * b) - b * (p * a + q * b)); [rewrite U, O; ring | unfold k; ring]. }
  assert (Z : (k - 1) * (k + 1) = 0) by (replace ((k - 1) * (k + 1)) with (k * k - 1) by ring; rewrite KK; ring).
  clearbody k. apply Rmult_integral in Z. destruct Z as [Z | Z]; [left; assert (k = 1) by lra | right; assert (k = -1) by lra]; subst k p q; f_equal; ring.
Qed.
