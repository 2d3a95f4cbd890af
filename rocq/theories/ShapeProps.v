(** C34: quadratures over circles, disks, squares and their rims. *)
From Verif Require Import Base BaseProofs ShapeModel ShapeProofs.
Local Open Scope R_scope.

(** The four corners of a square with centre [x0] in the plane orthogonal to [n]. *)
Definition is_square (x0 n P A B C : v3) : Prop :=
  let d := dist P x0 in
  Forall (fun Q => in_plane x0 n Q /\ dist Q x0 = d) [P; A; B; C] /\
  dist P A = sqrt 2 * d /\ dist A B = sqrt 2 * d /\ dist B C = sqrt 2 * d /\ dist C P = sqrt 2 * d.
Definition on_segment (P Q p : v3) : Prop :=
  exists t, 0 <= t <= 1 /\ vx p = (1 - t) * vx P + t * vx Q /\ vy p = (1 - t) * vy P + t * vy Q /\ vz p = (1 - t) * vz P + t * vz Q.
Definition in_parallelogram (P A C p : v3) : Prop :=
  exists s t, 0 <= s <= 1 /\ 0 <= t <= 1 /\ vx p = vx P + s * (vx A - vx P) + t * (vx C - vx P) /\
    vy p = vy P + s * (vy A - vy P) + t * (vy C - vy P) /\ vz p = vz P + s * (vz A - vz P) + t * (vz C - vz P).
(** Points and weights of a quadrature on [-1, 1]. *)
Definition on_interval (gauss : list (R * R)) : Prop := (forall g, In g gauss -> Rabs (fst g) <= 1) /\ rlsum (map snd gauss) = 2.
Definition nonzero (n : v3) : Prop := vx n <> 0 \/ vy n <> 0 \/ vz n <> 0.

Lemma nonzero_norm n : nonzero n -> norm3 n <> 0.
Proof. intros H E. apply norm3_zero in E. subst n. destruct H as [H|[H|H]]; apply H; reflexivity. Qed.

Lemma mapM_ok {A B} (f : A -> res B) (g : A -> B) l : (forall x, In x l -> f x = Ok (g x)) -> mapM f l = Ok (map g l).
Proof. intros H. apply mapM_map, Forall_forall, H. Qed.

(** The matrix behind the circles and disks: unless the normal is along the z axis it is a rotation of space, that
    is, lengths, angles and orientation are kept, and it takes the z axis to the normal *)
Theorem C34_rotation n : norm3 n = 1 -> / 10 ^ 13 <= sine_to_axis n ->
  app3 (rotation n) (V3 0 0 1) = n /\
  (forall x y, vdot3 (app3 (rotation n) x) (app3 (rotation n) y) = vdot3 x y) /\
  (forall x y, app3 (rotation n) (cross x y) = cross (app3 (rotation n) x) (app3 (rotation n) y)).
Proof. exact (rotation_is_rotation n). Qed.
Example C34_rotation_ex : norm3 (V3 1 0 0) = 1 /\ / 10 ^ 13 <= sine_to_axis (V3 1 0 0).
Proof.
  split; [apply norm3_one; unfold vdot3; cbn [vx vy vz]; ring|]. unfold sine_to_axis. cbn [vx vy vz]. replace ((1 ^ 2 + 0 ^ 2) / (1 ^ 2 + 0 ^ 2 + 0 ^ 2)) with 1 by field. rewrite sqrt_1.
  assert (P : 1 <= 10 ^ 13) by (apply pow_R1_Rle; lra). apply (Rmult_le_reg_l (10 ^ 13)); [lra|]. rewrite Rinv_r by lra. lra.
Qed.
(** C34 for circles: always at the given distance, with the weights of the
    circumference; in the plane unless the normal is nearly but not exactly along
    the z axis (also when it is antiparallel). *)
Theorem C34_circle_partial radius gauss x0 n : nonzero n -> 0 <= radius x0 -> rlsum (map snd gauss) = 2 ->
  exists pts w, circle_quadrature radius gauss x0 n = Ok (pts, w) /\ length pts = length gauss /\ length w = length gauss /\
    Forall (fun p => dist p x0 = radius x0) pts /\
    (sine_to_axis n = 0 \/ / 10 ^ 13 <= sine_to_axis n -> Forall (in_plane x0 n) pts) /\
    rlsum w = 2 * PI * radius x0.
Proof.
  intros NZ R0 SW. apply nonzero_norm in NZ. unfold circle_quadrature.
  rewrite (mapM_ok _ (fun x => vplus x0 (vmul (radius x0) (app3 (rotation (vmul (/ norm3 n) n)) x)))) by (intros; apply map_ok; assumption). cbn [bind].
  eexists. eexists. split; [reflexivity|]. rewrite !map_length. split; [reflexivity|]. split; [reflexivity|]. rewrite !map_map. split; [|split].
  - apply Forall_forall. intros p Hp. apply in_map_iff in Hp. destruct Hp as (g & <- & _).
    destruct (map_spec x0 n (radius x0) (cos (PI * fst g)) (sin (PI * fst g)) _ R0 NZ (map_ok _ _ _ _ NZ)) as (D & _). rewrite D, cos_sin_unit. ring.
  - intros S. apply Forall_forall. intros p Hp. apply in_map_iff in Hp. destruct Hp as (g & <- & _).
    destruct (map_spec x0 n (radius x0) (cos (PI * fst g)) (sin (PI * fst g)) _ R0 NZ (map_ok _ _ _ _ NZ)) as (_ & I0 & _). apply I0. exact S.
  - rewrite (rlsum_ext _ (fun g => snd g * (radius x0 * PI))) by (intros; ring). rewrite rlsum_map_mul, SW. ring.
Qed.
(** In the remaining case the points are off the plane by less than the
    tolerance. *)
Theorem C34_circle_tilted_partial radius gauss x0 n pts w : nonzero n -> 0 <= radius x0 -> sine_to_axis n < / 10 ^ 13 ->
  circle_quadrature radius gauss x0 n = Ok (pts, w) ->
  Forall (fun p => Rabs ((vx p - vx x0) * vx n + (vy p - vy x0) * vy n + (vz p - vz x0) * vz n) <= radius x0 * norm3 n * / 10 ^ 13) pts.
Proof.
  intros NZ R0 S. apply nonzero_norm in NZ. unfold circle_quadrature.
  rewrite (mapM_ok _ (fun x => vplus x0 (vmul (radius x0) (app3 (rotation (vmul (/ norm3 n) n)) x)))) by (intros; apply map_ok; assumption). cbn [bind]. intros E.
  assert (EP : pts = map (fun x => vplus x0 (vmul (radius x0) (app3 (rotation (vmul (/ norm3 n) n)) x))) (map (fun g : R * R => V3 (cos (PI * fst g)) (sin (PI * fst g)) 0) gauss)) by congruence. subst pts. clear E.
  apply Forall_forall. intros p Hp. rewrite map_map in Hp. apply in_map_iff in Hp. destruct Hp as (g & <- & _).
  destruct (map_spec x0 n (radius x0) (cos (PI * fst g)) (sin (PI * fst g)) _ R0 NZ (map_ok _ _ _ _ NZ)) as (_ & _ & B). specialize (B S). rewrite cos_sin_unit, Rmult_1_r in B. exact B.
Qed.
(** ... and they really are off the plane: *)
Theorem C34_plane_refuted : exists n, nonzero n /\
  exists p w, circle_quadrature (fun _ => 1) [(0, 2)] (V3 0 0 0) n = Ok ([p], w) /\ ~ in_plane (V3 0 0 0) n p.
Proof.
  set (e := / 10 ^ 14). assert (E0 : 0 < e) by (unfold e; apply Rinv_0_lt_compat, pow_lt; lra).
  exists (V3 e 0 1). assert (NZ : nonzero (V3 e 0 1)) by (right; right; cbn; lra). split; [assumption|]. apply nonzero_norm in NZ.
  eexists. eexists. unfold circle_quadrature. cbn [map mapM]. rewrite map_ok by assumption. cbn [bind]. split; [reflexivity|].
  unfold in_plane. rewrite plane_shift, Rmult_1_l. cbn [fst]. rewrite Rmult_0_r, cos_0, sin_0.
  set (k := norm3 (V3 e 0 1)) in *. set (u := vmul (/ k) (V3 e 0 1)).
  assert (K : k * k = e * e + 1) by (unfold k; rewrite norm3_sq; unfold vdot3; cbn [vx vy vz]; ring).
  assert (K0 : 0 <= k) by apply norm3_nonneg. assert (K1 : 1 <= k) by nra.
  assert (CZ : norm3 (cross ez u) = e / k).
  { unfold norm3. replace (vdot3 _ _) with ((e / k) ^ 2) by (unfold vdot3, cross, ez, u, vmul; cbn [vx vy vz]; field; assumption).
    apply sqrt_pow2. apply Rmult_le_pos; [lra|]. left. apply Rinv_0_lt_compat. lra. }
  assert (L : norm3 (cross ez u) < tol13).
  { rewrite CZ. apply Rle_lt_trans with e.
    - unfold Rdiv. rewrite <- (Rmult_1_r e) at 2. apply Rmult_le_compat_l; [lra|]. rewrite <- Rinv_1. apply Rinv_le_contravar; lra.
    - unfold e, tol13. apply Rinv_lt_contravar; [apply Rmult_lt_0_compat; apply pow_lt; lra|]. apply Rlt_pow; [lra|lia]. }
  intros H.
  assert (G : app3 (rotation u) (V3 1 0 0) = V3 (vz u) (sqrt (1 - vz u ^ 2)) 0).
  { unfold rotation, rotation_axis. destruct (Rlt_dec (norm3 (cross ez u)) tol13) as [_|N]; [|contradiction]. rewrite c_ez.
    apply v3_eq; unfold app3, vdot3, ez; cbn [vx vy vz]; ring. }
  rewrite G in H. unfold vdot3 in H. cbn [vx vy vz] in H. rewrite Rmult_0_l, Rmult_0_r, !Rplus_0_r in H.
  apply Rmult_integral in H. destruct H as [H|H]; [|lra]. unfold u, vmul in H. cbn [vz] in H. rewrite Rmult_1_r in H.
  assert (0 < / k) by (apply Rinv_0_lt_compat; lra). lra.
Qed.
(** Outward unit normals at the points (quadrature_normal). *)
Theorem C34_circle_normals radius gauss x0 n pts w ns : nonzero n -> 0 < radius x0 -> circle_normals radius gauss x0 n = Ok (pts, w, ns) ->
  circle_quadrature radius gauss x0 n = Ok (pts, w) /\
  Forall2 (fun p m => vx p - vx x0 = radius x0 * vx m /\ vy p - vy x0 = radius x0 * vy m /\ vz p - vz x0 = radius x0 * vz m /\ vx m ^ 2 + vy m ^ 2 + vz m ^ 2 = 1) pts ns.
Proof.
  intros NZ R0 E. apply nonzero_norm in NZ. unfold circle_normals in E. unfold circle_quadrature in *.
  rewrite (mapM_ok _ (fun x => vplus x0 (vmul (radius x0) (app3 (rotation (vmul (/ norm3 n) n)) x)))) in * by (intros; apply map_ok; assumption). cbn [bind fst snd] in *.
  assert (H : Forall (fun p => norm3 (vminus p x0) = radius x0) (map (fun x => vplus x0 (vmul (radius x0) (app3 (rotation (vmul (/ norm3 n) n)) x))) (map (fun g : R * R => V3 (cos (PI * fst g)) (sin (PI * fst g)) 0) gauss))).
  { apply Forall_forall. intros p Hp. rewrite map_map in Hp. apply in_map_iff in Hp. destruct Hp as (g & <- & _).
    destruct (map_spec x0 n (radius x0) (cos (PI * fst g)) (sin (PI * fst g)) _ (Rlt_le _ _ R0) NZ (map_ok _ _ _ _ NZ)) as (D & _). rewrite cos_sin_unit, Rmult_1_r in D.
    etransitivity; [|exact D]. clear D. unfold norm3, dist. f_equal. unfold vdot3, vminus. cbn [vx vy vz]. ring. }
  revert E H. generalize (map (fun x => vplus x0 (vmul (radius x0) (app3 (rotation (vmul (/ norm3 n) n)) x))) (map (fun g : R * R => V3 (cos (PI * fst g)) (sin (PI * fst g)) 0) gauss)). intros l E H.
  assert (pts = l) by congruence. assert (ns = map (fun p => vmul (/ norm3 (vminus p x0)) (vminus p x0)) l) by congruence. assert (w = map (fun g : R * R => snd g * radius x0 * PI) gauss) by congruence. subst pts ns w. split; [reflexivity|]. clear E.
  induction H as [|p l Hp Hl IH]; cbn [map]; constructor; [|assumption]. rewrite Hp. unfold vmul, vminus. cbn [vx vy vz].
  assert (S : (vx p - vx x0) * (vx p - vx x0) + (vy p - vy x0) * (vy p - vy x0) + (vz p - vz x0) * (vz p - vz x0) = radius x0 * radius x0).
  { rewrite <- Hp, norm3_sq. reflexivity. }
  repeat split; [field; lra..|].
  replace (_ + _ + _) with (/ radius x0 * / radius x0 * ((vx p - vx x0) * (vx p - vx x0) + (vy p - vy x0) * (vy p - vy x0) + (vz p - vz x0) * (vz p - vz x0))) by ring. rewrite S. field. lra.
Qed.

(** C34 for disks: reference points in the unit disk go to the disk. *)
Theorem C34_disk_partial radius rule x0 n : nonzero n -> 0 <= radius x0 ->
  exists pts w, disk_points radius rule x0 n = Ok (pts, w) /\
    Forall2 (fun g p => dist p x0 = radius x0 * sqrt (fst (fst g) ^ 2 + snd (fst g) ^ 2) /\ (sine_to_axis n = 0 \/ / 10 ^ 13 <= sine_to_axis n -> in_plane x0 n p)) rule pts /\
    rlsum w = radius x0 ^ 2 * rlsum (map snd rule).
Proof.
  intros NZ R0. apply nonzero_norm in NZ. unfold disk_points.
  rewrite (mapM_ok _ (fun x => vplus x0 (vmul (radius x0) (app3 (rotation (vmul (/ norm3 n) n)) x)))) by (intros; apply map_ok; assumption). cbn [bind].
  eexists. eexists. split; [reflexivity|]. rewrite map_map. split.
  - induction rule as [|g rule IH]; [constructor|]. cbn [map]. constructor; [|assumption].
    destruct (map_spec x0 n (radius x0) (fst (fst g)) (snd (fst g)) _ R0 NZ (map_ok _ _ _ _ NZ)) as (D & I0 & _). split; assumption.
  - rewrite rlsum_map_mul. ring.
Qed.

(** C34 for squares. *)
Lemma square_is_square x0 n P : norm3 n <> 0 -> in_plane x0 n P ->
  is_square x0 n P (frame x0 n P 0 1) (frame x0 n P (-1) 0) (frame x0 n P 0 (-1)).
Proof.
  intros NZ PL. assert (EP : P = frame x0 n P 1 0) by (unfold frame; apply v3_eq; unfold vplus, vmul, vminus; cbn [vx vy vz]; ring).
  assert (EX : x0 = frame x0 n P 0 0) by (unfold frame; apply v3_eq; unfold vplus, vmul, vminus; cbn [vx vy vz]; ring).
  assert (D : forall a b c d, dist (frame x0 n P a b) (frame x0 n P c d) = sqrt ((a - c) ^ 2 + (b - d) ^ 2) * dist P x0) by (intros; apply frame_dist; assumption).
  assert (DP : forall a b, dist P (frame x0 n P a b) = sqrt ((1 - a) ^ 2 + (0 - b) ^ 2) * dist P x0) by (intros; rewrite EP at 1; apply D).
  assert (DQ : forall a b, dist (frame x0 n P a b) P = sqrt ((a - 1) ^ 2 + (b - 0) ^ 2) * dist P x0) by (intros; rewrite EP at 2; apply D).
  assert (DX : forall a b, dist (frame x0 n P a b) x0 = sqrt ((a - 0) ^ 2 + (b - 0) ^ 2) * dist P x0) by (intros; rewrite EX at 2; apply D).
  split.
  - repeat apply Forall_cons; [..|apply Forall_nil]; (split; [first [assumption|apply frame_plane; assumption]|]); [reflexivity| | |]; rewrite DX;
      (replace (_ + _) with 1 by ring); rewrite sqrt_1; ring.
  - rewrite DP, DQ, !D. repeat split; f_equal; f_equal; ring.
Qed.
Theorem C34_square P gauss x0 n : nonzero n -> in_plane x0 n (P x0) -> on_interval gauss ->
  exists pts w A B C, square_quadrature P gauss x0 n = Ok (pts, w) /\ is_square x0 n (P x0) A B C /\ length pts = length w /\
    Forall (in_plane x0 n) pts /\ Forall (in_parallelogram (P x0) A C) pts /\ rlsum w = dist (P x0) A ^ 2.
Proof.
  intros NZ PL [GI GW]. apply nonzero_norm in NZ. unfold square_quadrature. rewrite corners_ok by assumption. cbn [bind fst snd].
  assert (B1 : forall t, t = 1 \/ t = -1 -> Rabs t <= 1). { intros t [->| ->]; [rewrite Rabs_R1; lra|]. rewrite Rabs_left; lra. }
  rewrite !square_map_frame by (first [assumption|apply B1; auto]). cbn [bind].
  rewrite (mapM_ok _ (fun xy => frame x0 n (P x0) (- (fst xy + snd xy) / 2) ((fst xy - snd xy) / 2))).
  2:{ intros [x y] H. apply in_prod_iff in H. destruct H as [Hx Hy]. apply in_map_iff in Hx. apply in_map_iff in Hy. destruct Hx as (g & <- & Hg). destruct Hy as (g' & <- & Hg').
      cbn [fst snd]; apply square_map_frame; auto. }
  cbn [bind]. eexists. eexists. exists (frame x0 n (P x0) 0 1), (frame x0 n (P x0) (-1) 0), (frame x0 n (P x0) 0 (-1)). split; [reflexivity|].
  split; [apply square_is_square; assumption|]. split; [rewrite !map_length, !prod_length, !map_length; reflexivity|]. split; [|split].
  - apply Forall_forall. intros p Hp. apply in_map_iff in Hp. destruct Hp as (xy & <- & _). apply frame_plane; assumption.
  - apply Forall_forall. intros p Hp. apply in_map_iff in Hp. destruct Hp as ([x y] & <- & H). apply in_prod_iff in H. destruct H as [Hx Hy]. apply in_map_iff in Hx. apply in_map_iff in Hy. destruct Hx as (g & <- & Hg). destruct Hy as (g' & <- & Hg').
    pose proof (GI g Hg) as A1. pose proof (GI g' Hg') as A2. cbn [fst snd]. exists ((1 + fst g) / 2), ((1 + fst g') / 2).
    assert (forall t, Rabs t <= 1 -> 0 <= (1 + t) / 2 <= 1) as IV. { intros t Ht. apply Rabs_le_between in Ht || (unfold Rabs in Ht; destruct (Rcase_abs t)); lra. }
    split; [apply IV, A1|]. split; [apply IV, A2|]. unfold frame. generalize (cross (vmul (/ norm3 n) n) (vminus (P x0) x0)). intros c. unfold vplus, vmul, vminus. cbn [vx vy vz]. repeat split; field.
  - rewrite rlsum_prod, rlsum_map_mul, GW.
    assert (DD : norm3 (vminus (frame x0 n (P x0) (- (-1 + 1) / 2) ((-1 - 1) / 2)) (frame x0 n (P x0) (- (-1 + -1) / 2) ((-1 - -1) / 2))) = dist (frame x0 n (P x0) (- (-1 + 1) / 2) ((-1 - 1) / 2)) (frame x0 n (P x0) (- (-1 + -1) / 2) ((-1 - -1) / 2))).
    { unfold norm3, dist. f_equal. unfold vdot3, vminus. cbn [vx vy vz]. ring. }
    rewrite DD, frame_dist by assumption. replace (dist (P x0) (frame x0 n (P x0) 0 1)) with (sqrt 2 * dist (P x0) x0) by (symmetry; apply (square_is_square x0 n (P x0) NZ PL)).
    replace ((- (-1 + 1) / 2 - - (-1 + -1) / 2) ^ 2 + ((-1 - 1) / 2 - (-1 - -1) / 2) ^ 2) with 2 by field. field.
Qed.
Theorem C34_square_rim P gauss x0 n : nonzero n -> in_plane x0 n (P x0) -> on_interval gauss ->
  exists pts w A B C, rim_quadrature P gauss x0 n = Ok (pts, w) /\ is_square x0 n (P x0) A B C /\ length pts = length w /\
    Forall (in_plane x0 n) pts /\
    Forall (fun p => on_segment (P x0) A p \/ on_segment A B p \/ on_segment B C p \/ on_segment C (P x0) p) pts /\ rlsum w = 4 * dist (P x0) A.
Proof.
  intros NZ PL [GI GW]. apply nonzero_norm in NZ. unfold rim_quadrature. rewrite corners_ok by assumption. cbn [bind fst snd].
  assert (B1 : Rabs (-1) <= 1) by (rewrite Rabs_left; lra). rewrite rim_map_frame by assumption. cbn [bind nth].
  rewrite (mapM_ok _ (fun x => [frame x0 n (P x0) ((1 - x) / 2) ((1 + x) / 2); frame x0 n (P x0) (- (1 + x) / 2) ((1 - x) / 2); frame x0 n (P x0) (- (1 - x) / 2) (- (1 + x) / 2); frame x0 n (P x0) ((1 + x) / 2) (- (1 - x) / 2)])).
  2:{ intros x Hx. apply in_map_iff in Hx. destruct Hx as (g & <- & Hg). apply rim_map_frame; auto. }
  cbn [bind]. eexists. eexists. exists (frame x0 n (P x0) 0 1), (frame x0 n (P x0) (-1) 0), (frame x0 n (P x0) 0 (-1)). split; [reflexivity|].
  split; [apply square_is_square; assumption|]. split; [|split; [|split]].
  - clear. induction gauss as [|g gauss IH]; [reflexivity|]. cbn [map concat flat_map repeat app length]. rewrite IH. reflexivity.
  - apply Forall_forall. intros p Hp. apply in_concat in Hp. destruct Hp as (l & Hl & Hp). apply in_map_iff in Hl. destruct Hl as (x & <- & _).
    repeat destruct Hp as [<-|Hp]; try destruct Hp; apply frame_plane; assumption.
  - apply Forall_forall. intros p Hp. apply in_concat in Hp. destruct Hp as (l & Hl & Hp). apply in_map_iff in Hl. destruct Hl as (x & <- & Hx). apply in_map_iff in Hx. destruct Hx as (g & <- & Hg).
    assert (IV : 0 <= (1 + fst g) / 2 <= 1). { pose proof (GI g Hg) as Ht. unfold Rabs in Ht. destruct (Rcase_abs (fst g)); lra. }
    unfold frame in *. revert Hp. generalize (cross (vmul (/ norm3 n) n) (vminus (P x0) x0)). intros c Hp.
    destruct Hp as [<-|[<-|[<-|[<-|[]]]]]; [left|right; left|right; right; left|right; right; right]; exists ((1 + fst g) / 2); (split; [exact IV|]); unfold vplus, vmul, vminus; cbn [vx vy vz]; repeat split; field.
  - rewrite rlsum_repeat4, rlsum_map_mul, GW.
    match goal with |- context [norm3 (vminus ?a ?b)] => assert (DD : norm3 (vminus a b) = dist a b) by (unfold norm3, dist; f_equal; unfold vdot3, vminus; cbn [vx vy vz]; ring) end.
    rewrite DD, frame_dist by assumption. replace (dist (P x0) (frame x0 n (P x0) 0 1)) with (sqrt 2 * dist (P x0) x0) by (symmetry; apply (square_is_square x0 n (P x0) NZ PL)).
    replace ((- (1 + -1) / 2 - (1 - -1) / 2) ^ 2 + ((1 - -1) / 2 - (1 + -1) / 2) ^ 2) with 2 by field. field.
Qed.
(** The other corners, also for a point slightly off the plane: P is turned around the axis,
    its distance and its height above the plane stay. *)
Theorem C34_corners x0 n P : nonzero n -> let h := vdot3 (vminus P x0) (vmul (/ norm3 n) n) in
  (Rabs h < / 10 ^ 13 -> exists A C, square_corners x0 n P = Ok (A, C) /\ dist A x0 = dist P x0 /\ dist C x0 = dist P x0 /\
    vdot3 (vminus A x0) (vmul (/ norm3 n) n) = h /\ vdot3 (vminus C x0) (vmul (/ norm3 n) n) = h /\ vdot3 (vminus A x0) (vminus P x0) = h * h /\ vdot3 (vminus C x0) (vminus P x0) = h * h) /\
  (/ 10 ^ 13 <= Rabs h -> square_corners x0 n P = Err AssertionError).
Proof.
  intros NZ. apply nonzero_norm in NZ. pose proof (unit_of n NZ) as U. unfold square_corners. destruct (Req_EM_T (norm3 n) 0); [contradiction|]. cbn zeta. revert U. generalize (vmul (/ norm3 n) n). intros u U.
  assert (T : tol13 = / 10 ^ 13) by (unfold tol13; field || reflexivity). rewrite T. split; intros H.
  - destruct (Rlt_dec _ _) as [_|N]; [|contradiction]. eexists. eexists. split; [reflexivity|]. destruct x0 as [a b c], P as [d e f0], u as [u v w]. unfold dist, vdot3, vminus, vplus, vmul, cross in *. cbn [vx vy vz] in *.
    split; [f_equal; apply Rminus_diag_uniq; transitivity ((u * u + v * v + w * w - 1) * (((d - a) * (d - a) + (e - b) * (e - b) + (f0 - c) * (f0 - c)) + ((d - a) * u + (e - b) * v + (f0 - c) * w) * ((d - a) * u + (e - b) * v + (f0 - c) * w))); [ring | rewrite U; ring] |].
    split; [f_equal; apply Rminus_diag_uniq; transitivity ((u * u + v * v + w * w - 1) * (((d - a) * (d - a) + (e - b) * (e - b) + (f0 - c) * (f0 - c)) + ((d - a) * u + (e - b) * v + (f0 - c) * w) * ((d - a) * u + (e - b) * v + (f0 - c) * w))); [ring | rewrite U; ring] |].
    split; [apply Rminus_diag_uniq; transitivity ((u * u + v * v + w * w - 1) * ((d - a) * u + (e - b) * v + (f0 - c) * w)); [ring | rewrite U; ring] |].
    split; [apply Rminus_diag_uniq; transitivity ((u * u + v * v + w * w - 1) * ((d - a) * u + (e - b) * v + (f0 - c) * w)); [ring | rewrite U; ring] |].
    split; ring.
  - destruct (Rlt_dec _ _) as [N|_]; [exfalso; lra|reflexivity].
Qed.
Print Assumptions C34_corners.
(** A vanishing normal is rejected. *)
Theorem C34_zero_normal radius g gauss x0 : circle_quadrature radius (g :: gauss) x0 (V3 0 0 0) = Err AssertionError.
Proof.
  unfold circle_quadrature. cbn [map mapM]. rewrite map_err; [reflexivity|]. unfold norm3, vdot3. cbn [vx vy vz]. replace (_ + _) with 0 by ring. apply sqrt_0.
Qed.

(** Cases that meet the hypotheses: an antiparallel and a slanted normal. *)
Example C34_hypotheses_met :
  nonzero (V3 0 0 (-2)) /\ sine_to_axis (V3 0 0 (-2)) = 0 /\ / 10 ^ 13 <= sine_to_axis (V3 3 4 0) /\
  on_interval [(- / sqrt 3, 1); (/ sqrt 3, 1)] /\ in_plane (V3 0 0 0) (V3 0 0 2) (V3 (-1) (-1) 0).
Proof.
  split; [right; right; cbn; lra|]. split; [|split; [|split]].
  - unfold sine_to_axis. cbn [vx vy vz]. replace (_ / _) with 0 by field. apply sqrt_0.
  - unfold sine_to_axis. cbn [vx vy vz]. replace (_ / _) with 1 by field. rewrite sqrt_1. rewrite <- Rinv_1. apply Rinv_le_contravar; [lra|]. apply pow_R1_Rle. lra.
  - assert (H : 0 < / sqrt 3 <= 1). { pose proof Rlt_sqrt3_0. split; [apply Rinv_0_lt_compat; assumption|]. rewrite <- Rinv_1. apply Rinv_le_contravar; [lra|]. rewrite <- sqrt_1. apply sqrt_le_1; lra. }
    split; [|cbn; lra]. intros g [<-|[<-|[]]]; cbn [fst]; [rewrite Rabs_Ropp|]; rewrite Rabs_pos_eq; lra.
  - unfold in_plane. cbn [vx vy vz]. ring.
Qed.
Print Assumptions C34_circle_partial.
Print Assumptions C34_plane_refuted.
Print Assumptions C34_square_rim.
Print Assumptions C34_rotation.
