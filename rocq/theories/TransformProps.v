(** C104: the maps of sandbox/transforms.py *)
From Verif Require Import Base BaseProofs ShapeModel TransformModel ShapeProofs ShapeProps TransformProofs.
Local Open Scope R_scope.

(** What the maps are for: the unit circle and the unit disk in z = 0 *)
Definition on_circle (x : v3) : Prop := vz x = 0 /\ dist x (V3 0 0 0) = 1.
Definition in_disk (x : v3) : Prop := vz x = 0 /\ dist x (V3 0 0 0) <= 1.

Lemma dist_origin x : dist x (V3 0 0 0) = norm3 x.
Proof. unfold dist, norm3, vdot3. cbn [vx vy vz]. f_equal. ring. Qed.
Lemma circle_accepts x0 n r x : on_circle x -> circle_map x0 n r x = Ok (match unit3 n with None => None | Some n => match projected x n with None => None | Some y => Some (vplus x0 (vmul r y)) end end).
Proof.
  intros [Z D]. rewrite dist_origin in D. unfold circle_map. pose proof (norm3_sq x) as E. rewrite D in E. rewrite <- E, Z. replace (1 * 1 - 1) with 0 by ring. rewrite Rabs_R0.
  pose proof tol13_pos. destruct (Rlt_dec 0 tol13); [reflexivity | contradiction].
Qed.
Lemma disk_accepts x0 n r x : in_disk x -> disk_map x0 n r x = Ok (match unit3 n with None => None | Some n => match projected x n with None => None | Some y => Some (vplus x0 (vmul (r * norm3 x) y)) end end).
Proof.
  intros [Z D]. rewrite dist_origin in D. unfold disk_map. pose proof (norm3_sq x) as E. pose proof (norm3_nonneg x) as P. pose proof tol13_pos. destruct (Rlt_dec (vdot3 x x) (1 + tol13)) as [_ | N]; [| exfalso; apply N; nra].
  rewrite Z, Rabs_R0. destruct (Rlt_dec 0 tol13); [reflexivity | contradiction].
Qed.

(** Points that are not along the normal go to the circle *)
Theorem C104_circle_partial : forall x0 n r x, nonzero n -> 0 <= r -> on_circle x -> ~ along n x ->
  exists q, circle_map x0 n r x = Ok (Some q) /\ in_plane x0 n q /\ dist q x0 = r.
Proof.
  intros x0 n r x NZ Hr Hx N. apply nonzero_norm in NZ. rewrite circle_accepts by assumption. destruct (unit3_ok n NZ) as [u [-> [Eu U]]].
  destruct (projected_ok u x U) as [y [-> [O Y]]]; [subst u; rewrite along_unit by exact NZ; exact N |]. eexists. split; [reflexivity |]. subst u. split; [apply shifted_plane; assumption | apply shifted_dist; assumption].
Qed.
(** ... but those along it are nan *)
Theorem C104_nan_refuted : forall x0 n r x, nonzero n -> on_circle x -> along n x -> circle_map x0 n r x = Ok None.
Proof.
  intros x0 n r x NZ Hx A. apply nonzero_norm in NZ. rewrite circle_accepts by assumption. destruct (unit3_ok n NZ) as [u [-> [Eu U]]]. rewrite projected_nan; [reflexivity | exact U |]. subst u. apply along_unit; assumption.
Qed.
(** The whole circle is reached exactly if its plane is not perpendicular to z = 0 *)
Theorem C104_onto_partial : forall x0 n r q, vz n <> 0 -> 0 < r -> in_plane x0 n q -> dist q x0 = r ->
  exists x, on_circle x /\ circle_map x0 n r x = Ok (Some q).
Proof.
  intros x0 n r q NZ Hr PL D. assert (N : norm3 n <> 0) by (apply nonzero_norm; right; right; exact NZ). destruct (unit3_ok n N) as [u [Eu [Du U]]].
  set (y := vminus q x0). assert (O : vdot3 y u = 0). { rewrite Du, vmul_vdot. unfold in_plane in PL. unfold vdot3, y, vminus. cbn [vx vy vz]. rewrite PL. ring. }
  assert (L : norm3 y = r). { rewrite <- D. unfold norm3, dist. f_equal. unfold vdot3, y, vminus. cbn [vx vy vz]. ring. }
  assert (P : 0 < vdot3 y y) by (rewrite <- norm3_sq, L; nra).
  assert (UZ : vz u <> 0). { rewrite Du. unfold vmul. cbn [vz]. apply Rmult_integral_contrapositive. split; [apply Rinv_neq_0_compat; exact N | exact NZ]. }
  destruct (preimage u y U UZ O P) as [x [XZ [X1 E]]]. exists x. assert (C : on_circle x) by (split; [exact XZ | rewrite dist_origin; exact X1]). split; [exact C |].
  rewrite circle_accepts by exact C. rewrite Eu, E, L. do 2 f_equal. apply v3_eq; unfold y, vplus, vmul, vminus; cbn [vx vy vz]; field; lra.
Qed.
Theorem C104_onto_refuted : forall x0 n r, nonzero n -> vz n = 0 -> 0 < r ->
  (exists q1 q2, forall x o, on_circle x -> circle_map x0 n r x = Ok o -> o = None \/ o = Some q1 \/ o = Some q2) /\
  let top := V3 (vx x0) (vy x0) (vz x0 + r) in in_plane x0 n top /\ dist top x0 = r /\ forall x, on_circle x -> circle_map x0 n r x <> Ok (Some top).
Proof.
  intros x0 n r NZ Z Hr. assert (N : norm3 n <> 0) by (apply nonzero_norm; exact NZ). destruct (unit3_ok n N) as [u [Eu [Du U]]].
  assert (UZ : vz u = 0) by (rewrite Du; unfold vmul; cbn [vz]; rewrite Z; ring). split.
  - exists (vplus x0 (vmul r (V3 (- vy u) (vx u) 0))), (vplus x0 (vmul r (V3 (vy u) (- vx u) 0))). intros x o C E. rewrite circle_accepts in E by exact C. rewrite Eu in E. destruct C as [XZ _].
    destruct (projected x u) as [y |] eqn:EP; [| left; congruence]. right. destruct (projected_flat u x y U UZ XZ EP) as [_ [-> | ->]]; [left | right]; congruence.
  - cbv zeta. split; [unfold in_plane; cbn [vx vy vz]; rewrite Z; ring |]. split.
    + unfold dist. cbn [vx vy vz]. replace (_ + _ + _) with (r * r) by ring. apply sqrt_square. lra.
    + intros x C E. rewrite circle_accepts in E by exact C. rewrite Eu in E. destruct C as [XZ _]. destruct (projected x u) as [y |] eqn:EP; [| discriminate].
      destruct (projected_flat u x y U UZ XZ EP) as [YZ _]. unfold vplus, vmul in E. rewrite YZ in E. injection E as _ _ V. lra.
Qed.
(** Disks: all points but those along the normal, among them the centre, go to points of the same distance, scaled *)
Theorem C104_disk_partial : forall x0 n r x, nonzero n -> 0 <= r -> in_disk x -> ~ along n x ->
  exists q, disk_map x0 n r x = Ok (Some q) /\ in_plane x0 n q /\ dist q x0 = r * dist x (V3 0 0 0).
Proof.
  intros x0 n r x NZ Hr Hx N. apply nonzero_norm in NZ. rewrite disk_accepts by assumption. destruct (unit3_ok n NZ) as [u [-> [Eu U]]].
  destruct (projected_ok u x U) as [y [-> [O Y]]]; [subst u; rewrite along_unit by exact NZ; exact N |]. eexists. split; [reflexivity |]. subst u. split; [apply shifted_plane; assumption |].
  rewrite dist_origin. apply shifted_dist; [apply Rmult_le_pos; [exact Hr | apply norm3_nonneg] | exact Y].
Qed.
Theorem C104_centre_refuted : forall x0 n r, nonzero n -> in_disk (V3 0 0 0) /\ disk_map x0 n r (V3 0 0 0) = Ok None.
Proof.
  intros x0 n r NZ. assert (D : in_disk (V3 0 0 0)) by (split; [reflexivity |]; unfold dist; cbn [vx vy vz]; replace ((0 - 0) ^ 2 + (0 - 0) ^ 2 + (0 - 0) ^ 2) with 0 by ring; rewrite sqrt_0; lra).
  split; [exact D |]. apply nonzero_norm in NZ. rewrite disk_accepts by exact D. destruct (unit3_ok n NZ) as [u [-> [_ U]]]. rewrite projected_nan; [reflexivity | exact U |]. exists 0. unfold vmul. f_equal; ring.
Qed.
(** Squares: exactly their points, and the rim exactly the points of the four sides *)
Theorem C104_square : forall x0 n P, nonzero n -> in_plane x0 n P -> exists A B C, is_square x0 n P A B C /\
  (forall p, in_parallelogram P A C p <-> exists x y, -1 <= x <= 1 /\ -1 <= y <= 1 /\ square x0 n P (x, y) = Ok p) /\
  (forall p, (on_segment P A p \/ on_segment A B p \/ on_segment B C p \/ on_segment C P p) <-> exists x l, -1 <= x <= 1 /\ rim x0 n P x = Ok l /\ In p l).
Proof.
  intros x0 n P NZ PL. apply nonzero_norm in NZ. exists (frame x0 n P 0 1), (frame x0 n P (-1) 0), (frame x0 n P 0 (-1)). split; [apply square_is_square; assumption |].
  assert (EA : vplus x0 (cross (vmul (/ norm3 n) n) (vminus P x0)) = frame x0 n P 0 1) by (unfold frame; apply v3_eq; unfold vplus, vmul, vminus; cbn [vx vy vz]; ring).
  assert (EC : vminus x0 (cross (vmul (/ norm3 n) n) (vminus P x0)) = frame x0 n P 0 (-1)) by (unfold frame; apply v3_eq; unfold vplus, vmul, vminus; cbn [vx vy vz]; ring).
  assert (AB : forall x, -1 <= x <= 1 -> Rabs x <= 1) by (intros x Hx; apply Rabs_le; exact Hx). split; intros p.
  - unfold square. rewrite corners_ok by assumption. cbn [bind fst snd]. split.
    + intros (s & t & Hs & Ht & Ex & Ey & Ez). exists (2 * s - 1), (2 * t - 1). split; [lra |]. split; [lra |]. rewrite square_map_frame by (first [assumption | apply AB; lra]).
      f_equal. apply v3_eq; [rewrite Ex | rewrite Ey | rewrite Ez]; unfold frame, vplus, vmul, vminus; cbn [vx vy vz]; field.
    + intros (x & y & Hx & Hy & E). rewrite square_map_frame in E by (first [assumption | apply AB; lra]). injection E as <-. exists ((1 + x) / 2), ((1 + y) / 2). split; [lra |]. split; [lra |].
      split; [| split]; unfold frame, vplus, vmul, vminus; cbn [vx vy vz]; field.
  - unfold rim. rewrite corners_ok by assumption. cbn [bind fst snd]. split.
    + intros H. assert (T : exists t, 0 <= t <= 1 /\ In p [frame x0 n P (1 - t) t; frame x0 n P (- t) (1 - t); frame x0 n P (t - 1) (- t); frame x0 n P t (t - 1)]).
      { destruct H as [(t & Ht & Ex & Ey & Ez) | [(t & Ht & Ex & Ey & Ez) | [(t & Ht & Ex & Ey & Ez) | (t & Ht & Ex & Ey & Ez)]]]; exists t; (split; [exact Ht |]); [left | right; left | right; right; left | right; right; right; left];
          symmetry; apply v3_eq; [rewrite Ex | rewrite Ey | rewrite Ez | rewrite Ex | rewrite Ey | rewrite Ez | rewrite Ex | rewrite Ey | rewrite Ez | rewrite Ex | rewrite Ey | rewrite Ez]; unfold frame, vplus, vmul, vminus; cbn [vx vy vz]; ring. }
      destruct T as (t & Ht & I). exists (2 * t - 1). eexists. split; [lra |]. split; [apply rim_map_frame; first [assumption | apply AB; lra] |].
      replace ((1 - (2 * t - 1)) / 2) with (1 - t) by field. replace ((1 + (2 * t - 1)) / 2) with t by field. replace (- (1 + (2 * t - 1)) / 2) with (- t) by field. replace (- (1 - (2 * t - 1)) / 2) with (t - 1) by field. exact I.
    + intros (x & l & Hx & E & I). rewrite rim_map_frame in E by (first [assumption | apply AB; lra]). injection E as <-.
      destruct I as [<- | [<- | [<- | [<- | []]]]]; [left | right; left | right; right; left | right; right; right]; exists ((1 + x) / 2); (split; [lra |]); (split; [| split]); unfold frame, vplus, vmul, vminus; cbn [vx vy vz]; field.
Qed.

(** A skew plane, and the plane x = 1 of the script, which is perpendicular to z = 0 *)
Example C104_ex : nonzero (V3 1 1 1) /\ vz (V3 1 1 1) <> 0 /\ on_circle (V3 (3/5) (4/5) 0) /\ ~ along (V3 1 1 1) (V3 (3/5) (4/5) 0) /\ in_plane (V3 0 0 0) (V3 1 1 1) (V3 1 (-1) 0).
Proof.
  split; [left; cbn; lra |]. split; [cbn; lra |]. split; [| split].
  - split; [reflexivity |]. unfold dist. cbn [vx vy vz]. replace (_ + _ + _) with (1 * 1) by field. apply sqrt_square. lra.
  - intros [a E]. unfold vmul in E. cbn [vx vy vz] in E. injection E as E1 E2 E3. lra.
  - unfold in_plane. cbn [vx vy vz]. ring.
Qed.
Example C104_flat : nonzero (V3 1 0 0) /\ vz (V3 1 0 0) = 0 /\ on_circle (V3 1 0 0) /\ along (V3 1 0 0) (V3 1 0 0).
Proof.
  split; [left; cbn; lra |]. split; [reflexivity |]. split; [split; [reflexivity |]; unfold dist; cbn [vx vy vz]; replace (_ + _ + _) with (1 * 1) by field; apply sqrt_square; lra |].
  exists 1. unfold vmul. cbn [vx vy vz]. f_equal; ring.
Qed.

Print Assumptions C104_circle_partial.
Print Assumptions C104_nan_refuted.
Print Assumptions C104_onto_partial.
Print Assumptions C104_onto_refuted.
Print Assumptions C104_disk_partial.
Print Assumptions C104_centre_refuted.
Print Assumptions C104_square.
