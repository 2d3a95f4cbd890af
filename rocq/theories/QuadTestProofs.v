(** Proofs for QuadTestModel.v. *)
From Coq Require Import ZArith Reals Lra Lia.
From Verif Require Import Base BaseProofs ShapeModel ShapeProofs ShapeProps DiskModel DiskProofs DiskProps QuadTestModel.
Local Open Scope R_scope.

(** ** Specification vocabulary *)
(** The square of the distance. *)
Definition sqdist (p q : v3) : R := (vx p - vx q) ^ 2 + (vy p - vy q) ^ 2 + (vz p - vz q) ^ 2.
(** A rule on [-1, 1] with points in the interval that integrates 1 and t^2, as leggauss(degree) does for degree > 1. *)
Definition integrates_squares (gauss : list (R * R)) : Prop :=
  (forall g, In g gauss -> -1 <= fst g <= 1) /\ fold_right (fun g s => snd g + s) 0 gauss = 2 /\ fold_right (fun g s => snd g * fst g ^ 2 + s) 0 gauss = 2 / 3.
(** The points and tangents of the lines of the tests: x = y = 1/2, and y = z = 1/2. *)
Definition on_I (x0 n : v3) : Prop := exists z h, x0 = V3 (/ 2) (/ 2) z /\ 0 <= z <= 1 /\ n = V3 0 0 h /\ h <> 0.
Definition on_L (x0 n : v3) : Prop := on_I x0 n \/ exists x h, x0 = V3 x (/ 2) (/ 2) /\ / 2 <= x <= 1 /\ n = V3 h 0 0 /\ h <> 0.

(** ** Sums *)
Fixpoint wsum (g : v3 -> R) (pts : list v3) (w : list R) : R :=
  match pts, w with p :: pts', v :: w' => g p * v + wsum g pts' w' | _, _ => 0 end.
Lemma sum_inside_all inside g m pts w : Forall (fun p => inside p = true) pts -> sum_inside inside g m pts w = wsum g pts w / m.
Proof.
  revert w. induction pts as [|p pts IH]; intros [|v w] F; cbn [sum_inside wsum]; try (unfold Rdiv; ring).
  rewrite (Forall_inv F), IH by exact (Forall_inv_tail F). unfold Rdiv. ring.
Qed.
Lemma sum_weights_rlsum w : sum_weights w = rlsum w.
Proof. induction w as [|v w IH]; [reflexivity|]. cbn [sum_weights rlsum]. rewrite IH. reflexivity. Qed.
Lemma wsum_const g c pts w : length pts = length w -> Forall (fun p => g p = c) pts -> wsum g pts w = c * rlsum w.
Proof.
  revert w. induction pts as [|p pts IH]; intros [|v w] L F; try discriminate L; cbn [wsum rlsum]; [ring|].
  rewrite (Forall_inv F), IH; [ring| |exact (Forall_inv_tail F)]. injection L as L. exact L.
Qed.
Lemma average_const inside quadrature g c x0 n pts w : quadrature x0 n = Ok (pts, w) -> length pts = length w ->
  Forall (fun p => inside p = true /\ g p = c) pts -> rlsum w <> 0 -> average inside quadrature g x0 n = Ok c.
Proof.
  intros E L F W. unfold average. rewrite E. cbn [bind fst snd]. f_equal. rewrite sum_inside_all.
  - rewrite sum_weights_rlsum, (wsum_const g c); [field; exact W|exact L|]. eapply Forall_impl; [|exact F]. intros p H. apply H.
  - eapply Forall_impl; [|exact F]. intros p H. apply H.
Qed.
Lemma wsum_app g a b v w : length a = length v -> wsum g (a ++ b) (v ++ w) = wsum g a v + wsum g b w.
Proof.
  revert v. induction a as [|p a IH]; intros [|x v] L; try discriminate L; cbn [app wsum]; [ring|]. rewrite IH by (injection L as L; exact L). ring.
Qed.
Lemma wsum_ext f g pts w : Forall (fun p => f p = g p) pts -> wsum f pts w = wsum g pts w.
Proof.
  revert w. induction pts as [|p pts IH]; intros [|v w] F; cbn [wsum]; try reflexivity. rewrite (Forall_inv F), IH by exact (Forall_inv_tail F). reflexivity.
Qed.

(** ** Distances *)
Lemma sqdist_dist p q : sqdist p q = dist p q ^ 2.
Proof.
  unfold sqdist, dist. rewrite pow2_sqrt; [reflexivity|].
  repeat apply Rplus_le_le_0_compat; apply pow2_ge_0.
Qed.
Lemma dist_nonneg p q : 0 <= dist p q.
Proof. apply sqrt_pos. Qed.
Lemma frame_sqdist x0 n P a b : norm3 n <> 0 -> in_plane x0 n P -> sqdist (frame x0 n P a b) x0 = (a ^ 2 + b ^ 2) * sqdist P x0.
Proof.
  intros NZ PL. assert (EX : x0 = frame x0 n P 0 0) by (unfold frame; apply v3_eq; unfold vplus, vmul, vminus; cbn [vx vy vz]; ring).
  rewrite !sqdist_dist. rewrite EX at 2. rewrite frame_dist by assumption. rewrite Rpow_mult_distr. f_equal.
  rewrite pow2_sqrt; [ring|]. apply Rplus_le_le_0_compat; apply pow2_ge_0.
Qed.
Lemma dist_le_sq p q r : 0 <= r -> sqdist p q <= r ^ 2 -> dist p q <= r.
Proof.
  intros R0 H. rewrite sqdist_dist in H. pose proof (dist_nonneg p q). nra.
Qed.

(** ** Circles *)
Lemma circle_average inside radius gauss g c x0 n : nonzero n -> 0 < radius x0 -> fold_right (fun g s => snd g + s) 0 gauss = 2 ->
  (forall p, dist p x0 = radius x0 -> (sine_to_axis n = 0 \/ / 10 ^ 13 <= sine_to_axis n -> in_plane x0 n p) -> inside p = true /\ g p = c) ->
  average inside (circle_quadrature radius gauss) g x0 n = Ok c.
Proof.
  intros NZ R0 W H. assert (W' : rlsum (map snd gauss) = 2) by (rewrite <- W; clear; induction gauss as [|x l IH]; [reflexivity|cbn [map rlsum fold_right]; rewrite IH; reflexivity]).
  destruct (C34_circle_partial radius gauss x0 n NZ (Rlt_le _ _ R0) W') as (pts & w & E & L1 & L2 & D & PL & S).
  apply (average_const inside _ g c x0 n pts w E); [congruence| |].
  - rewrite Forall_forall in D |- *. intros p Hp. apply H; [apply D, Hp|]. intros A. specialize (PL A). rewrite Forall_forall in PL. apply PL, Hp.
  - rewrite S. pose proof PI_RGT_0. apply Rgt_not_eq. apply Rmult_gt_0_compat; [lra|exact R0].
Qed.

(** ** Squares *)
Lemma moments gauss : integrates_squares gauss -> on_interval gauss /\ rlsum (map (fun g => snd g * fst g ^ 2) gauss) = 2 / 3.
Proof.
  intros (I & W & S). split; [split|].
  - intros g Hg. apply Rabs_le, I, Hg.
  - rewrite <- W. clear. induction gauss as [|x l IH]; [reflexivity|cbn [map rlsum fold_right]; rewrite IH; reflexivity].
  - rewrite <- S. clear. induction gauss as [|x l IH]; [reflexivity|cbn [map rlsum fold_right]; rewrite IH; reflexivity].
Qed.
Lemma rlsum_plus {A} (f g : A -> R) l : rlsum (map (fun x => f x + g x) l) = rlsum (map f l) + rlsum (map g l).
Proof. induction l as [|x l IH]; cbn [map rlsum]; [ring|]. rewrite IH. ring. Qed.
Lemma interval_sq t : -1 <= t <= 1 -> 0 <= t ^ 2 <= 1.
Proof. intros. split; nra. Qed.
Lemma rim_wsum g k D x0 n P c gauss : norm3 n <> 0 -> in_plane x0 n P -> D = sqdist P x0 -> (forall p, in_plane x0 n p -> g p = k * sqdist p x0) ->
  wsum g (concat (map (fun x => [frame x0 n P ((1 - x) / 2) ((1 + x) / 2); frame x0 n P (- (1 + x) / 2) ((1 - x) / 2); frame x0 n P (- (1 - x) / 2) (- (1 + x) / 2); frame x0 n P ((1 + x) / 2) (- (1 - x) / 2)]) (map fst gauss)))
    (flat_map (fun g => repeat (snd g * c) 4) gauss) = rlsum (map (fun g => (snd g + snd g * fst g ^ 2)) gauss) * (2 * c * k * D).
Proof.
  intros NZ PL -> G. induction gauss as [|[t w] gauss IH]; [cbn; ring|].
  cbn [map concat flat_map]. rewrite wsum_app by reflexivity. rewrite IH. cbn [fst snd repeat wsum rlsum]. rewrite !G by (apply frame_plane; assumption). rewrite !frame_sqdist by assumption. field.
Qed.
Lemma rim_average inside P gauss g k x0 n : nonzero n -> in_plane x0 n (P x0) -> P x0 <> x0 -> integrates_squares gauss ->
  (forall p, in_plane x0 n p -> sqdist p x0 <= sqdist (P x0) x0 -> inside p = true) -> (forall p, in_plane x0 n p -> g p = k * sqdist p x0) ->
  average inside (rim_quadrature P gauss) g x0 n = Ok (k * (2 / 3 * sqdist (P x0) x0)).
Proof.
  intros NZ PL NE GS IN G. destruct (moments gauss GS) as [[GI GW] GM]. destruct GS as (GB & _ & _). apply nonzero_norm in NZ.
  assert (DN : sqdist (P x0) x0 <> 0).
  { intros E. apply NE. unfold sqdist in E. pose proof (pow2_ge_0 (vx (P x0) - vx x0)). pose proof (pow2_ge_0 (vy (P x0) - vy x0)). pose proof (pow2_ge_0 (vz (P x0) - vz x0)).
    apply v3_eq; apply Rminus_diag_uniq; nra. }
  unfold average, rim_quadrature. rewrite corners_ok by assumption. cbn [bind fst snd].
  assert (B1 : Rabs (-1) <= 1) by (rewrite Rabs_left; lra). rewrite rim_map_frame by assumption. cbn [bind nth].
  rewrite (mapM_ok _ (fun x => [frame x0 n (P x0) ((1 - x) / 2) ((1 + x) / 2); frame x0 n (P x0) (- (1 + x) / 2) ((1 - x) / 2); frame x0 n (P x0) (- (1 - x) / 2) (- (1 + x) / 2); frame x0 n (P x0) ((1 + x) / 2) (- (1 - x) / 2)])).
  2:{ intros x Hx. apply in_map_iff in Hx. destruct Hx as (g0 & <- & Hg). apply rim_map_frame; auto. }
  cbn [bind fst snd]. f_equal.
  match goal with |- context [norm3 (vminus ?a ?b)] => assert (DD : norm3 (vminus a b) = dist a b) by (unfold norm3, dist; f_equal; unfold vdot3, vminus; cbn [vx vy vz]; ring) end.
  rewrite DD, frame_dist by assumption.
  replace ((- (1 + -1) / 2 - (1 - -1) / 2) ^ 2 + ((1 - -1) / 2 - (1 + -1) / 2) ^ 2) with 2 by field.
  assert (SP : 0 < sqrt 2 * dist (P x0) x0).
  { apply Rmult_lt_0_compat; [apply Rlt_sqrt2_0|]. rewrite sqdist_dist in DN. destruct (dist_nonneg (P x0) x0) as [?|E]; [assumption|]. exfalso. apply DN. rewrite <- E. ring. }
  rewrite sum_inside_all.
  - rewrite (rim_wsum g k (sqdist (P x0) x0)) by (assumption || reflexivity). change sum_weights with rlsum. rewrite rlsum_repeat4, rlsum_map_mul, GW. rewrite (rlsum_plus snd (fun g0 => snd g0 * fst g0 ^ 2)), GW, GM. field. split; intros Z; rewrite Z in SP; lra.
  - apply Forall_forall. intros p Hp. apply in_concat in Hp. destruct Hp as (l & Hl & Hp). apply in_map_iff in Hl. destruct Hl as (x & <- & Hx). apply in_map_iff in Hx. destruct Hx as (g0 & <- & Hg).
    pose proof (interval_sq _ (GB g0 Hg)) as I. pose proof (GB g0 Hg) as I1.
    assert (DP : 0 <= sqdist (P x0) x0) by (rewrite sqdist_dist; apply pow2_ge_0).
    repeat destruct Hp as [<-|Hp]; try destruct Hp; (apply IN; [apply frame_plane; assumption|]); rewrite frame_sqdist by assumption; rewrite <- (Rmult_1_l (sqdist (P x0) x0)) at 2; apply Rmult_le_compat_r; try exact DP; nra.
Qed.
Lemma rlsum_prod2 (f : R * R -> R) (h : R * R -> R * R -> R) l l' : (forall a, In a l -> rlsum (map (h a) l') = f a) -> rlsum (map (fun ab => h (fst ab) (snd ab)) (list_prod l l')) = rlsum (map f l).
Proof.
  induction l as [|a l IH]; intros H; [reflexivity|]. cbn [list_prod map rlsum]. rewrite map_app, rlsum_app, map_map, IH by (intros; apply H; right; assumption). cbn [fst snd]. f_equal. exact (H a (or_introl eq_refl)).
Qed.
Lemma list_prod_map {A B C D} (f : A -> C) (g : B -> D) l l' : list_prod (map f l) (map g l') = map (fun ab => (f (fst ab), g (snd ab))) (list_prod l l').
Proof.
  induction l as [|a l IH]; [reflexivity|]. cbn [list_prod map]. rewrite map_app, IH, !map_map. reflexivity.
Qed.
Lemma wsum_map {A} g (f : A -> v3) (v : A -> R) l : wsum g (map f l) (map v l) = rlsum (map (fun a => g (f a) * v a) l).
Proof. induction l as [|a l IH]; [reflexivity|]. cbn [map wsum rlsum]. rewrite IH. reflexivity. Qed.
Lemma square_average inside P gauss g k x0 n : nonzero n -> in_plane x0 n (P x0) -> P x0 <> x0 -> integrates_squares gauss ->
  (forall p, in_plane x0 n p -> sqdist p x0 <= sqdist (P x0) x0 -> inside p = true) -> (forall p, in_plane x0 n p -> g p = k * sqdist p x0) ->
  average inside (square_quadrature P gauss) g x0 n = Ok (k * (1 / 3 * sqdist (P x0) x0)).
Proof.
  intros NZ PL NE GS IN G. destruct (moments gauss GS) as [[GI GW] GM]. destruct GS as (GB & _ & _). apply nonzero_norm in NZ.
  assert (DN : sqdist (P x0) x0 <> 0).
  { intros E. apply NE. unfold sqdist in E. pose proof (pow2_ge_0 (vx (P x0) - vx x0)). pose proof (pow2_ge_0 (vy (P x0) - vy x0)). pose proof (pow2_ge_0 (vz (P x0) - vz x0)).
    apply v3_eq; apply Rminus_diag_uniq; nra. }
  unfold average, square_quadrature. rewrite corners_ok by assumption. cbn [bind fst snd].
  assert (B1 : forall t, t = 1 \/ t = -1 -> Rabs t <= 1). { intros t [->| ->]; [rewrite Rabs_R1; lra|]. rewrite Rabs_left; lra. }
  rewrite !square_map_frame by (first [assumption|apply B1; auto]). cbn [bind].
  rewrite (mapM_ok _ (fun xy => frame x0 n (P x0) (- (fst xy + snd xy) / 2) ((fst xy - snd xy) / 2))).
  2:{ intros [x y] H. apply in_prod_iff in H. destruct H as [Hx Hy]. apply in_map_iff in Hx. apply in_map_iff in Hy. destruct Hx as (g0 & <- & Hg). destruct Hy as (g' & <- & Hg').
      cbn [fst snd]; apply square_map_frame; auto. }
  cbn [bind fst snd]. f_equal.
  match goal with |- context [norm3 (vminus ?a ?b)] => assert (DD : norm3 (vminus a b) = dist a b) by (unfold norm3, dist; f_equal; unfold vdot3, vminus; cbn [vx vy vz]; ring) end.
  rewrite DD, frame_dist by assumption.
  replace ((- (-1 + 1) / 2 - - (-1 + -1) / 2) ^ 2 + ((-1 - 1) / 2 - (-1 - -1) / 2) ^ 2) with 2 by field.
  assert (SP : 0 < sqrt 2 * dist (P x0) x0).
  { apply Rmult_lt_0_compat; [apply Rlt_sqrt2_0|]. rewrite sqdist_dist in DN. destruct (dist_nonneg (P x0) x0) as [?|E]; [assumption|]. exfalso. apply DN. rewrite <- E. ring. }
  set (c := / 2 * (sqrt 2 * dist (P x0) x0)) in *. assert (CP : c <> 0) by (unfold c; lra).
  rewrite sum_inside_all.
  - change sum_weights with rlsum. rewrite rlsum_prod, rlsum_map_mul, GW. rewrite !list_prod_map, !map_map, wsum_map.
    pose proof (rlsum_prod2 (fun a => (snd a * fst a ^ 2 + snd a * (1 / 3)) * (c * c * k * sqdist (P x0) x0))
      (fun a b => g (frame x0 n (P x0) (- (fst a + fst b) / 2) ((fst a - fst b) / 2)) * (snd a * c * (snd b * c))) gauss gauss) as S2. cbn beta in S2.
    cbn [fst snd]. rewrite S2.
    + rewrite rlsum_map_mul, (rlsum_plus (fun a => snd a * fst a ^ 2) (fun a => snd a * (1 / 3))), GM, rlsum_map_mul, GW. field. exact CP.
    + intros a _. rewrite (rlsum_ext _ (fun b => (snd b * fst a ^ 2 + snd b * fst b ^ 2) * (snd a * c * c * k * sqdist (P x0) x0 / 2))).
      * rewrite rlsum_map_mul, (rlsum_plus (fun b => snd b * fst a ^ 2) (fun b => snd b * fst b ^ 2)), rlsum_map_mul, GW, GM. field.
      * intros b. rewrite G by (apply frame_plane; assumption). rewrite frame_sqdist by assumption. field.
  - apply Forall_forall. intros p Hp. apply in_map_iff in Hp. destruct Hp as ([x y] & <- & H). apply in_prod_iff in H. destruct H as [Hx Hy]. apply in_map_iff in Hx. apply in_map_iff in Hy. destruct Hx as (g0 & <- & Hg). destruct Hy as (g' & <- & Hg').
    pose proof (interval_sq _ (GB g0 Hg)) as I. pose proof (interval_sq _ (GB g' Hg')) as I'.
    assert (DP : 0 <= sqdist (P x0) x0) by (rewrite sqdist_dist; apply pow2_ge_0). cbn [fst snd].
    apply IN; [apply frame_plane; assumption|]. rewrite frame_sqdist by assumption. rewrite <- (Rmult_1_l (sqdist (P x0) x0)) at 2. apply Rmult_le_compat_r; try exact DP. nra.
Qed.

(** ** Disks *)
Fixpoint disk_sum (b : Z * Z -> bool) (val : Z * Z -> R) (pts : list (Z * Z)) (ws : list Z) : R :=
  match pts, ws with p :: pts', w :: ws' => (if b p then val p * dec w else 0) + disk_sum b val pts' ws' | _, _ => 0 end.
Definition disk_point (x0 n : v3) (r : R) (xy : Z * Z) : v3 := vplus x0 (vmul r (app3 (rotation (vmul (/ norm3 n) n)) (V3 (dec (fst xy)) (dec (snd xy)) 0))).
Lemma disk_sum_inside inside g m c x0 n r b val pts ws : length pts = length ws -> (forall p, In p pts -> inside (disk_point x0 n r p) = b p) ->
  (forall p, In p pts -> b p = true -> g (disk_point x0 n r p) = val p) ->
  sum_inside inside g m (map (fun e => disk_point x0 n r (fst e)) (combine pts ws)) (map (fun e => dec (snd e) * c) (combine pts ws)) = disk_sum b val pts ws * c / m.
Proof.
  revert ws. induction pts as [|p pts IH]; intros [|w ws] L B V; try discriminate L; cbn [combine map sum_inside disk_sum fst snd]; [unfold Rdiv; ring|].
  rewrite (B p) by (left; reflexivity). rewrite IH; [|injection L as L; exact L|intros; apply B; right; assumption|intros; apply V; [right; assumption|assumption]].
  destruct (b p) eqn:E; [rewrite V by (exact E || (left; reflexivity))|]; unfold Rdiv; ring.
Qed.
Lemma weights_moment c pts ws : length pts = length ws -> sum_weights (map (fun e : Z * Z * Z => dec (snd e) * c) (combine pts ws)) = moment_of 0 0 pts ws * c.
Proof.
  revert ws. induction pts as [|p pts IH]; intros [|w ws] L; try discriminate L; cbn [combine map sum_weights moment_of fst snd pow]; [ring|]. rewrite IH by (injection L as L; exact L). ring.
Qed.
Lemma quadrature_lengths degree pts ws : disk_quadrature degree = Ok (pts, ws) -> length pts = length ws.
Proof.
  unfold disk_quadrature. destruct (template (adjust degree)) as [data|]; [|discriminate]. cbn [bind]. unfold from_template.
  destruct (mapM expand data) as [l|] eqn:M; [|discriminate]. cbn [bind]. intros E. injection E as <- <-. apply mapM_ok_forall in M.
  induction M as [|a b data l _ _ IH]; [reflexivity|]. cbn [concat combine flat_map fst snd]. rewrite !app_length, repeat_length, IH. reflexivity.
Qed.
Lemma disk_average degree inside radius g b val x0 n pts ws : disk_quadrature degree = Ok (pts, ws) -> nonzero n -> 0 < radius x0 ->
  (forall p, In p pts -> inside (disk_point x0 n (radius x0) p) = b p) -> (forall p, In p pts -> b p = true -> g (disk_point x0 n (radius x0) p) = val p) ->
  average inside (disk_shape radius degree) g x0 n = Ok (disk_sum b val pts ws / moment_of 0 0 pts ws).
Proof.
  intros E NZ R0 B V. apply nonzero_norm in NZ. pose proof (quadrature_lengths degree pts ws E) as L. unfold average, disk_shape, disk_rule. rewrite E. cbn [bind fst snd].
  unfold disk_points. rewrite (mapM_ok _ (fun x => vplus x0 (vmul (radius x0) (app3 (rotation (vmul (/ norm3 n) n)) x)))) by (intros; apply map_ok; assumption). cbn [bind fst snd].
  rewrite !map_map. cbn [fst snd]. f_equal.
  change (fun x : Z * Z * Z => vplus x0 (vmul (radius x0) (app3 (rotation (vmul (/ norm3 n) n)) (V3 (decimal (fst (fst x))) (decimal (snd (fst x))) 0)))) with (fun e : Z * Z * Z => disk_point x0 n (radius x0) (fst e)).
  change (fun x : Z * Z * Z => decimal (snd x) * radius x0 ^ 2) with (fun e : Z * Z * Z => dec (snd e) * radius x0 ^ 2).
  rewrite (disk_sum_inside inside g _ _ x0 n (radius x0) b val) by assumption. rewrite weights_moment by exact L.
  assert (P : radius x0 ^ 2 <> 0) by (apply pow_nonzero; lra). unfold Rdiv. rewrite Rinv_mult. rewrite (Rmult_comm (/ moment_of 0 0 pts ws)), <- !Rmult_assoc, (Rmult_assoc _ (radius x0 ^ 2) (/ radius x0 ^ 2)), Rinv_r by exact P. ring.
Qed.
Lemma disk_sum_squares k pts ws : disk_sum (fun _ => true) (fun p => k * (dec (fst p) ^ 2 + dec (snd p) ^ 2)) pts ws = k * (moment_of 2 0 pts ws + moment_of 0 2 pts ws).
Proof.
  revert ws. induction pts as [|p pts IH]; intros [|w ws]; cbn [disk_sum moment_of]; try ring. rewrite IH. ring.
Qed.
Lemma disk_point_sqdist x0 n r p : nonzero n -> 0 <= r -> sqdist (disk_point x0 n r p) x0 = r ^ 2 * (dec (fst p) ^ 2 + dec (snd p) ^ 2).
Proof.
  intros NZ R0. apply nonzero_norm in NZ. destruct (map_spec x0 n r (dec (fst p)) (dec (snd p)) _ R0 NZ (map_ok _ _ _ _ NZ)) as (D & _). rewrite sqdist_dist. unfold disk_point. rewrite D, Rpow_mult_distr, pow2_sqrt; [reflexivity|].
  apply Rplus_le_le_0_compat; apply pow2_ge_0.
Qed.
Lemma disk_point_plane x0 n r p : nonzero n -> 0 <= r -> sine_to_axis n = 0 \/ / 10 ^ 13 <= sine_to_axis n -> in_plane x0 n (disk_point x0 n r p).
Proof.
  intros NZ R0 A. apply nonzero_norm in NZ. destruct (map_spec x0 n r (dec (fst p)) (dec (snd p)) _ R0 NZ (map_ok _ _ _ _ NZ)) as (_ & D & _). apply D, A.
Qed.

(** ** The lines *)
Lemma I_axis x0 n : on_I x0 n -> nonzero n /\ sine_to_axis n = 0.
Proof.
  intros (z & h & -> & _ & -> & H). split; [right; right; exact H|]. unfold sine_to_axis. cbn [vx vy vz]. replace (_ / _) with 0 by (field; nra). apply sqrt_0.
Qed.
Lemma L_axis x0 n : on_L x0 n -> nonzero n /\ (sine_to_axis n = 0 \/ / 10 ^ 13 <= sine_to_axis n).
Proof.
  intros [I|(x & h & -> & _ & -> & H)]; [destruct (I_axis x0 n I) as [A B]; split; [exact A|left; exact B]|].
  split; [left; exact H|right]. unfold sine_to_axis. cbn [vx vy vz]. replace (_ / _) with 1 by (field; nra). rewrite sqrt_1. rewrite <- Rinv_1. apply Rinv_le_contravar; [lra|]. apply pow_R1_Rle. lra.
Qed.
Lemma unit_interval_true t : 0 <= t <= 1 -> unit_interval t = true.
Proof. intros H. unfold unit_interval. destruct (Rle_dec 0 t); [|lra]. destruct (Rle_dec t 1); [reflexivity|lra]. Qed.
Lemma half_bound a b c : 0 <= b -> 0 <= c -> a ^ 2 + b + c <= (/ 2) ^ 2 -> - / 2 <= a <= / 2.
Proof. intros. split; nra. Qed.
Lemma L_inside x0 n p : on_L x0 n -> in_plane x0 n p -> sqdist p x0 <= (/ 2) ^ 2 -> in_cube p = true.
Proof.
  intros L PL D. unfold sqdist in D. pose proof (pow2_ge_0 (vx p - vx x0)) as X. pose proof (pow2_ge_0 (vy p - vy x0)) as Y. pose proof (pow2_ge_0 (vz p - vz x0)) as Z.
  assert (BX : - / 2 <= vx p - vx x0 <= / 2) by (apply (half_bound _ _ _ Y Z); lra).
  assert (BY : - / 2 <= vy p - vy x0 <= / 2) by (apply (half_bound _ _ _ X Z); lra).
  assert (BZ : - / 2 <= vz p - vz x0 <= / 2) by (apply (half_bound _ _ _ X Y); lra).
  unfold in_cube, in_plane in *. destruct L as [(z & h & -> & HZ & -> & H)|(x & h & -> & HX & -> & H)]; cbn [vx vy vz] in *.
  - assert (E : vz p - z = 0) by (apply (Rmult_eq_reg_r h); [lra|exact H]). rewrite !unit_interval_true by lra. reflexivity.
  - assert (E : vx p - x = 0) by (apply (Rmult_eq_reg_r h); [lra|exact H]). rewrite !unit_interval_true by lra. reflexivity.
Qed.
Lemma I_plane x0 n p : on_I x0 n -> in_plane x0 n p -> vz p = vz x0 /\ f_foo p = vz x0 * sqdist p x0.
Proof.
  intros (z & h & -> & _ & -> & H) PL. unfold in_plane in PL. cbn [vx vy vz] in *. assert (E : vz p - z = 0) by (apply (Rmult_eq_reg_r h); [lra|exact H]).
  split; [lra|]. unfold f_foo, sqdist. cbn [vx vy vz]. rewrite E. replace (vz p) with z by lra. ring.
Qed.

(** ** Constants on squares *)
Lemma rim_constant inside P gauss g c x0 n : nonzero n -> in_plane x0 n (P x0) -> P x0 <> x0 -> integrates_squares gauss ->
  (forall p, in_plane x0 n p -> sqdist p x0 <= sqdist (P x0) x0 -> inside p = true) -> (forall p, in_plane x0 n p -> g p = c) ->
  average inside (rim_quadrature P gauss) g x0 n = Ok c.
Proof.
  intros NZ PL NE GS IN G. destruct (moments gauss GS) as [[GI GW] GM]. destruct GS as (GB & _ & _).
  destruct (C34_square_rim P gauss x0 n NZ PL (conj GI GW)) as (pts & w & A & B & C & E & SQ & L & PP & _ & S).
  apply (average_const inside _ g c x0 n pts w E L).
  - apply Forall_forall. intros p Hp. rewrite Forall_forall in PP. split; [|apply G, PP, Hp].
    apply nonzero_norm in NZ. unfold rim_quadrature in E. rewrite corners_ok in E by assumption. cbn [bind fst snd] in E.
    assert (B1 : Rabs (-1) <= 1) by (rewrite Rabs_left; lra). rewrite rim_map_frame in E by assumption. cbn [bind nth] in E.
    rewrite (mapM_ok _ (fun x => [frame x0 n (P x0) ((1 - x) / 2) ((1 + x) / 2); frame x0 n (P x0) (- (1 + x) / 2) ((1 - x) / 2); frame x0 n (P x0) (- (1 - x) / 2) (- (1 + x) / 2); frame x0 n (P x0) ((1 + x) / 2) (- (1 - x) / 2)])) in E.
    2:{ intros x Hx. apply in_map_iff in Hx. destruct Hx as (g0 & <- & Hg). apply rim_map_frame; auto. }
    cbn [bind] in E. injection E as <- _. apply in_concat in Hp. destruct Hp as (l & Hl & Hp). apply in_map_iff in Hl. destruct Hl as (x & <- & Hx). apply in_map_iff in Hx. destruct Hx as (g0 & <- & Hg).
    pose proof (interval_sq _ (GB g0 Hg)) as I. assert (DP : 0 <= sqdist (P x0) x0) by (rewrite sqdist_dist; apply pow2_ge_0).
    repeat destruct Hp as [<-|Hp]; try destruct Hp; (apply IN; [apply frame_plane; assumption|]); rewrite frame_sqdist by assumption; rewrite <- (Rmult_1_l (sqdist (P x0) x0)) at 2; apply Rmult_le_compat_r; try exact DP; nra.
  - rewrite S. destruct SQ as (_ & SP & _). rewrite SP. intros Z. apply NE. pose proof Rlt_sqrt2_0 as S2.
    assert (D0 : dist (P x0) x0 = 0) by (apply (Rmult_eq_reg_l (4 * sqrt 2)); [lra|lra]).
    assert (E0 : sqdist (P x0) x0 = 0) by (rewrite sqdist_dist, D0; ring). unfold sqdist in E0. pose proof (pow2_ge_0 (vx (P x0) - vx x0)). pose proof (pow2_ge_0 (vy (P x0) - vy x0)). pose proof (pow2_ge_0 (vz (P x0) - vz x0)).
    apply v3_eq; apply Rminus_diag_uniq; nra.
Qed.
Lemma square_constant inside P gauss g c x0 n : nonzero n -> in_plane x0 n (P x0) -> P x0 <> x0 -> integrates_squares gauss ->
  (forall p, in_plane x0 n p -> sqdist p x0 <= sqdist (P x0) x0 -> inside p = true) -> (forall p, in_plane x0 n p -> g p = c) ->
  average inside (square_quadrature P gauss) g x0 n = Ok c.
Proof.
  intros NZ PL NE GS IN G. destruct (moments gauss GS) as [[GI GW] GM]. destruct GS as (GB & _ & _).
  destruct (C34_square P gauss x0 n NZ PL (conj GI GW)) as (pts & w & A & B & C & E & SQ & L & PP & _ & S).
  apply (average_const inside _ g c x0 n pts w E L).
  - apply Forall_forall. intros p Hp. rewrite Forall_forall in PP. split; [|apply G, PP, Hp].
    apply nonzero_norm in NZ. unfold square_quadrature in E. rewrite corners_ok in E by assumption. cbn [bind fst snd] in E.
    assert (B1 : forall t, t = 1 \/ t = -1 -> Rabs t <= 1). { intros t [->| ->]; [rewrite Rabs_R1; lra|]. rewrite Rabs_left; lra. }
    rewrite !square_map_frame in E by (first [assumption|apply B1; auto]). cbn [bind] in E.
    rewrite (mapM_ok _ (fun xy => frame x0 n (P x0) (- (fst xy + snd xy) / 2) ((fst xy - snd xy) / 2))) in E.
    2:{ intros [x y] H. apply in_prod_iff in H. destruct H as [Hx Hy]. apply in_map_iff in Hx. apply in_map_iff in Hy. destruct Hx as (g0 & <- & Hg). destruct Hy as (g' & <- & Hg').
        cbn [fst snd]; apply square_map_frame; auto. }
    cbn [bind] in E. injection E as <- _. apply in_map_iff in Hp. destruct Hp as ([x y] & <- & H). apply in_prod_iff in H. destruct H as [Hx Hy]. apply in_map_iff in Hx. apply in_map_iff in Hy. destruct Hx as (g0 & <- & Hg). destruct Hy as (g' & <- & Hg').
    pose proof (interval_sq _ (GB g0 Hg)) as I. pose proof (interval_sq _ (GB g' Hg')) as I'.
    assert (DP : 0 <= sqdist (P x0) x0) by (rewrite sqdist_dist; apply pow2_ge_0). cbn [fst snd].
    apply IN; [apply frame_plane; assumption|]. rewrite frame_sqdist by assumption. rewrite <- (Rmult_1_l (sqdist (P x0) x0)) at 2. apply Rmult_le_compat_r; try exact DP. nra.
  - rewrite S. destruct SQ as (_ & SP & _). rewrite SP. intros Z. apply NE. pose proof Rlt_sqrt2_0 as S2.
    assert (D0 : dist (P x0) x0 = 0). { apply (Rmult_eq_reg_l (sqrt 2)); [|lra]. rewrite Rmult_0_r. cbn [pow] in Z. rewrite Rmult_1_r in Z. apply Rmult_integral in Z. tauto. }
    assert (E0 : sqdist (P x0) x0 = 0) by (rewrite sqdist_dist, D0; ring). unfold sqdist in E0. pose proof (pow2_ge_0 (vx (P x0) - vx x0)). pose proof (pow2_ge_0 (vy (P x0) - vy x0)). pose proof (pow2_ge_0 (vz (P x0) - vz x0)).
    apply v3_eq; apply Rminus_diag_uniq; nra.
Qed.

(** ** The disk of degree 10 on the line *)
Lemma I_rotation x0 n : on_I x0 n -> exists s, (s = 1 \/ s = -1) /\ forall a b, app3 (rotation (vmul (/ norm3 n) n)) (V3 a b 0) = V3 (s * a) (s * b) 0.
Proof.
  intros (z & h & -> & _ & -> & H).
  assert (N : norm3 (V3 0 0 h) = Rabs h) by (unfold norm3, vdot3; cbn [vx vy vz]; replace (_ + _) with (h²) by (unfold Rsqr; ring); apply sqrt_Rsqr_abs).
  rewrite N. assert (U : exists s, (s = 1 \/ s = -1) /\ / Rabs h * h = s).
  { destruct (Rcase_abs h) as [L|G].
    - exists (-1). split; [right; reflexivity|]. rewrite Rabs_left by exact L. field. exact H.
    - exists 1. split; [left; reflexivity|]. rewrite Rabs_right by exact G. field. exact H. }
  destruct U as (s & S & E). exists s. split; [exact S|]. intros a b. unfold vmul. cbn [vx vy vz]. rewrite !Rmult_0_r, E.
  unfold rotation, rotation_axis. assert (C : norm3 (cross ez (V3 0 0 s)) = 0).
  { unfold norm3, vdot3, cross, ez. cbn [vx vy vz]. replace (_ + _) with 0 by ring. apply sqrt_0. }
  rewrite C. destruct (Rlt_dec 0 tol13) as [_|F]; [|exfalso; apply F, tol13_pos].
  assert (D : vdot3 ez (V3 0 0 s) = s) by (unfold vdot3, ez; cbn [vx vy vz]; ring). rewrite D.
  assert (Q : sqrt (1 - s ^ 2) = 0) by (replace (1 - s ^ 2) with 0 by (destruct S as [-> | ->]; ring); apply sqrt_0). rewrite Q.
  unfold app3, ez, vdot3. cbn [vx vy vz]. apply v3_eq; cbn [vx vy vz]; ring.
Qed.
(** in the cube: coordinates at most 5 in units of a tenth *)
Definition near_b (p : Z * Z) : bool := (Z.abs (fst p) <=? 5 * 10 ^ 15)%Z && (Z.abs (snd p) <=? 5 * 10 ^ 15)%Z.
Lemma dec_bound z : (Z.abs z <=? 5 * 10 ^ 15)%Z = true <-> -5 <= dec z <= 5.
Proof.
  unfold dec. assert (P : 0 < 10 ^ 15) by (apply pow_lt; lra). rewrite Z.leb_le. rewrite Z.abs_le. rewrite (pow_IZR 10 15) in *. cbn [Z.of_nat Pos.of_succ_nat Pos.succ] in *.
  set (T := (10 ^ 15)%Z) in *. split; intros [A B].
  - apply IZR_le in A. apply IZR_le in B. rewrite opp_IZR, mult_IZR in A. rewrite mult_IZR in B. split; apply (Rmult_le_reg_r (IZR T)); try exact P; unfold Rdiv; rewrite Rmult_assoc, Rinv_l by lra; lra.
  - apply (Rmult_le_compat_r (IZR T)) in A; [|lra]. apply (Rmult_le_compat_r (IZR T)) in B; [|lra]. unfold Rdiv in A, B. rewrite Rmult_assoc, Rinv_l in A, B by lra.
    split; apply le_IZR; [rewrite opp_IZR|]; rewrite mult_IZR; lra.
Qed.
Lemma unit_half z s : s = 1 \/ s = -1 -> unit_interval (/ 2 + / 10 * (s * dec z)) = (Z.abs z <=? 5 * 10 ^ 15)%Z.
Proof.
  intros S. unfold unit_interval. destruct (Z.abs z <=? 5 * 10 ^ 15)%Z eqn:E.
  - apply dec_bound in E. destruct (Rle_dec 0 _) as [_|N]; [destruct (Rle_dec _ 1) as [_|N]; [reflexivity|exfalso; apply N]|exfalso; apply N]; destruct S as [-> | ->]; lra.
  - destruct (Rle_dec 0 _) as [A|]; [|reflexivity]. destruct (Rle_dec _ 1) as [B|]; [|reflexivity]. exfalso. assert (C : (Z.abs z <=? 5 * 10 ^ 15)%Z = true) by (apply dec_bound; destruct S as [-> | ->]; lra). congruence.
Qed.
Lemma I_disk_inside x0 n p : on_I x0 n -> in_cube (disk_point x0 n (/ 10) p) = near_b p.
Proof.
  intros I. destruct (I_rotation x0 n I) as (s & S & E). unfold disk_point. rewrite E. destruct I as (z & h & -> & HZ & _). unfold in_cube, vplus, vmul, near_b. cbn [vx vy vz].
  rewrite !unit_half by exact S. rewrite (unit_interval_true (z + _)) by lra. rewrite Bool.andb_true_r. reflexivity.
Qed.
Fixpoint zsum (val : Z * Z -> Z) (pts : list (Z * Z)) (ws : list Z) : Z :=
  match pts, ws with p :: pts', w :: ws' => ((if near_b p then val p * w else 0) + zsum val pts' ws')%Z | _, _ => 0%Z end.
Lemma disk_sum_zsum k e val (v : Z * Z -> R) pts ws : (forall p, v p = k * (IZR (val p) * e)) -> disk_sum near_b v pts ws = k * e * / 10 ^ 15 * IZR (zsum val pts ws).
Proof.
  intros V. revert ws. induction pts as [|p pts IH]; intros [|w ws]; cbn [disk_sum zsum]; try (rewrite Rmult_0_r; reflexivity).
  rewrite plus_IZR, IH. destruct (near_b p); [rewrite V, mult_IZR; unfold dec, Rdiv; ring|ring].
Qed.
Lemma moment_zsum pts ws : moment_of 0 0 pts ws = / 10 ^ 15 * IZR (fold_right Z.add 0%Z (map snd (combine pts ws))).
Proof.
  revert ws. induction pts as [|p pts IH]; intros [|w ws]; cbn [combine map fold_right moment_of]; try (rewrite Rmult_0_r; reflexivity).
  rewrite plus_IZR, IH. unfold dec, Rdiv. cbn [pow snd]. ring.
Qed.
Lemma le_abs x a : Rabs x <= a -> - a <= x <= a.
Proof. unfold Rabs. destruct (Rcase_abs x); lra. Qed.
