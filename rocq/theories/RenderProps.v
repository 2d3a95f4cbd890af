(** C132: the pictures of averaging surfaces. *)
From Verif Require Import Base BaseProofs EmbedModel RenderModel ShapeModel ShapeProofs ShapeProps RenderProofs.
Local Open Scope R_scope.

(** One curve for each dof of each cell, on the circle the average is taken over; so are the points of the average *)
Theorem C132_circles_partial radius gauss xs cells : gauss <> [] -> rlsum (map snd gauss) = 2 -> (forall x, 0 <= radius x) -> proper cells ->
  exists surface used, render_avg_surface 1 (Some (circle_quadrature radius gauss)) xs cells = Ok surface /\ used_points (Some (circle_quadrature radius gauss)) xs cells = Ok used /\
    Forall2 (fun cd curve => around radius (length gauss) (fst cd) (xs (snd cd)) curve) (pairs cells) surface /\
    Forall2 (fun cd curve => around radius (length gauss) (fst cd) (xs (snd cd)) curve) (pairs cells) used.
Proof.
  intros NE SW R0 PC.
  assert (A : forall x n, nonzero n -> length (circle_points radius gauss x n) = length gauss /\ Forall (fun p => dist p x = radius x) (circle_points radius gauss x n) /\ (sine_to_axis n = 0 \/ / 10 ^ 13 <= sine_to_axis n -> Forall (in_plane x n) (circle_points radius gauss x n))).
  { intros x n NZ. destruct (C34_circle_partial radius gauss x n NZ (R0 x) SW) as (pts & w & E & L & _ & D & I & _). rewrite (circle_ok radius gauss x n NZ) in E. injection E as <- <-. split; [assumption | split; assumption]. }
  eexists. eexists. split; [| split; [| split]].
  - apply (render_pairs _ (circle_points radius gauss) (fun x n => map (fun g => snd g * radius x * PI) gauss)). intros c d Hc _. split; [apply circle_ok, minus_nonzero, PC, Hc |]. unfold circle_points. destruct gauss; [contradiction | discriminate].
  - apply (used_shape _ (circle_points radius gauss) (fun x n => map (fun g => snd g * radius x * PI) gauss)). intros c d Hc _. apply circle_ok, minus_nonzero. intros E. apply (PC c Hc). symmetry. exact E.
  - apply Forall2_map_r. intros [c d] H. apply pairs_in in H. destruct H as [Hc _]. cbn [fst snd]. exact (A _ _ (minus_nonzero _ _ (PC c Hc))).
  - apply Forall2_map_r. intros [c d] H. apply pairs_in in H. destruct H as [Hc _]. cbn [fst snd]. unfold around.
    assert (NZ : nonzero (vminus (c_v0 c) (c_v1 c))) by (apply minus_nonzero; intros E; apply (PC c Hc); symmetry; exact E).
    destruct (A (xs d) _ NZ) as (L & D & I). split; [assumption | split; [assumption |]]. intros S. rewrite (minus_swap (c_v0 c) (c_v1 c)), sine_opp in I. rewrite (minus_swap (c_v0 c) (c_v1 c)) in *. specialize (I S).
    apply Forall_forall. intros p Hp. rewrite Forall_forall in I. apply plane_opp. apply I, Hp.
Qed.
Print Assumptions C132_circles_partial.

(** But they are not the same points: the pictures take the opposite direction along the cell, and the points are mirrored in
    the horizontal line through the dof orthogonal to the cell; for vertical cells they are opposite *)
Theorem C132_mirrored radius gauss xs cells : gauss <> [] -> proper cells ->
  exists surface used, render_avg_surface 1 (Some (circle_quadrature radius gauss)) xs cells = Ok surface /\ used_points (Some (circle_quadrature radius gauss)) xs cells = Ok used /\
    Forall2 (fun cd rs => let n := vminus (c_v1 (fst cd)) (c_v0 (fst cd)) in
      (/ 10 ^ 13 <= sine_to_axis n -> Forall2 (mirrored (xs (snd cd)) (V3 (- vy n) (vx n) 0)) (fst rs) (snd rs)) /\
      (vx n = 0 -> vy n = 0 -> Forall2 (opposite (xs (snd cd))) (fst rs) (snd rs))) (pairs cells) (combine surface used).
Proof.
  intros NE PC. eexists. eexists. split; [| split].
  - apply (render_pairs _ (circle_points radius gauss) (fun x n => map (fun g => snd g * radius x * PI) gauss)). intros c d Hc _. split; [apply circle_ok, minus_nonzero, PC, Hc |]. unfold circle_points. destruct gauss; [contradiction | discriminate].
  - apply (used_shape _ (circle_points radius gauss) (fun x n => map (fun g => snd g * radius x * PI) gauss)). intros c d Hc _. apply circle_ok, minus_nonzero. intros E. apply (PC c Hc). symmetry. exact E.
  - rewrite combine_map. apply Forall2_map_r. intros [c d] H. apply pairs_in in H. destruct H as [Hc _]. cbn [fst snd].
    pose proof (minus_nonzero _ _ (PC c Hc)) as NZ. rewrite (minus_swap (c_v0 c) (c_v1 c)). set (n := vminus (c_v1 c) (c_v0 c)) in *. clearbody n. generalize (xs d). intros x. clear PC Hc c d NE.
    pose proof (nonzero_norm n NZ) as NN. pose proof (sine_cross n NN) as SC.
    assert (E : vmul (/ norm3 (vmul (-1) n)) (vmul (-1) n) = vmul (-1) (vmul (/ norm3 n) n)) by (rewrite norm_opp; unfold vmul; cbn [vx vy vz]; f_equal; ring).
    split; [intros S | intros Z1 Z2].
    + unfold circle_points. apply Forall2_map_lr. intros g _. rewrite E.
      assert (T : ~ norm3 (cross ez (vmul (/ norm3 n) n)) < tol13) by (rewrite SC; unfold tol13; lra).
      rewrite (turned _ _ _ T). set (u := vmul (/ norm3 n) n) in *. set (y := app3 (rotation u) _). destruct (axis_unit u T) as [UA [k KA]]. set (a := rotation_axis u) in *.
      assert (EA : a = vmul (k * / norm3 n) (V3 (- vy n) (vx n) 0)) by (rewrite KA; unfold u, vmul, cross, ez; cbn [vx vy vz]; f_equal; ring).
      set (m := k * / norm3 n) in *. assert (M0 : m <> 0). { intros M. rewrite EA, M in UA. unfold vdot3, vmul in UA. cbn [vx vy vz] in UA. lra. }
      clearbody y m a. clear E KA T S SC. subst a. unfold mirrored. split.
      * exists (radius x * (2 * vdot3 (vmul m (V3 (- vy n) (vx n) 0)) y) * m). unfold vplus, vmul, vminus. cbn [vx vy vz]. repeat split; ring.
      * assert (K : m * (m * vy n * vy n + m * vx n * vx n) = 1) by (unfold vdot3, vmul in UA; cbn [vx vy vz] in UA; rewrite <- UA; ring).
        apply (Rmult_eq_reg_l m); [| assumption]. destruct y as [y1 y2 y3], n as [n1 n2 n3]. unfold vplus, vmul, vminus, vdot3 in *. cbn [vx vy vz] in *.
        transitivity (2 * radius x * m * ((- n2) * y1 + n1 * y2) * (m * (m * n2 * n2 + m * n1 * n1) - 1)); [ring | rewrite K; ring].
    + unfold circle_points. apply Forall2_map_lr. intros g _. rewrite E.
      pose proof (unit_of n NN) as U. assert (SZ : norm3 (cross ez (vmul (/ norm3 n) n)) < tol13).
      { assert (cross ez (vmul (/ norm3 n) n) = V3 0 0 0) as -> by (unfold cross, ez, vmul; cbn [vx vy vz]; rewrite Z1, Z2; f_equal; ring). unfold norm3, vdot3. cbn [vx vy vz]. replace (0 * 0 + 0 * 0 + 0 * 0) with 0 by ring. rewrite sqrt_0. apply tol13_pos. }
      assert (Z : vz (vmul (/ norm3 n) n) ^ 2 = 1) by (rewrite <- U; unfold vdot3, vmul; cbn [vx vy vz]; rewrite Z1, Z2; ring).
      rewrite (turned_axis _ _ _ SZ Z). generalize (app3 (rotation (vmul (/ norm3 n) n)) (V3 (cos (PI * fst g)) (sin (PI * fst g)) 0)). intros y. unfold opposite, vplus, vmul. cbn [vx vy vz]. repeat split; ring.
Qed.
Print Assumptions C132_mirrored.

(** So a picture may show no point at all of the average *)
Theorem C132_points_refuted : exists radius gauss xs cells surface used, proper cells /\ gauss <> [] /\
  render_avg_surface 1 (Some (circle_quadrature radius gauss)) xs cells = Ok surface /\ used_points (Some (circle_quadrature radius gauss)) xs cells = Ok used /\
  pairs cells <> [] /\ forall p, ~ (In p (concat surface) /\ In p (concat used)).
Proof.
  set (c := LCell (V3 0 0 0) (V3 0 0 1) [0%nat]). set (xs := fun _ : nat => V3 0 0 0).
  assert (PC : proper [c]). { intros c' [<- | []]. cbn. intros E. injection E. lra. }
  destruct (C132_mirrored (fun _ => 1) [(0, 2)] xs [c] ltac:(discriminate) PC) as (surface & used & ES & EU & F).
  exists (fun _ => 1), [(0, 2)], xs, [c], surface, used. split; [exact PC |]. split; [discriminate |]. split; [exact ES |]. split; [exact EU |]. split; [discriminate |].
  assert (S1 : rlsum (map snd [(0, 2)]) = 2) by (cbn; lra).
  destruct (C132_circles_partial (fun _ => 1) [(0, 2)] xs [c] ltac:(discriminate) S1 (fun _ => Rle_0_1) PC) as (s' & u' & ES' & EU' & FS & FU).
  rewrite ES in ES'. injection ES' as <-. rewrite EU in EU'. injection EU' as <-.
  unfold pairs in FS, FU, F. cbn [flat_map map app c c_dofs] in FS, FU, F.
  inversion FS as [| ? r ? l R1 R2]; subst. inversion R2; subst. inversion FU as [| ? t ? l' T1 T2]; subst. inversion T2; subst. cbn [combine] in F. inversion F as [| ? ? ? ? F1 _]; subst. cbn [fst snd c c_v0 c_v1 vminus vx vy vz] in F1.
  destruct F1 as [_ F1]. specialize (F1 ltac:(ring) ltac:(ring)).
  destruct R1 as (RL & RD & _). destruct T1 as (TL & _). destruct r as [| r0 [| ? ?]]; try discriminate RL. destruct t as [| t0 [| ? ?]]; try discriminate TL.
  inversion F1 as [| ? ? ? ? O _]; subst. apply Forall_inv in RD. cbn [snd fst] in *. unfold xs in *. intros p [H1 H2]. cbn in H1, H2. destruct H1 as [<- | []]. destruct H2 as [<- | []].
  destruct O as (O1 & O2 & O3). cbn [vx vy vz] in *. unfold dist in RD. cbn [vx vy vz] in RD. assert (Y1 : vx t0 = 0) by lra. assert (Y2 : vy t0 = 0) by lra. assert (Y3 : vz t0 = 0) by lra. rewrite Y1, Y2, Y3 in RD.
  replace ((0 - 0) ^ 2 + (0 - 0) ^ 2 + (0 - 0) ^ 2) with 0 in RD by ring. rewrite sqrt_0 in RD. lra.
Qed.
Print Assumptions C132_points_refuted.

(** For squares and for their rims the pictures show the points of the averages *)
Theorem C132_squares P gauss xs cells : gauss <> [] -> on_interval gauss -> proper cells -> (forall c d, In c cells -> In d (c_dofs c) -> in_plane (xs d) (vminus (c_v1 c) (c_v0 c)) (P (xs d))) ->
  exists surface used, render_avg_surface 1 (Some (square_quadrature P gauss)) xs cells = Ok surface /\ used_points (Some (square_quadrature P gauss)) xs cells = Ok used /\
    length surface = length (pairs cells) /\ Forall2 (fun r s => length r = (length gauss * length gauss)%nat /\ forall p, In p r <-> In p s) surface used.
Proof.
  intros NE GI PC PL.
  pose (w := fun x n => match square_quadrature P gauss x n with Ok q => snd q | Err _ => [] end).
  assert (OK : forall x n, nonzero n -> in_plane x n (P x) -> square_quadrature P gauss x n = Ok (square_points P gauss x n, w x n)).
  { intros x n NZ I. unfold w. destruct (square_points_ok P gauss x n NZ I GI) as [w' ->]. reflexivity. }
  eexists. eexists. split; [| split; [| split]].
  - apply (render_pairs _ (square_points P gauss) w). intros c d Hc Hd. split; [apply OK; [apply minus_nonzero, PC, Hc | apply PL; assumption] |]. unfold square_points. destruct gauss; [contradiction | discriminate].
  - apply (used_shape _ (square_points P gauss) w). intros c d Hc Hd. apply OK; [apply minus_nonzero; intros E; apply (PC c Hc); symmetry; exact E |]. rewrite minus_swap. apply plane_opp, PL; assumption.
  - apply map_length.
  - apply Forall2_map_lr. intros [c d] _. cbn [fst snd]. split; [unfold square_points; rewrite map_length, prod_length, map_length; reflexivity |]. intros p. split; intros H.
    + rewrite minus_swap. apply square_points_opp, H.
    + rewrite minus_swap. apply square_points_opp, H.
Qed.
Print Assumptions C132_squares.
Theorem C132_rims P gauss xs cells : gauss <> [] -> on_interval gauss -> (forall t, In t (map fst gauss) -> In (- t) (map fst gauss)) -> proper cells -> (forall c d, In c cells -> In d (c_dofs c) -> in_plane (xs d) (vminus (c_v1 c) (c_v0 c)) (P (xs d))) ->
  exists surface used, render_avg_surface 1 (Some (rim_quadrature P gauss)) xs cells = Ok surface /\ used_points (Some (rim_quadrature P gauss)) xs cells = Ok used /\
    length surface = length (pairs cells) /\ Forall2 (fun r s => length r = (4 * length gauss)%nat /\ forall p, In p r <-> In p s) surface used.
Proof.
  intros NE GI SY PC PL.
  pose (w := fun x n => match rim_quadrature P gauss x n with Ok q => snd q | Err _ => [] end).
  assert (OK : forall x n, nonzero n -> in_plane x n (P x) -> rim_quadrature P gauss x n = Ok (rim_points P gauss x n, w x n)).
  { intros x n NZ I. unfold w. destruct (rim_points_ok P gauss x n NZ I GI) as [w' ->]. reflexivity. }
  eexists. eexists. split; [| split; [| split]].
  - apply (render_pairs _ (rim_points P gauss) w). intros c d Hc Hd. split; [apply OK; [apply minus_nonzero, PC, Hc | apply PL; assumption] |]. unfold rim_points. destruct gauss; [contradiction | discriminate].
  - apply (used_shape _ (rim_points P gauss) w). intros c d Hc Hd. apply OK; [apply minus_nonzero; intros E; apply (PC c Hc); symmetry; exact E |]. rewrite minus_swap. apply plane_opp, PL; assumption.
  - apply map_length.
  - apply Forall2_map_lr. intros [c d] _. cbn [fst snd]. split.
    + unfold rim_points. generalize (P (xs d)), (xs d), (vminus (c_v1 c) (c_v0 c)). intros a b e. clear. induction gauss as [| g l IH]; [reflexivity |]. cbn [map concat app length]. rewrite IH. lia.
    + intros p. split; intros H; rewrite minus_swap; apply rim_points_opp; assumption.
Qed.
Print Assumptions C132_rims.

(** Functions with several components: the same curves, once for each component *)
Theorem C132_components size q xs cells surface : (0 < size)%nat -> (forall c d k, In c cells -> In d (c_dofs c) -> (k < size)%nat -> xs (d + k)%nat = xs d) ->
  render_avg_surface 1 (Some q) xs cells = Ok surface ->
  exists all, render_avg_surface size (Some q) xs cells = Ok all /\ length all = (size * length surface)%nat /\ forall r, In r all <-> In r surface.
Proof.
  intros S0 CO. unfold render_avg_surface.
  assert (INV : forall n l s0 s, foldM (render_dof (Some q) n) l s0 = Ok s -> exists cs, s = s0 ++ cs /\ length cs = length l /\ (forall s1, foldM (render_dof (Some q) n) l s1 = Ok (s1 ++ cs))).
  { intros n l. induction l as [| x l IH]; intros s0 s H; cbn [foldM] in *; [injection H as <-; exists []; split; [rewrite app_nil_r; reflexivity | split; [reflexivity | intros; rewrite app_nil_r; reflexivity]] |].
    unfold render_dof in H at 1. destruct (points (Some q) x n) as [p | e] eqn:EP; [| discriminate]. cbn [bind] in H. destruct (row_stack p) as [p' | e] eqn:ER; [| discriminate]. cbn [bind] in H.
    destruct (IH _ _ H) as (cs & -> & L & G). exists (p' :: cs). split; [rewrite <- app_assoc; reflexivity | split; [cbn [length]; rewrite L; reflexivity |]].
    intros s1. unfold render_dof at 1. rewrite EP. cbn [bind]. rewrite ER. cbn [bind]. rewrite G, <- app_assoc. reflexivity. }
  assert (APP : forall n l l' s, foldM (render_dof (Some q) n) (l ++ l') s = do s' <- foldM (render_dof (Some q) n) l s; foldM (render_dof (Some q) n) l' s').
  { intros n l. induction l as [| x l IH]; intros l' s; [reflexivity |]. cbn [app foldM]. destruct (render_dof (Some q) n s x); [| reflexivity]. cbn [bind]. apply IH. }
  assert (CELL : forall c s0 s, In c cells -> render_cell 1 (Some q) xs s0 c = Ok s -> exists cs all, s = s0 ++ cs /\ (forall s1, render_cell size (Some q) xs s1 c = Ok (s1 ++ all)) /\ length all = (size * length cs)%nat /\ (forall r, In r all <-> In r cs)).
  { intros c s0 s Hc H. unfold render_cell in *. cbn zeta in *. rewrite cell_dofs_1 in H. set (n := vminus (c_v1 c) (c_v0 c)) in *. destruct (INV _ _ _ _ H) as (cs & -> & L & G).
    assert (K : forall ks, (forall k, In k ks -> (k < size)%nat) -> exists all, (forall s1, foldM (render_dof (Some q) n) (map xs (flat_map (fun k => map (fun d => (d + k)%nat) (c_dofs c)) ks)) s1 = Ok (s1 ++ all)) /\ length all = (length ks * length cs)%nat /\ (forall r, In r all <-> ks <> [] /\ In r cs)).
    { intros ks. induction ks as [| k ks IH]; intros B.
      - exists []. cbn. split; [intros; rewrite app_nil_r; reflexivity | split; [reflexivity | intros r; split; [intros [] | intros [N _]; apply N; reflexivity]]].
      - destruct IH as (all & GA & LA & IA); [intros; apply B; right; assumption |]. exists (cs ++ all). cbn [flat_map length].
        assert (EK : map xs (map (fun d => (d + k)%nat) (c_dofs c)) = map xs (c_dofs c)). { rewrite map_map. apply map_ext_in. intros d Hd. apply (CO c); [assumption | assumption | apply B; left; reflexivity]. }
        split; [| split].
        + intros s1. rewrite map_app, EK, APP, G. cbn [bind]. rewrite GA, <- app_assoc. reflexivity.
        + rewrite app_length, LA. lia.
        + intros r. rewrite in_app_iff, IA. split; [intros [I | [_ I]]; (split; [discriminate | exact I]) | intros [_ I]; left; exact I]. }
    destruct (K (seq 0 size)) as (all & GA & LA & IA); [intros k Hk; apply in_seq in Hk; lia |]. exists cs, all. split; [reflexivity |]. split; [exact GA |]. rewrite seq_length in LA. split; [exact LA |].
    intros r. rewrite IA. split; [tauto |]. intros I. split; [destruct size; [lia | discriminate] | exact I]. }
  assert (ALL : forall l s0 s, incl l cells -> foldM (render_cell 1 (Some q) xs) l s0 = Ok s -> exists cs all, s = s0 ++ cs /\ (forall s1, foldM (render_cell size (Some q) xs) l s1 = Ok (s1 ++ all)) /\ length all = (size * length cs)%nat /\ (forall r, In r all <-> In r cs)).
  { intros l. induction l as [| c l IH]; intros s0 s B H; cbn [foldM] in *.
    - injection H as <-. exists [], []. split; [rewrite app_nil_r; reflexivity |]. split; [intros; rewrite app_nil_r; reflexivity |]. split; [cbn; lia | tauto].
    - destruct (render_cell 1 (Some q) xs s0 c) as [s' | e] eqn:EC; [| discriminate]. cbn [bind] in H. destruct (CELL c s0 s' (B c (or_introl eq_refl)) EC) as (cs & all & -> & G & L & I).
      destruct (IH _ _ (fun x Hx => B x (or_intror Hx)) H) as (cs' & all' & -> & G' & L' & I'). exists (cs ++ cs'), (all ++ all'). split; [rewrite app_assoc; reflexivity |]. split; [| split].
      + intros s1. rewrite G. cbn [bind]. rewrite G', app_assoc. reflexivity.
      + rewrite !app_length, L, L'. lia.
      + intros r. rewrite !in_app_iff, I, I'. tauto. }
  intros H. destruct (ALL cells [] surface (incl_refl _) H) as (cs & all & -> & G & L & I). exists all. split; [apply (G []) | split; assumption].
Qed.
Print Assumptions C132_components.

(** The tubes: two rings for each cell, the points of the second over those of the first *)
Theorem C132_tube radius gauss cells : gauss <> [] -> (forall x, 0 <= radius x) -> proper cells ->
  exists tubes, tube_render_avg_surface (Some (circle_quadrature radius gauss)) cells = Ok tubes /\
    Forall2 (fun c rings => let n := vminus (c_v1 c) (c_v0 c) in exists dirs, length dirs = length gauss /\ Forall (fun y => norm3 y = 1) dirs /\
      (sine_to_axis n = 0 \/ / 10 ^ 13 <= sine_to_axis n -> Forall (fun y => vdot3 y n = 0) dirs) /\
      Forall2 (fun y p => p = vplus (c_v0 c) (vmul (radius (c_v0 c)) y)) dirs (fst rings) /\ Forall2 (fun y p => p = vplus (c_v1 c) (vmul (radius (c_v1 c)) y)) dirs (snd rings)) cells tubes.
Proof.
  intros NE R0 PC. exists (map (fun c => (circle_points radius gauss (c_v0 c) (vminus (c_v1 c) (c_v0 c)), circle_points radius gauss (c_v1 c) (vminus (c_v1 c) (c_v0 c)))) cells). split.
  - unfold tube_render_avg_surface. apply mapM_ok. intros c Hc. pose proof (minus_nonzero _ _ (PC c Hc)) as NZ. unfold tube_cell, points. cbn zeta. cbn [opt_res bind]. rewrite !circle_ok by assumption. cbn [bind fst].
    unfold circle_points. destruct gauss as [| g l]; [contradiction |]. reflexivity.
  - apply Forall2_map_r. intros c Hc. cbn zeta. cbn [fst snd]. pose proof (minus_nonzero _ _ (PC c Hc)) as NZ. pose proof (nonzero_norm _ NZ) as NN. set (n := vminus (c_v1 c) (c_v0 c)) in *. pose proof (unit_of n NN) as U.
    exists (map (fun g => app3 (rotation (vmul (/ norm3 n) n)) (V3 (cos (PI * fst g)) (sin (PI * fst g)) 0)) gauss). split; [apply map_length |]. split; [| split; [| split]].
    + apply Forall_forall. intros y Hy. apply in_map_iff in Hy. destruct Hy as (g & <- & _). apply norm3_one. rewrite rot_isometry by assumption. pose proof (sin2_cos2 (PI * fst g)) as H. unfold Rsqr in H. lra.
    + intros S. apply Forall_forall. intros y Hy. apply in_map_iff in Hy. destruct Hy as (g & <- & _).
      destruct (map_spec (V3 0 0 0) n 1 (cos (PI * fst g)) (sin (PI * fst g)) _ Rle_0_1 NN (map_ok _ _ _ _ NN)) as (_ & I0 & _). specialize (I0 S). unfold in_plane in I0. rewrite plane_shift in I0. lra.
    + unfold circle_points. apply Forall2_map_lr. reflexivity.
    + unfold circle_points. apply Forall2_map_lr. reflexivity.
Qed.
Print Assumptions C132_tube.

(** With the corner at a fixed point, as the class allows, no tube can be drawn (nor any average over cells with more than one dof be taken): the
    corner would have to be in the planes of both ends *)
Theorem C132_fixed_corner_refuted P gauss c cells : 2 / 10 ^ 13 <= norm3 (vminus (c_v1 c) (c_v0 c)) -> gauss <> [] -> on_interval gauss ->
  tube_render_avg_surface (Some (square_quadrature (fun _ => P) gauss)) (c :: cells) = Err AssertionError.
Proof.
  intros L NE GI. unfold tube_render_avg_surface. cbn [mapM]. enough (tube_cell (Some (square_quadrature (fun _ => P) gauss)) c = Err AssertionError) as -> by reflexivity.
  set (n := vminus (c_v1 c) (c_v0 c)) in *. assert (NN : norm3 n <> 0). { pose proof (Rinv_0_lt_compat (10 ^ 13) ltac:(apply pow_lt; lra)). unfold Rdiv in L. lra. }
  assert (NZ : nonzero n). { unfold nonzero. destruct (Req_dec (vx n) 0) as [E1 |]; [| tauto]. destruct (Req_dec (vy n) 0) as [E2 |]; [| tauto]. destruct (Req_dec (vz n) 0) as [E3 |]; [| tauto]. exfalso. apply NN. unfold norm3, vdot3. rewrite E1, E2, E3. replace (0 * 0 + 0 * 0 + 0 * 0) with 0 by ring. apply sqrt_0. }
  assert (D : vdot3 (vminus P (c_v0 c)) (vmul (/ norm3 n) n) - vdot3 (vminus P (c_v1 c)) (vmul (/ norm3 n) n) = norm3 n).
  { transitivity (/ norm3 n * vdot3 n n); [unfold n, vdot3, vminus, vmul; cbn [vx vy vz]; ring |]. rewrite <- norm3_sq. field. assumption. }
  assert (OUT : forall x, / 10 ^ 13 <= Rabs (vdot3 (vminus P x) (vmul (/ norm3 n) n)) -> square_quadrature (fun _ => P) gauss x n = Err AssertionError).
  { intros x H. unfold square_quadrature. destruct (C34_corners x n P NZ) as [_ E]. rewrite (E H). reflexivity. }
  assert (IN : forall x q, square_quadrature (fun _ => P) gauss x n = Ok q -> fst q <> []).
  { intros x q H. unfold square_quadrature in H. destruct (square_corners x n P) as [AC | e]; [| discriminate]. cbn [bind] in H. destruct (square_map P (fst AC) (snd AC) (-1, -1)) as [A | e]; [| discriminate]. cbn [bind] in H.
    destruct (square_map P (fst AC) (snd AC) (-1, 1)) as [B | e]; [| discriminate]. cbn [bind] in H. destruct (mapM (square_map P (fst AC) (snd AC)) (list_prod (map fst gauss) (map fst gauss))) as [pts | e] eqn:EM; [| discriminate]. cbn [bind] in H. injection H as <-. cbn [fst].
    intros ->. apply mapM_ok_forall in EM. destruct gauss as [| g l]; [contradiction |]. cbn [map list_prod app] in EM. inversion EM. }
  assert (ERR : forall x q, square_quadrature (fun _ => P) gauss x n = Err q -> q = AssertionError).
  { intros x q H. unfold square_quadrature in H. destruct (square_corners x n P) as [AC | e] eqn:EC.
    - cbn [bind] in H. unfold square_map in H. cbn [fst snd] in H. assert (T : 1 < 1 + tol13) by (pose proof tol13_pos; lra). assert (R1 : Rabs (-1) < 1 + tol13) by (rewrite Rabs_left; lra). assert (R2 : Rabs 1 < 1 + tol13) by (rewrite Rabs_R1; lra).
      destruct (Rlt_dec (Rabs (-1)) (1 + tol13)); [| contradiction]. destruct (Rlt_dec (Rabs 1) (1 + tol13)); [| contradiction]. cbn [bind] in H.
      match type of H with (do pts <- mapM ?f ?l; _) = _ => destruct (mapM f l) as [pts | e] eqn:EM; [discriminate H |]; cbn [bind] in H; injection H as <-; apply mapM_err_in in EM; destruct EM as (xy & _ & EM) end.
      destruct (Rlt_dec _ _); [| congruence]. destruct (Rlt_dec _ _); [discriminate | congruence].
    - cbn [bind] in H. injection H as <-. unfold square_corners in EC. destruct (Req_EM_T _ _); [congruence |]. destruct (Rlt_dec _ _); [discriminate | congruence]. }
  unfold tube_cell, points. cbn zeta. fold n. cbn [opt_res bind].
  destruct (square_quadrature (fun _ => P) gauss (c_v0 c) n) as [q0 | e0] eqn:Q0; [| cbn [bind]; f_equal; exact (ERR _ _ Q0)]. cbn [bind].
  pose proof (IN _ _ Q0) as N0. unfold row_stack at 1. destruct (fst q0); [contradiction |]. cbn [bind].
  rewrite (OUT (c_v1 c)); [reflexivity |]. apply Rnot_lt_le. intros H1.
  assert (H0 : Rabs (vdot3 (vminus P (c_v0 c)) (vmul (/ norm3 n) n)) < / 10 ^ 13). { apply Rnot_le_lt. intros H. rewrite (OUT _ H) in Q0. discriminate. }
  apply Rabs_def2 in H0. apply Rabs_def2 in H1. unfold Rdiv in L. lra.
Qed.
Print Assumptions C132_fixed_corner_refuted.

(** Traces have no surface *)
Theorem C132_traces_raise size xs c cells : (0 < size)%nat -> c_dofs c <> [] ->
  render_avg_surface size None xs (c :: cells) = Err AttributeError /\ tube_render_avg_surface None (c :: cells) = Err AttributeError.
Proof.
  intros S0 N. split; [| reflexivity]. unfold render_avg_surface. cbn [foldM]. enough (render_cell size None xs [] c = Err AttributeError) as -> by reflexivity.
  unfold render_cell. cbn zeta. apply foldM_err; [| reflexivity]. unfold cell_dofs. destruct size as [| size]; [lia |]. cbn [seq flat_map]. destruct (c_dofs c); [contradiction | discriminate].
Qed.
Print Assumptions C132_traces_raise.

(** A straight line of two cells and a symmetric rule *)
Example C132_ex : let cells := [LCell (V3 0 0 0) (V3 1 0 0) [0; 1]%nat; LCell (V3 1 0 0) (V3 2 0 0) [2; 3]%nat] in let xs := fun d => nth d [V3 0 0 0; V3 1 0 0; V3 1 0 0; V3 2 0 0] (V3 0 0 0) in
  let gauss := [(-1/2, 1); (1/2, 1)] in let P := fun x => vplus x (V3 0 1 0) in
  proper cells /\ gauss <> [] /\ on_interval gauss /\ (forall t, In t (map fst gauss) -> In (- t) (map fst gauss)) /\ length (pairs cells) = 4%nat /\
  (forall c d, In c cells -> In d (c_dofs c) -> in_plane (xs d) (vminus (c_v1 c) (c_v0 c)) (P (xs d))) /\ (forall c, In c cells -> 2 / 10 ^ 13 <= norm3 (vminus (c_v1 c) (c_v0 c)) /\ / 10 ^ 13 <= sine_to_axis (vminus (c_v1 c) (c_v0 c))).
Proof.
  intros cells xs gauss P. split; [| split; [| split; [| split; [| split; [| split]]]]].
  - intros c [<- | [<- | []]]; cbn; intros E; injection E; lra.
  - discriminate.
  - split; [intros g [<- | [<- | []]]; cbn [fst]; [rewrite Rabs_left | rewrite Rabs_right]; lra | cbn; lra].
  - intros t [<- | [<- | []]]; cbn [map fst]; [right; left; cbn [fst]; lra | left; cbn [fst]; lra].
  - reflexivity.
  - intros c d [<- | [<- | []]] _; unfold in_plane, P, vplus, vminus; cbn [vx vy vz c_v0 c_v1]; ring.
  - assert (T : 2 <= 10 ^ 13) by (apply Rle_trans with (10 ^ 1); [lra | apply Rle_pow; [lra | lia]]).
    assert (I : forall c, In c cells -> vminus (c_v1 c) (c_v0 c) = V3 1 0 0) by (intros c [<- | [<- | []]]; unfold vminus; cbn [vx vy vz c_v0 c_v1]; f_equal; ring).
    intros c Hc. rewrite (I c Hc). split.
    + rewrite norm3_one by (unfold vdot3; cbn [vx vy vz]; ring). apply (Rmult_le_reg_r (10 ^ 13)); [lra |]. unfold Rdiv. rewrite Rmult_assoc, Rinv_l by lra. lra.
    + apply C34_rotation_ex.
Qed.
