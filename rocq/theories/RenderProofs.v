(** Specification vocabulary and proofs for RenderModel.v. *)
From Verif Require Import Base BaseProofs EmbedModel RenderModel ShapeModel ShapeProofs ShapeProps.
Local Open Scope R_scope.

(** ** Specification vocabulary *)
(** The cells with each of their dofs *)
Definition pairs (cells : list lcell) : list (lcell * nat) := flat_map (fun c => map (fun d => (c, d)) (c_dofs c)) cells.
(** A curve around [x]: points of the circle in the plane orthogonal to the cell (as in C34, unless the cell is nearly but
    not exactly along the z axis) *)
Definition around (radius : v3 -> R) (k : nat) (c : lcell) (x : v3) (curve : list v3) : Prop :=
  let n := vminus (c_v1 c) (c_v0 c) in
  length curve = k /\ Forall (fun p => dist p x = radius x) curve /\
  (sine_to_axis n = 0 \/ / 10 ^ 13 <= sine_to_axis n -> Forall (in_plane x n) curve).
(** [q] is the mirror image of [p] in the line through [x] along [e] *)
Definition mirrored (x e p q : v3) : Prop :=
  (exists t, vx p + vx q - 2 * vx x = t * vx e /\ vy p + vy q - 2 * vy x = t * vy e /\ vz p + vz q - 2 * vz x = t * vz e) /\
  (vx q - vx p) * vx e + (vy q - vy p) * vy e + (vz q - vz p) * vz e = 0.
(** on the other side of [x] *)
Definition opposite (x p q : v3) : Prop := vx p + vx q = 2 * vx x /\ vy p + vy q = 2 * vy x /\ vz p + vz q = 2 * vz x.
(** cells of some length *)
Definition proper (cells : list lcell) : Prop := forall c, In c cells -> c_v0 c <> c_v1 c.

(** ** Proofs *)
Lemma foldM_append {A B} (step : list B -> A -> res (list B)) (g : A -> B) l s :
  (forall x s, In x l -> step s x = Ok (s ++ [g x])) -> foldM step l s = Ok (s ++ map g l).
Proof.
  revert s. induction l as [| a l IH]; intros s H; [cbn; rewrite app_nil_r; reflexivity |]. cbn [foldM map]. rewrite H by (left; reflexivity). cbn [bind]. rewrite IH by (intros; apply H; right; assumption). rewrite <- app_assoc. reflexivity.
Qed.
Lemma foldM_extend {A B} (step : list B -> A -> res (list B)) (g : A -> list B) l s :
  (forall x s, In x l -> step s x = Ok (s ++ g x)) -> foldM step l s = Ok (s ++ flat_map g l).
Proof.
  revert s. induction l as [| a l IH]; intros s H; [cbn; rewrite app_nil_r; reflexivity |]. cbn [foldM flat_map]. rewrite H by (left; reflexivity). cbn [bind]. rewrite IH by (intros; apply H; right; assumption). rewrite <- app_assoc. reflexivity.
Qed.
Lemma foldM_err {A B} (step : list B -> A -> res (list B)) l s e : l <> [] -> (forall x s, In x l -> step s x = Err e) -> foldM step l s = Err e.
Proof. destruct l as [| a l]; intros N H; [contradiction |]. cbn [foldM]. rewrite H by (left; reflexivity). reflexivity. Qed.

Section Curves.
Variables (q : shape_fn) (P : v3 -> v3 -> list v3) (w : v3 -> v3 -> list R) (xs : nat -> v3).

Lemma render_shape size cells : (forall c d, In c cells -> In d (cell_dofs size c) -> q (xs d) (vminus (c_v1 c) (c_v0 c)) = Ok (P (xs d) (vminus (c_v1 c) (c_v0 c)), w (xs d) (vminus (c_v1 c) (c_v0 c))) /\ P (xs d) (vminus (c_v1 c) (c_v0 c)) <> []) ->
  render_avg_surface size (Some q) xs cells = Ok (flat_map (fun c => map (fun d => P (xs d) (vminus (c_v1 c) (c_v0 c))) (cell_dofs size c)) cells).
Proof.
  intros H. unfold render_avg_surface. rewrite (foldM_extend _ (fun c => map (fun d => P (xs d) (vminus (c_v1 c) (c_v0 c))) (cell_dofs size c))); [reflexivity |].
  intros c s Hc. unfold render_cell. cbn zeta. rewrite (foldM_append _ (fun x => P x (vminus (c_v1 c) (c_v0 c)))); [rewrite map_map; reflexivity |].
  intros x s' Hx. apply in_map_iff in Hx. destruct Hx as (d & <- & Hd). destruct (H c d Hc Hd) as [E N]. unfold render_dof, points. cbn [opt_res bind]. rewrite E. cbn [bind fst].
  unfold row_stack. destruct (P _ _) as [| p l]; [contradiction | reflexivity].
Qed.
Lemma used_shape cells : (forall c d, In c cells -> In d (c_dofs c) -> q (xs d) (vminus (c_v0 c) (c_v1 c)) = Ok (P (xs d) (vminus (c_v0 c) (c_v1 c)), w (xs d) (vminus (c_v0 c) (c_v1 c)))) ->
  used_points (Some q) xs cells = Ok (map (fun cd => P (xs (snd cd)) (vminus (c_v0 (fst cd)) (c_v1 (fst cd)))) (pairs cells)).
Proof.
  intros H. unfold used_points. rewrite (foldM_extend _ (fun c => map (fun d => P (xs d) (vminus (c_v0 c) (c_v1 c))) (c_dofs c))).
  - f_equal. unfold pairs. cbn [app]. clear H. induction cells as [| c cells IH]; [reflexivity |]. cbn [flat_map]. rewrite map_app, map_map, IH. reflexivity.
  - intros c s Hc. unfold used_cell. cbn zeta. rewrite (foldM_append _ (fun x => P x (vminus (c_v0 c) (c_v1 c)))); [rewrite map_map; reflexivity |].
    intros x s' Hx. apply in_map_iff in Hx. destruct Hx as (d & <- & Hd). unfold points. cbn [opt_res bind]. rewrite (H c d Hc Hd). reflexivity.
Qed.
Lemma cell_dofs_1 c : cell_dofs 1 c = c_dofs c.
Proof. unfold cell_dofs. cbn [seq flat_map]. rewrite app_nil_r. rewrite <- (map_id (c_dofs c)) at 2. apply map_ext. intros d. apply Nat.add_0_r. Qed.
Lemma render_pairs cells : (forall c d, In c cells -> In d (c_dofs c) -> q (xs d) (vminus (c_v1 c) (c_v0 c)) = Ok (P (xs d) (vminus (c_v1 c) (c_v0 c)), w (xs d) (vminus (c_v1 c) (c_v0 c))) /\ P (xs d) (vminus (c_v1 c) (c_v0 c)) <> []) ->
  render_avg_surface 1 (Some q) xs cells = Ok (map (fun cd => P (xs (snd cd)) (vminus (c_v1 (fst cd)) (c_v0 (fst cd)))) (pairs cells)).
Proof.
  intros H. rewrite render_shape by (intros c d Hc Hd; rewrite cell_dofs_1 in Hd; apply H; assumption). f_equal.
  unfold pairs. clear H. induction cells as [| c cells IH]; [reflexivity |]. cbn [flat_map]. rewrite map_app, map_map, IH, cell_dofs_1. reflexivity.
Qed.
End Curves.

Lemma Forall2_map_r {A B} (Rel : A -> B -> Prop) (f : A -> B) l : (forall a, In a l -> Rel a (f a)) -> Forall2 Rel l (map f l).
Proof. induction l as [| a l IH]; intros H; [constructor |]. cbn [map]. constructor; [apply H; left; reflexivity | apply IH; intros; apply H; right; assumption]. Qed.
Lemma Forall2_map_lr {A B C} (Rel : B -> C -> Prop) (f : A -> B) (g : A -> C) l : (forall a, In a l -> Rel (f a) (g a)) -> Forall2 Rel (map f l) (map g l).
Proof. induction l as [| a l IH]; intros H; [constructor |]. cbn [map]. constructor; [apply H; left; reflexivity | apply IH; intros; apply H; right; assumption]. Qed.
Lemma combine_map {A B C} (f : A -> B) (g : A -> C) l : combine (map f l) (map g l) = map (fun a => (f a, g a)) l.
Proof. induction l as [| a l IH]; [reflexivity |]. cbn [map combine]. rewrite IH. reflexivity. Qed.
Lemma pairs_in cells c d : In (c, d) (pairs cells) <-> In c cells /\ In d (c_dofs c).
Proof.
  unfold pairs. rewrite in_flat_map. split.
  - intros (c' & Hc & H). apply in_map_iff in H. destruct H as (d' & E & Hd). injection E as -> ->. split; assumption.
  - intros [Hc Hd]. exists c. split; [assumption |]. apply in_map_iff. exists d. split; [reflexivity | assumption].
Qed.

Lemma minus_nonzero a b : a <> b -> nonzero (vminus b a).
Proof.
  destruct a as [a1 a2 a3], b as [b1 b2 b3]. unfold nonzero, vminus. cbn [vx vy vz]. intros H.
  destruct (Req_dec (b1 - a1) 0) as [E1 |]; [| left; assumption]. destruct (Req_dec (b2 - a2) 0) as [E2 |]; [| right; left; assumption]. destruct (Req_dec (b3 - a3) 0) as [E3 |]; [| right; right; assumption].
  exfalso. apply H. f_equal; lra.
Qed.
Lemma minus_swap a b : vminus a b = vmul (-1) (vminus b a).
Proof. unfold vminus, vmul. cbn [vx vy vz]. f_equal; ring. Qed.
Lemma norm_opp n : norm3 (vmul (-1) n) = norm3 n.
Proof. unfold norm3. f_equal. unfold vdot3, vmul. cbn [vx vy vz]. ring. Qed.
Lemma sine_opp n : sine_to_axis (vmul (-1) n) = sine_to_axis n.
Proof. unfold sine_to_axis, vmul. cbn [vx vy vz]. f_equal. f_equal; ring || (f_equal; ring). Qed.
Lemma plane_opp x n p : in_plane x (vmul (-1) n) p <-> in_plane x n p.
Proof. unfold in_plane, vmul. cbn [vx vy vz]. split; intros H; lra. Qed.

(** The circle *)
Definition circle_points (radius : v3 -> R) (gauss : list (R * R)) (x n : v3) : list v3 :=
  map (fun g => vplus x (vmul (radius x) (app3 (rotation (vmul (/ norm3 n) n)) (V3 (cos (PI * fst g)) (sin (PI * fst g)) 0)))) gauss.
Lemma circle_ok radius gauss x n : nonzero n -> circle_quadrature radius gauss x n = Ok (circle_points radius gauss x n, map (fun g => snd g * radius x * PI) gauss).
Proof.
  intros NZ. apply nonzero_norm in NZ. unfold circle_quadrature. rewrite (mapM_ok _ (fun y => vplus x (vmul (radius x) (app3 (rotation (vmul (/ norm3 n) n)) y)))) by (intros; apply map_ok; assumption).
  cbn [bind]. rewrite map_map. reflexivity.
Qed.

(** Turning with the axis: Rodrigues *)
Lemma rotation_apply n p q : let a := rotation_axis n in let c := vz n in let s := sqrt (1 - vz n ^ 2) in let x := V3 p q 0 in
  app3 (rotation n) x = vplus (vplus (vmul c x) (vmul s (cross a x))) (vmul ((1 - c) * vdot3 a x) a).
Proof.
  cbn zeta. unfold rotation. cbn zeta. assert (vdot3 ez n = vz n) as -> by (unfold vdot3, ez; cbn [vx vy vz]; ring). generalize (rotation_axis n), (sqrt (1 - vz n ^ 2)), (vz n). intros [a1 a2 a3] s c.
  unfold app3, vplus, vmul, cross, vdot3. cbn [vx vy vz]. f_equal; ring.
Qed.
Lemma axis_opp n : ~ norm3 (cross ez n) < tol13 -> rotation_axis (vmul (-1) n) = vmul (-1) (rotation_axis n).
Proof.
  intros H. assert (E : cross ez (vmul (-1) n) = vmul (-1) (cross ez n)) by (unfold cross, vmul, ez; cbn [vx vy vz]; f_equal; ring).
  unfold rotation_axis. rewrite E, norm_opp. cbn zeta. destruct (Rlt_dec (norm3 (cross ez n)) tol13); [contradiction |]. unfold vmul. cbn [vx vy vz]. f_equal; ring.
Qed.
Lemma axis_unit n : ~ norm3 (cross ez n) < tol13 -> vdot3 (rotation_axis n) (rotation_axis n) = 1 /\ exists k, rotation_axis n = vmul k (cross ez n).
Proof.
  intros H. unfold rotation_axis. cbn zeta. destruct (Rlt_dec (norm3 (cross ez n)) tol13); [contradiction |]. split; [| eexists; reflexivity].
  apply unit_of. pose proof tol13_pos. lra.
Qed.
Lemma turned n p q : ~ norm3 (cross ez n) < tol13 -> let a := rotation_axis n in let y := app3 (rotation n) (V3 p q 0) in
  app3 (rotation (vmul (-1) n)) (V3 p q 0) = vminus (vmul (2 * vdot3 a y) a) y.
Proof.
  intros H a y. unfold y. rewrite !rotation_apply, (axis_opp n H). cbn zeta. fold a. destruct (axis_unit n H) as [U _]. fold a in U.
  assert (vz (vmul (-1) n) = - vz n) as -> by (unfold vmul; cbn [vz]; ring). assert (sqrt (1 - (- vz n) ^ 2) = sqrt (1 - vz n ^ 2)) as -> by (f_equal; ring).
  generalize (sqrt (1 - vz n ^ 2)). intros s. generalize (vz n). intros c. clearbody a. destruct a as [a1 a2 a3]. unfold vdot3 in U. cbn [vx vy vz] in U.
  assert (D : vdot3 (V3 a1 a2 a3) (vplus (vplus (vmul c (V3 p q 0)) (vmul s (cross (V3 a1 a2 a3) (V3 p q 0)))) (vmul ((1 - c) * vdot3 (V3 a1 a2 a3) (V3 p q 0)) (V3 a1 a2 a3))) = a1 * p + a2 * q).
  { transitivity (c * (a1 * p + a2 * q) + (1 - c) * (a1 * p + a2 * q) * (a1 * a1 + a2 * a2 + a3 * a3)); [unfold vdot3, vplus, vmul, cross; cbn [vx vy vz]; ring | rewrite U; ring]. }
  rewrite D. unfold vminus, vplus, vmul, cross, vdot3. cbn [vx vy vz]. f_equal; ring.
Qed.
Lemma turned_axis n p q : norm3 (cross ez n) < tol13 -> vz n ^ 2 = 1 -> app3 (rotation (vmul (-1) n)) (V3 p q 0) = vmul (-1) (app3 (rotation n) (V3 p q 0)).
Proof.
  intros H Z. rewrite !rotation_apply. cbn zeta. assert (E : cross ez (vmul (-1) n) = vmul (-1) (cross ez n)) by (unfold cross, vmul, ez; cbn [vx vy vz]; f_equal; ring).
  unfold rotation_axis. rewrite E, norm_opp. cbn zeta. destruct (Rlt_dec (norm3 (cross ez n)) tol13); [| contradiction].
  assert (vz (vmul (-1) n) = - vz n) as -> by (unfold vmul; cbn [vz]; ring). replace ((- vz n) ^ 2) with (vz n ^ 2) by ring. rewrite Z, Rminus_diag_eq, sqrt_0 by reflexivity.
  unfold vplus, vmul, cross, vdot3, ez. cbn [vx vy vz]. f_equal; ring.
Qed.

(** The squares *)
Lemma frame_opp x n P a b : frame x (vmul (-1) n) P a b = frame x n P a (- b).
Proof. unfold frame. rewrite norm_opp. unfold vplus, vmul, cross, vminus. cbn [vx vy vz]. f_equal; ring. Qed.
Definition square_points (P : v3 -> v3) (gauss : list (R * R)) (x n : v3) : list v3 :=
  map (fun xy => frame x n (P x) (- (fst xy + snd xy) / 2) ((fst xy - snd xy) / 2)) (list_prod (map fst gauss) (map fst gauss)).
Lemma square_points_ok P gauss x n : nonzero n -> in_plane x n (P x) -> on_interval gauss -> exists w, square_quadrature P gauss x n = Ok (square_points P gauss x n, w).
Proof.
  intros NZ PL [GI GW]. apply nonzero_norm in NZ. unfold square_quadrature. rewrite corners_ok by assumption. cbn [bind fst snd].
  assert (B1 : forall t, t = 1 \/ t = -1 -> Rabs t <= 1). { intros t [-> | ->]; [rewrite Rabs_R1; lra |]. rewrite Rabs_left; lra. }
  rewrite !square_map_frame by (first [assumption | apply B1; auto]). cbn [bind].
  rewrite (mapM_ok _ (fun xy => frame x n (P x) (- (fst xy + snd xy) / 2) ((fst xy - snd xy) / 2))).
  2:{ intros [s t] H. apply in_prod_iff in H. destruct H as [Hx Hy]. apply in_map_iff in Hx. apply in_map_iff in Hy. destruct Hx as (g & <- & Hg). destruct Hy as (g' & <- & Hg').
      cbn [fst snd]; apply square_map_frame; auto. }
  cbn [bind]. eexists. reflexivity.
Qed.
Lemma square_points_opp P gauss x n p : In p (square_points P gauss x n) -> In p (square_points P gauss x (vmul (-1) n)).
Proof.
  unfold square_points. intros H. apply in_map_iff in H. destruct H as ([s t] & <- & H). apply in_prod_iff in H. apply in_map_iff. exists (t, s). split; [| apply in_prod_iff; tauto].
  cbn [fst snd]. rewrite frame_opp. f_equal; field.
Qed.
Definition rim_points (P : v3 -> v3) (gauss : list (R * R)) (x n : v3) : list v3 :=
  concat (map (fun t => [frame x n (P x) ((1 - t) / 2) ((1 + t) / 2); frame x n (P x) (- (1 + t) / 2) ((1 - t) / 2); frame x n (P x) (- (1 - t) / 2) (- (1 + t) / 2); frame x n (P x) ((1 + t) / 2) (- (1 - t) / 2)]) (map fst gauss)).
Lemma rim_points_ok P gauss x n : nonzero n -> in_plane x n (P x) -> on_interval gauss -> exists w, rim_quadrature P gauss x n = Ok (rim_points P gauss x n, w).
Proof.
  intros NZ PL [GI GW]. apply nonzero_norm in NZ. unfold rim_quadrature. rewrite corners_ok by assumption. cbn [bind fst snd].
  assert (B1 : Rabs (-1) <= 1) by (rewrite Rabs_left; lra). rewrite rim_map_frame by assumption. cbn [bind nth].
  rewrite (mapM_ok _ (fun t => [frame x n (P x) ((1 - t) / 2) ((1 + t) / 2); frame x n (P x) (- (1 + t) / 2) ((1 - t) / 2); frame x n (P x) (- (1 - t) / 2) (- (1 + t) / 2); frame x n (P x) ((1 + t) / 2) (- (1 - t) / 2)])).
  2:{ intros t Hx. apply in_map_iff in Hx. destruct Hx as (g & <- & Hg). apply rim_map_frame; auto. }
  cbn [bind]. eexists. reflexivity.
Qed.
Lemma rim_points_opp P gauss x n p : (forall t, In t (map fst gauss) -> In (- t) (map fst gauss)) -> In p (rim_points P gauss x n) -> In p (rim_points P gauss x (vmul (-1) n)).
Proof.
  intros S H. unfold rim_points in *. apply in_concat in H. destruct H as (l & Hl & Hp). apply in_map_iff in Hl. destruct Hl as (t & <- & Ht). apply in_concat.
  eexists. split; [apply in_map_iff; exists (- t); split; [reflexivity | apply S, Ht] |]. rewrite !frame_opp.
  destruct Hp as [<- | [<- | [<- | [<- | []]]]]; [right; right; right; left | right; right; left | right; left | left]; f_equal; field.
Qed.
