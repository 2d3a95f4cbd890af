(** Specification of winding numbers, and convergence of the midpoint rule. *)
From Coq Require Import Reals Lra Lia ZArith.
From Verif Require Import Base BaseProofs TangentModel TangentProofs WindModel.
Local Open Scope R_scope.

(** ** Specification *)
Definition cross (a b : R * R) : R := fst a * snd b - snd a * fst b.
Definition scal (a b : R * R) : R := fst a * fst b + snd a * snd b.
Definition minus (a b : R * R) : R * R := (fst a - fst b, snd a - snd b).
Definition len (a : R * R) : R := sqrt (scal a a).
(** The point at [t] on the way from [p] to [q] *)
Definition on_way (p q : R * R) (t : R) : R * R := (fst p + t * (fst q - fst p), snd p + t * (snd q - snd p)).
(** [th] is the angle, counterclockwise, by which the view from [c] turns on the
    way from [p] to [q] *)
Definition turns (c p q : R * R) (th : R) : Prop :=
  - PI < th < PI /\
  scal (minus p c) (minus q c) = len (minus p c) * len (minus q c) * cos th /\
  cross (minus p c) (minus q c) = len (minus p c) * len (minus q c) * sin th.
(** The turns along a path add up to [a] *)
Fixpoint total_turn (c p : R * R) (path : list (R * R)) (a : R) : Prop :=
  match path with
  | [] => a = 0
  | q :: path' => exists th a', turns c p q th /\ total_turn c q path' a' /\ a = th + a'
  end.
(** A closed contour: from its first point on, and back to it *)
Fixpoint ends_at (p : R * R) (path : list (R * R)) (e : R * R) : Prop :=
  match path with [] => p = e | q :: path' => ends_at q path' e end.
(** Edges have a length, and [c] is on none *)
Fixpoint avoids (c p : R * R) (path : list (R * R)) : Prop :=
  match path with
  | [] => True
  | q :: path' => p <> q /\ (forall t, 0 <= t <= 1 -> on_way p q t <> c) /\ avoids c q path'
  end.
(** the contour p, path goes k times around c *)
Definition winds (c p : R * R) (path : list (R * R)) (k : Z) : Prop := total_turn c p path (2 * PI * IZR k).

(** ** Edges *)
Lemma pair_eq : forall (a b : R * R), fst a = fst b -> snd a = snd b -> a = b.
Proof. intros [a1 a2] [b1 b2]. cbn. intros -> ->. reflexivity. Qed.
Lemma sq_pos : forall x y : R, (x <> 0 \/ y <> 0) -> 0 < x * x + y * y.
Proof. intros x y [H | H]; [pose proof (Rsqr_pos_lt x H); pose proof (Rle_0_sqr y) | pose proof (Rsqr_pos_lt y H); pose proof (Rle_0_sqr x)]; unfold Rsqr in *; lra. Qed.
Lemma sq_nonneg : forall x y : R, 0 <= x * x + y * y.
Proof. intros x y. pose proof (Rle_0_sqr x). pose proof (Rle_0_sqr y). unfold Rsqr in *. lra. Qed.
Lemma sq_neg_zero : forall x y : R, x * x + y * y = 0 -> x = 0 /\ y = 0.
Proof. intros x y H. destruct (Req_dec x 0), (Req_dec y 0); auto; pose proof (sq_pos x y); lra. Qed.
Lemma pair_neq : forall (p q : R * R), p <> q -> fst q - fst p <> 0 \/ snd q - snd p <> 0.
Proof.
  intros p q H. destruct (Req_dec (fst q - fst p) 0) as [E1 | E1]; auto. right. intros E2. apply H. apply pair_eq; lra.
Qed.
Lemma len_sq : forall a, len a * len a = scal a a.
Proof. intros a. unfold len. apply sqrt_sqrt. apply sq_nonneg. Qed.
Lemma len_pos : forall a, a <> (0, 0) -> 0 < len a.
Proof.
  intros a H. unfold len, scal. apply sqrt_lt_R0. apply sq_pos.
  destruct (Req_dec (fst a) 0) as [E1 | E1]; auto. right. intros E2. apply H. apply pair_eq; auto.
Qed.

Section Edge.
Variables c p q : R * R.
Hypothesis Hpq : p <> q.
Hypothesis Hoff : forall t, 0 <= t <= 1 -> on_way p q t <> c.
Let cr := cross (minus p c) (minus q c).
Let d := minus q p.
Let at_ t := minus (on_way p q t) c.
Let quad t := scal (at_ t) (at_ t).
Let dd := scal d d.
Definition rate (t : R) : R := cr / quad t.

Lemma dd_pos : 0 < dd.
Proof. unfold dd, d, scal, minus. cbn [fst snd]. apply sq_pos, pair_neq, Hpq. Qed.
Lemma quad_pos : forall t, 0 <= t <= 1 -> 0 < quad t.
Proof.
  intros t Ht. unfold quad, at_, scal, minus. cbn [fst snd]. apply sq_pos.
  destruct (Req_dec (fst (on_way p q t) - fst c) 0) as [E1 | E1]; auto. right. intros E2. apply (Hoff t Ht). apply pair_eq; lra.
Qed.
Lemma quad_id : forall t, quad t * dd = cr * cr + scal (at_ t) d * scal (at_ t) d.
Proof. intros t. unfold quad, dd, cr, d, at_, scal, cross, minus, on_way. cbn [fst snd]. ring. Qed.

(** the term of a part of the edge *)
Lemma part_term : forall s t, 0 <= s -> s < t -> t <= 1 ->
  edge_term c (on_way p q s, on_way p q t) = Some ((t - s) * rate ((s + t) / 2)).
Proof.
  intros s t Hs Hst Ht. unfold edge_term.
  set (e := (on_way p q s, on_way p q t)). set (dx := fst (snd e) - fst (fst e)). set (dy := snd (snd e) - snd (fst e)).
  assert (Edx : dx = (t - s) * fst d) by (unfold dx, e, d, on_way, minus; cbn [fst snd]; ring).
  assert (Edy : dy = (t - s) * snd d) by (unfold dy, e, d, on_way, minus; cbn [fst snd]; ring).
  assert (Hl : 0 < dx ^ 2 + dy ^ 2).
  { rewrite Edx, Edy. replace (((t - s) * fst d) ^ 2 + ((t - s) * snd d) ^ 2) with ((t - s) * (t - s) * dd) by (unfold dd, scal; ring).
    apply Rmult_lt_0_compat; [apply Rmult_lt_0_compat; lra | apply dd_pos]. }
  assert (Hdl : 0 < sqrt (dx ^ 2 + dy ^ 2)) by (apply sqrt_lt_R0; auto).
  assert (Em : mid e = on_way p q ((s + t) / 2)).
  { unfold mid, e, on_way. cbn [fst snd]. apply pair_eq; cbn [fst snd]; lra. }
  rewrite Em. set (m := (s + t) / 2). cbn [fst snd].
  assert (Hm : 0 <= m <= 1) by (unfold m; lra).
  assert (Eq : (fst (on_way p q m) - fst c) ^ 2 + (snd (on_way p q m) - snd c) ^ 2 = quad m) by (unfold quad, at_, scal, minus; cbn [fst snd]; ring).
  rewrite Eq. pose proof (quad_pos m Hm) as Hq. assert (Hn : 0 < sqrt (quad m)) by (apply sqrt_lt_R0; auto).
  destruct (Req_EM_T (sqrt (dx ^ 2 + dy ^ 2)) 0) as [E | _]; [lra |].
  destruct (Req_EM_T (sqrt (quad m)) 0) as [E | _]; [lra |]. f_equal.
  replace (sqrt (quad m) ^ 2) with (quad m) by (rewrite <- (sqrt_sqrt (quad m)) at 1 by lra; ring).
  unfold rate.
  replace (cr) with ((fst (on_way p q m) - fst c) * snd d - (snd (on_way p q m) - snd c) * fst d)
    by (unfold cr, d, cross, minus, on_way; cbn [fst snd]; ring).
  rewrite Edx, Edy. rewrite Edx, Edy in Hdl. field. split; lra.
Qed.

(** a bound of the change of the rate *)
Lemma rate_lipschitz : exists K, 0 <= K /\ forall s t, 0 <= s <= 1 -> 0 <= t <= 1 -> Rabs (rate s - rate t) <= K * Rabs (s - t).
Proof.
  destruct (Req_dec cr 0) as [Ecr | Hcr].
  - exists 0. split; [lra |]. intros s t _ _. unfold rate. rewrite Ecr. unfold Rdiv. rewrite !Rmult_0_l, Rminus_0_r, Rabs_R0. lra.
  - pose proof dd_pos as Hd.
    set (mn := cr * cr / dd).
    assert (Hmn : 0 < mn). { unfold mn. apply Rmult_lt_0_compat; [| apply Rinv_0_lt_compat; auto]. apply (Rsqr_pos_lt cr Hcr). }
    assert (Hlow : forall t, 0 <= t <= 1 -> mn <= quad t).
    { intros t Ht. unfold mn. apply Rmult_le_reg_r with dd; auto. rewrite quad_id. unfold Rdiv. rewrite Rmult_assoc, Rinv_l, Rmult_1_r by lra.
      pose proof (Rle_0_sqr (scal (at_ t) d)). unfold Rsqr in *. lra. }
    set (L := 2 * Rabs (scal (at_ 0) d) + 2 * dd).
    assert (HL : 0 <= L). { unfold L. pose proof (Rabs_pos (scal (at_ 0) d)). lra. }
    assert (Hdiff : forall s t, 0 <= s <= 1 -> 0 <= t <= 1 -> Rabs (quad t - quad s) <= L * Rabs (s - t)).
    { intros s t Hs Ht. replace (quad t - quad s) with ((t - s) * (2 * scal (at_ 0) d + (t + s) * dd)) by (unfold quad, dd, at_, d, scal, minus, on_way; cbn [fst snd]; ring).
      rewrite Rabs_mult, (Rabs_minus_sym t s), Rmult_comm. apply Rmult_le_compat_r; [apply Rabs_pos |].
      eapply Rle_trans; [apply Rabs_triang |]. unfold L. rewrite !Rabs_mult. apply Rplus_le_compat.
      - rewrite (Rabs_right 2) by lra. lra.
      - rewrite (Rabs_right (t + s)), (Rabs_right dd) by lra. apply Rmult_le_compat_r; lra. }
    exists (Rabs cr * (L * / (mn * mn))). split.
    + apply Rmult_le_pos; [apply Rabs_pos |]. apply Rmult_le_pos; auto. left. apply Rinv_0_lt_compat, Rmult_lt_0_compat; auto.
    + intros s t Hs Ht. pose proof (Hlow s Hs) as H1. pose proof (Hlow t Ht) as H2. unfold rate.
      replace (cr / quad s - cr / quad t) with (cr * ((quad t - quad s) * / (quad s * quad t))) by (field; lra).
      rewrite !Rabs_mult. rewrite Rmult_assoc. apply Rmult_le_compat_l; [apply Rabs_pos |].
      replace (L * / (mn * mn) * Rabs (s - t)) with (L * Rabs (s - t) * / (mn * mn)) by ring.
      apply Rmult_le_compat; [apply Rabs_pos | apply Rabs_pos | auto |].
      rewrite Rabs_right.
      * apply Rinv_le_contravar; [apply Rmult_lt_0_compat; auto |]. apply Rmult_le_compat; lra.
      * left. apply Rinv_0_lt_compat. apply Rmult_lt_0_compat; lra.
Qed.

(** an angle that grows with the rate *)
Definition angle_at (t : R) : R := if Req_EM_T cr 0 then 0 else atan (scal (at_ t) d / cr).
Lemma angle_deriv : forall t, 0 <= t <= 1 -> derivable_pt_lim angle_at t (rate t).
Proof.
  intros t Ht. unfold angle_at. destruct (Req_EM_T cr 0) as [E | Hcr].
  - unfold rate. rewrite E. unfold Rdiv. rewrite Rmult_0_l. apply (derivable_pt_lim_const 0).
  - pose proof (quad_pos t Ht) as Hq. pose proof dd_pos as Hd.
    set (f := fun t : R => scal (at_ t) d / cr).
    assert (Hf : derivable_pt_lim f t (dd / cr)).
    { intros eps Heps. exists (mkposreal 1 Rlt_0_1). intros h Hh _.
      replace ((f (t + h) - f t) / h - dd / cr) with 0; [rewrite Rabs_R0; auto |].
      unfold f, dd, at_, d, scal, minus, on_way. cbn [fst snd]. field. split; auto. }
    replace (rate t) with (/ (1 + (f t) ^ 2) * (dd / cr)).
    + apply (derivable_pt_lim_comp f atan); auto. apply derivable_pt_lim_atan.
    + unfold rate, f.
      assert (E : 1 + (scal (at_ t) d / cr) ^ 2 = quad t * dd / (cr * cr)).
      { rewrite quad_id. field. auto. }
      rewrite E. field. repeat split; lra.
Qed.
Definition angle : R := angle_at 1 - angle_at 0.

Lemma angle_turns : turns c p q angle.
Proof.
  assert (E0 : at_ 0 = minus p c) by (unfold at_, minus, on_way; apply pair_eq; cbn [fst snd]; ring).
  assert (E1 : at_ 1 = minus q c) by (unfold at_, minus, on_way; apply pair_eq; cbn [fst snd]; ring).
  assert (Hp : 0 < quad 0) by (apply quad_pos; lra). assert (Hq : 0 < quad 1) by (apply quad_pos; lra).
  assert (Lp : len (minus p c) = sqrt (quad 0)) by (unfold quad; rewrite E0; reflexivity).
  assert (Lq : len (minus q c) = sqrt (quad 1)) by (unfold quad; rewrite E1; reflexivity).
  unfold turns. rewrite Lp, Lq. fold cr.
  assert (Hsp : 0 < sqrt (quad 0)) by (apply sqrt_lt_R0; auto). assert (Hsq : 0 < sqrt (quad 1)) by (apply sqrt_lt_R0; auto).
  pose proof PI_RGT_0 as Hpi. unfold angle, angle_at. destruct (Req_EM_T cr 0) as [E | Hcr].
  - rewrite Rminus_0_r, cos_0, sin_0, E. split; [lra |]. split; [| ring].
    set (A := minus p c) in *. set (B := minus q c) in *.
    assert (Hlag : scal A B * scal A B = quad 0 * quad 1).
    { unfold quad. rewrite E0, E1. replace (scal A A * scal B B) with (scal A B * scal A B + cr * cr) by (unfold cr, scal, cross; ring). rewrite E. ring. }
    assert (Hpos : 0 < scal A B).
    { destruct (Rlt_dec 0 (scal A B)) as [H | H]; auto. exfalso.
      (* where the projection vanishes the point is c *)
      set (t := quad 0 / (quad 0 - scal A B)).
      assert (Hden : 0 < quad 0 - scal A B) by lra.
      assert (Ht : 0 <= t <= 1).
      { unfold t. split; [apply Rmult_le_pos; [lra | left; apply Rinv_0_lt_compat; auto] |].
        apply Rmult_le_reg_r with (quad 0 - scal A B); auto. unfold Rdiv. rewrite Rmult_assoc, Rinv_l by lra. lra. }
      pose proof (quad_pos t Ht) as Hqt.
      assert (Hz : quad t * quad 0 = 0).
      { replace (quad t * quad 0) with ((scal (at_ t) A) * (scal (at_ t) A) + cross A (at_ t) * cross A (at_ t)).
        - replace (cross A (at_ t)) with (t * cr) by (unfold cr, A, B, cross, at_, minus, on_way; cbn [fst snd]; ring). rewrite E.
          replace (scal (at_ t) A) with (quad 0 - t * (quad 0 - scal A B)).
          + unfold t. replace (quad 0 - quad 0 / (quad 0 - scal A B) * (quad 0 - scal A B)) with 0 by (field; lra). ring.
          + unfold quad. rewrite E0. unfold A, B, scal, at_, minus, on_way. cbn [fst snd]. ring.
        - unfold quad. rewrite E0. unfold scal, cross. ring. }
      assert (0 < quad t * quad 0) by (apply Rmult_lt_0_compat; auto). lra. }
    rewrite Rmult_1_r. rewrite <- sqrt_mult by lra. rewrite <- Hlag. symmetry. apply sqrt_square. lra.
  - set (x := scal (at_ 0) d / cr). set (y := scal (at_ 1) d / cr).
    pose proof (atan_bound x). pose proof (atan_bound y). split; [lra |].
    pose proof dd_pos as Hd.
    assert (Hs : forall t, 0 < quad t -> sqrt (1 + Rsqr (scal (at_ t) d / cr)) = sqrt (quad t) * sqrt dd / Rabs cr).
    { intros t Ht. replace (1 + Rsqr (scal (at_ t) d / cr)) with (quad t * dd / Rsqr cr).
      - rewrite sqrt_div; [| apply Rmult_le_pos; lra | apply Rsqr_pos_lt; auto]. rewrite sqrt_mult by lra. rewrite sqrt_Rsqr_abs. reflexivity.
      - rewrite quad_id. unfold Rsqr. field. auto. }
    assert (Ha : 0 < Rabs cr) by (apply Rabs_pos_lt; auto).
    assert (Hsd : 0 < sqrt dd) by (apply sqrt_lt_R0; auto).
    assert (Hdd : sqrt dd * sqrt dd = dd) by (apply sqrt_sqrt; lra).
    assert (Haa : Rabs cr * Rabs cr = cr * cr) by (rewrite <- Rabs_mult; apply Rabs_right; pose proof (Rle_0_sqr cr) as Hx; unfold Rsqr in Hx; lra).
    rewrite cos_minus, sin_minus, !cos_atan, !sin_atan. unfold x, y. rewrite (Hs 0 Hp), (Hs 1 Hq).
    set (a := sqrt (quad 0)) in *. set (b := sqrt (quad 1)) in *. set (k := sqrt dd) in *.
    split.
    + replace (scal (minus p c) (minus q c)) with ((cr * cr + scal (at_ 0) d * scal (at_ 1) d) / dd).
      * transitivity ((cr * cr + scal (at_ 0) d * scal (at_ 1) d) / (k * k)); [rewrite Hdd; reflexivity |].
        transitivity ((Rabs cr * Rabs cr + (Rabs cr * Rabs cr) / (cr * cr) * (scal (at_ 0) d * scal (at_ 1) d)) / (k * k)).
        -- rewrite Haa. field. split; auto; lra.
        -- field. repeat split; lra.
      * rewrite E0, E1. apply Rmult_eq_reg_r with dd; [| lra]. unfold Rdiv. rewrite Rmult_assoc, Rinv_l, Rmult_1_r by lra.
        unfold cr, dd, d, scal, cross, minus. cbn [fst snd]. ring.
    + transitivity ((Rabs cr * Rabs cr) / cr * (scal (at_ 1) d - scal (at_ 0) d) / (k * k)).
      * rewrite Haa, Hdd. replace (scal (at_ 1) d - scal (at_ 0) d) with dd by (unfold dd, at_, d, scal, minus, on_way; cbn [fst snd]; ring).
        field. split; auto; lra.
      * field. repeat split; lra.
Qed.
End Edge.

(** ** Refinement *)
Fixpoint edges_of (p : R * R) (path : list (R * R)) : list ((R * R) * (R * R)) :=
  match path with [] => [] | q :: path' => (p, q) :: edges_of q path' end.
Lemma segments_edges : forall path p, segments (p :: path) = edges_of p path.
Proof. induction path as [| q path IH]; intros p; [reflexivity |]. cbn [edges_of]. rewrite <- (IH q). reflexivity. Qed.
Lemma last_ends : forall path p e x, ends_at p path e -> last (p :: path) x = e.
Proof. induction path as [| q path IH]; intros p e x H; [exact H |]. apply (IH q e x H). Qed.

Fixpoint refined (p : R * R) (path : list (R * R)) : list (R * R) :=
  match path with [] => [] | q :: path' => mid (p, q) :: q :: refined q path' end.
Lemma refined_points : forall path p e, ends_at p path e ->
  flat_map (fun s => [fst s; mid s]) (edges_of p path) ++ [e] = p :: refined p path.
Proof.
  induction path as [| q path IH]; intros p e H; cbn in H; [subst; reflexivity |].
  cbn [edges_of flat_map refined app fst]. rewrite (IH q e H). reflexivity.
Qed.
Lemma refined_ends : forall path p e, ends_at p path e -> ends_at p (refined p path) e.
Proof. induction path as [| q path IH]; intros p e H; [exact H |]. apply (IH q e H). Qed.
Lemma refine_once_ok : forall p path, ends_at p path p -> refine_once (p :: path) = Ok (p :: refined p path).
Proof. intros p path H. unfold refine_once. rewrite segments_edges, (refined_points path p p H). reflexivity. Qed.

Fixpoint refined_n (n : nat) (p : R * R) (path : list (R * R)) : list (R * R) :=
  match n with O => path | S n' => refined_n n' p (refined p path) end.
Lemma refine_times_ok : forall n p path, ends_at p path p -> refine_times (p :: path) n = Ok (p :: refined_n n p path).
Proof.
  induction n as [| n IH]; intros p path H; [reflexivity |]. destruct n as [| n].
  - apply refine_once_ok; auto.
  - change (refine_times (p :: path) (S (S n))) with (do finer <- refine_once (p :: path); refine_times finer (S n)).
    rewrite (refine_once_ok p path H). cbn [bind]. rewrite (IH p (refined p path) (refined_ends path p p H)). reflexivity.
Qed.
Lemma refined_n_ends : forall n p path e, ends_at p path e -> ends_at p (refined_n n p path) e.
Proof. induction n as [| n IH]; intros p path e H; [exact H |]. apply IH, refined_ends, H. Qed.

Definition halves (e : (R * R) * (R * R)) : list ((R * R) * (R * R)) := [(fst e, mid e); (mid e, snd e)].
Fixpoint parts (n : nat) (e : (R * R) * (R * R)) : list ((R * R) * (R * R)) :=
  match n with O => [e] | S n' => flat_map (parts n') (halves e) end.
Lemma refined_edges : forall path p, edges_of p (refined p path) = flat_map halves (edges_of p path).
Proof. induction path as [| q path IH]; intros p; [reflexivity |]. cbn [refined edges_of flat_map halves app fst snd]. rewrite (IH q). reflexivity. Qed.
Lemma flat_map_twice : forall {A B C} (f : A -> list B) (g : B -> list C) l, flat_map g (flat_map f l) = flat_map (fun x => flat_map g (f x)) l.
Proof. induction l as [| x l IH]; [reflexivity |]. cbn [flat_map]. rewrite flat_map_app, IH. reflexivity. Qed.
Lemma refined_n_edges : forall n p path, edges_of p (refined_n n p path) = flat_map (parts n) (edges_of p path).
Proof.
  induction n as [| n IH]; intros p path; cbn [refined_n parts].
  - induction (edges_of p path) as [| e l IHl]; [reflexivity |]. cbn [flat_map app]. rewrite <- IHl. reflexivity.
  - rewrite IH, refined_edges, flat_map_twice. reflexivity.
Qed.
Lemma refined_length : forall path p, length (refined p path) = (2 * length path)%nat.
Proof. induction path as [| q path IH]; intros p; [reflexivity |]. cbn [refined length]. rewrite IH. lia. Qed.
Lemma refined_n_length : forall n p path, length (refined_n n p path) = (2 ^ n * length path)%nat.
Proof. induction n as [| n IH]; intros p path; cbn [refined_n Nat.pow]; [lia |]. rewrite IH, refined_length. lia. Qed.
Lemma refined_in : forall path p x, In x path -> In x (refined p path).
Proof.
  induction path as [| q path IH]; intros p x Hx; [destruct Hx |]. cbn [refined]. destruct Hx as [-> | Hx]; [right; left; auto | right; right; auto].
Qed.
Lemma refined_n_in : forall n path p x, In x path -> In x (refined_n n p path).
Proof. induction n as [| n IH]; intros path p x Hx; auto. cbn. apply IH, refined_in, Hx. Qed.

(** ** Sums *)
Lemma nan_sum_app : forall a b x y, nan_sum a = Some x -> nan_sum b = Some y -> nan_sum (a ++ b) = Some (x + y).
Proof.
  induction a as [| [v |] a IH]; intros b x y Ha Hb; cbn [nan_sum app] in *.
  - injection Ha as <-. rewrite Hb. f_equal. lra.
  - destruct (nan_sum a) as [s |]; [| discriminate]. injection Ha as <-. rewrite (IH b s y eq_refl Hb). f_equal. lra.
  - discriminate.
Qed.

Lemma half_pow : forall K n, K * (1 / 2 ^ n) = K / 2 ^ n.
Proof. intros. unfold Rdiv. ring. Qed.

Lemma parts_sum : forall c p q, p <> q -> (forall t, 0 <= t <= 1 -> on_way p q t <> c) ->
  exists K, 0 <= K /\ forall n s t, 0 <= s -> s < t -> t <= 1 ->
    exists v, nan_sum (map (edge_term c) (parts n (on_way p q s, on_way p q t))) = Some v /\
      Rabs (v - (angle_at c p q t - angle_at c p q s)) <= K * (t - s) * (t - s) / 2 ^ n.
Proof.
  intros c p q Hpq Hoff. destruct (rate_lipschitz c p q Hpq) as [K [HK Hlip]]. exists K. split; auto.
  induction n as [| n IH]; intros s t Hs Hst Ht; cbn [parts].
  - cbn [map nan_sum]. rewrite (part_term c p q Hpq Hoff s t Hs Hst Ht). eexists. split; [reflexivity |].
    destruct (MVT_cor2 (angle_at c p q) (rate c p q) s t Hst) as [x [Ex Hx]].
    { intros u Hu. apply angle_deriv; auto. lra. }
    rewrite Ex. replace ((t - s) * rate c p q ((s + t) / 2) + 0 - rate c p q x * (t - s)) with ((t - s) * (rate c p q ((s + t) / 2) - rate c p q x)) by ring.
    rewrite Rabs_mult, (Rabs_right (t - s)) by lra. cbn [pow]. unfold Rdiv. rewrite Rinv_1, Rmult_1_r.
    replace (K * (t - s) * (t - s)) with ((t - s) * (K * (t - s))) by ring. apply Rmult_le_compat_l; [lra |].
    eapply Rle_trans; [apply Hlip; lra |]. apply Rmult_le_compat_l; auto. apply Rabs_le. lra.
  - assert (Em : mid (on_way p q s, on_way p q t) = on_way p q ((s + t) / 2)).
    { unfold mid, on_way. cbn [fst snd]. apply pair_eq; cbn [fst snd]; lra. }
    unfold halves. cbn [fst snd flat_map]. rewrite Em, app_nil_r. set (m := (s + t) / 2).
    destruct (IH s m Hs) as [v1 [E1 B1]]; try (unfold m; lra). destruct (IH m t) as [v2 [E2 B2]]; try (unfold m; lra).
    rewrite map_app. exists (v1 + v2). split; [apply nan_sum_app; auto |].
    replace (v1 + v2 - (angle_at c p q t - angle_at c p q s)) with ((v1 - (angle_at c p q m - angle_at c p q s)) + (v2 - (angle_at c p q t - angle_at c p q m))) by ring.
    eapply Rle_trans; [apply Rabs_triang |]. eapply Rle_trans; [apply Rplus_le_compat; eauto |].
    replace (m - s) with ((t - s) / 2) by (unfold m; lra). replace (t - m) with ((t - s) / 2) by (unfold m; lra).
    cbn [pow]. right. field. apply pow_nonzero. lra.
Qed.

Lemma contour_sum : forall c path p, avoids c p path ->
  exists K a, 0 <= K /\ total_turn c p path a /\
    forall n, exists v, nan_sum (map (edge_term c) (flat_map (parts n) (edges_of p path))) = Some v /\ Rabs (v - a) <= K / 2 ^ n.
Proof.
  induction path as [| q path IH]; intros p H.
  - exists 0, 0. split; [lra | split; [reflexivity |]]. intros n. exists 0. split; [reflexivity |]. rewrite Rminus_0_r, Rabs_R0. unfold Rdiv. rewrite Rmult_0_l. lra.
  - destruct H as [Hpq [Hoff H]]. destruct (IH q H) as [K [a [HK [Ha Hn]]]]. destruct (parts_sum c p q Hpq Hoff) as [K' [HK' Hn']].
    exists (K' + K), (angle c p q + a). split; [lra | split].
    + exists (angle c p q), a. split; [apply angle_turns; auto | auto].
    + intros n. destruct (Hn n) as [v [E B]]. destruct (Hn' n 0 1) as [v' [E' B']]; try lra.
      assert (W0 : on_way p q 0 = p) by (unfold on_way; apply pair_eq; cbn [fst snd]; ring).
      assert (W1 : on_way p q 1 = q) by (unfold on_way; apply pair_eq; cbn [fst snd]; ring).
      rewrite W0, W1 in E'. cbn [edges_of flat_map]. rewrite map_app. exists (v' + v). split; [apply nan_sum_app; auto |].
      unfold angle. replace (v' + v - (angle_at c p q 1 - angle_at c p q 0 + a)) with ((v' - (angle_at c p q 1 - angle_at c p q 0)) + (v - a)) by ring.
      eapply Rle_trans; [apply Rabs_triang |]. replace ((K' + K) / 2 ^ n) with (K' / 2 ^ n + K / 2 ^ n) by (unfold Rdiv; ring).
      apply Rplus_le_compat; auto. replace (K' * (1 - 0) * (1 - 0)) with K' in B' by ring. auto.
Qed.

(** ** Whole turns *)
Lemma start_off : forall c p path, path <> [] -> avoids c p path -> p <> c.
Proof.
  intros c p [| q path] Hne H; [contradiction |]. destruct H as [_ [H _]]. intros E. apply (H 0); [lra |].
  unfold on_way. apply pair_eq; cbn [fst snd]; rewrite E; ring.
Qed.
Lemma end_off : forall c p q, (forall t, 0 <= t <= 1 -> on_way p q t <> c) -> q <> c.
Proof. intros c p q H E. apply (H 1); [lra |]. unfold on_way. apply pair_eq; cbn [fst snd]; rewrite E; ring. Qed.
Lemma minus_off : forall p c, p <> c -> 0 < len (minus p c).
Proof. intros p c H. apply len_pos. unfold minus. intros E. injection E as E1 E2. apply H. apply pair_eq; lra. Qed.

Lemma total_rotation : forall c path p e a, p <> c -> avoids c p path -> total_turn c p path a -> ends_at p path e ->
  scal (minus p c) (minus e c) = len (minus p c) * len (minus e c) * cos a /\
  cross (minus p c) (minus e c) = len (minus p c) * len (minus e c) * sin a.
Proof.
  induction path as [| q path IH]; intros p e a Hp Hav Ht He.
  - cbn in Ht, He. subst. rewrite cos_0, sin_0, Rmult_1_r, len_sq. split; [reflexivity | unfold cross; ring].
  - destruct Ht as [th [a' [[_ [T1 T2]] [Ht ->]]]]. destruct Hav as [_ [Hoff Hav]]. cbn in He.
    assert (Hq : q <> c) by (apply end_off with p; auto).
    destruct (IH q e a' Hq Hav Ht He) as [I1 I2].
    set (P := minus p c) in *. set (Q := minus q c) in *. set (E := minus e c) in *.
    assert (HQ : 0 < len Q) by (apply minus_off; auto). pose proof (len_sq Q) as HQQ.
    rewrite cos_plus, sin_plus. split; apply Rmult_eq_reg_l with (len Q * len Q); try (apply Rgt_not_eq, Rmult_lt_0_compat; auto).
    + transitivity (scal P Q * scal Q E - cross P Q * cross Q E).
      * rewrite HQQ. unfold scal, cross. ring.
      * rewrite T1, T2, I1, I2. ring.
    + transitivity (cross P Q * scal Q E + scal P Q * cross Q E).
      * rewrite HQQ. unfold scal, cross. ring.
      * rewrite T1, T2, I1, I2. ring.
Qed.

Lemma cos_odd : forall k : Z, cos (IZR (2 * k + 1) * PI) = -1.
Proof.
  assert (Hn : forall n : nat, forall b, cos (b + 2 * INR n * PI) = cos b) by (intros; apply cos_period).
  intros k. destruct (Z_le_gt_dec 0 k) as [H | H].
  - replace (IZR (2 * k + 1) * PI) with (PI + 2 * INR (Z.to_nat k) * PI).
    + rewrite Hn. apply cos_PI.
    + rewrite INR_IZR_INZ, Z2Nat.id by lia. rewrite plus_IZR, mult_IZR. ring.
  - rewrite <- (Hn (Z.to_nat (- k))).
    replace (IZR (2 * k + 1) * PI + 2 * INR (Z.to_nat (- k)) * PI) with PI.
    + apply cos_PI.
    + rewrite INR_IZR_INZ, Z2Nat.id by lia. rewrite plus_IZR, mult_IZR, opp_IZR. ring.
Qed.
Lemma whole_turns : forall a, cos a = 1 -> sin a = 0 -> exists k, a = 2 * PI * IZR k.
Proof.
  intros a Hc Hs. apply sin_eq_0_0 in Hs. destruct Hs as [k Hk].
  destruct (Z.Even_or_Odd k) as [[j ->] | [j ->]].
  - exists j. rewrite Hk, mult_IZR. ring.
  - rewrite Hk, cos_odd in Hc. lra.
Qed.

Lemma contour_winds : forall c p path a, path <> [] -> avoids c p path -> ends_at p path p -> total_turn c p path a -> exists k, a = 2 * PI * IZR k.
Proof.
  intros c p path a Hne Hav He Ht. assert (Hp : p <> c) by (eapply start_off; eauto).
  destruct (total_rotation c path p p a Hp Hav Ht He) as [H1 H2]. pose proof (minus_off p c Hp) as Hl.
  apply whole_turns.
  - rewrite <- len_sq in H1. apply Rmult_eq_reg_l with (len (minus p c) * len (minus p c)); [lra |]. apply Rgt_not_eq, Rmult_lt_0_compat; auto.
  - apply Rmult_eq_reg_l with (len (minus p c) * len (minus p c)).
    + rewrite <- H2. unfold cross. ring.
    + apply Rgt_not_eq, Rmult_lt_0_compat; auto.
Qed.

(** the angle is determined *)
Lemma same_angle : forall x y, - PI < x < PI -> - PI < y < PI -> cos x = cos y -> sin x = sin y -> x = y.
Proof.
  intros x y Hx Hy Hc Hs.
  assert (C : cos (x - y) = 1) by (rewrite cos_minus, Hc, Hs; pose proof (sin2_cos2 y) as E; unfold Rsqr in E; lra).
  assert (N : sin (x - y) = 0) by (rewrite sin_minus, Hc, Hs; ring).
  destruct (whole_turns _ C N) as [k Hk]. pose proof PI_RGT_0 as Hpi.
  assert (k = 0)%Z.
  { assert (Hb : -1 < IZR k < 1).
    { split; apply Rmult_lt_reg_l with (2 * PI); lra. }
    destruct Hb as [B1 B2]. apply lt_IZR in B1, B2. lia. }
  subst. lra.
Qed.
Lemma turn_unique : forall c p q x y, p <> c -> q <> c -> turns c p q x -> turns c p q y -> x = y.
Proof.
  intros c p q x y Hp Hq [Bx [Cx Sx]] [By [Cy Sy]]. pose proof (minus_off p c Hp). pose proof (minus_off q c Hq).
  assert (HL : 0 < len (minus p c) * len (minus q c)) by (apply Rmult_lt_0_compat; auto).
  apply same_angle; auto; apply Rmult_eq_reg_l with (len (minus p c) * len (minus q c)); lra.
Qed.
Lemma total_unique : forall c path p a b, avoids c p path -> total_turn c p path a -> total_turn c p path b -> a = b.
Proof.
  induction path as [| q path IH]; intros p a b Hav Ha Hb; cbn in Ha, Hb; [lra |].
  destruct Ha as [x [a' [Tx [Ha ->]]]], Hb as [y [b' [Ty [Hb ->]]]].
  assert (Hp : p <> c) by (apply (start_off c p (q :: path)); [discriminate | auto]).
  destruct Hav as [_ [Hoff Hav]].
  rewrite (turn_unique c p q x y), (IH q a' b'); auto. apply end_off with p; auto.
Qed.

(** ** Values *)
Fixpoint midpoint_sum (c p : R * R) (path : list (R * R)) : R :=
  match path with
  | [] => 0
  | q :: path' =>
      let m := minus (on_way p q (1 / 2)) c in
      cross (minus p c) (minus q c) / scal m m + midpoint_sum c q path'
  end.
Fixpoint proper (c p : R * R) (path : list (R * R)) : Prop :=
  match path with [] => True | q :: path' => p <> q /\ on_way p q (1 / 2) <> c /\ proper c q path' end.

Lemma term_value : forall c p q, p <> q -> on_way p q (1 / 2) <> c ->
  edge_term c (p, q) = Some (cross (minus p c) (minus q c) / scal (minus (on_way p q (1 / 2)) c) (minus (on_way p q (1 / 2)) c)).
Proof.
  intros c p q Hpq Hm. unfold edge_term. cbn [fst snd].
  assert (Em : mid (p, q) = on_way p q (1 / 2)) by (unfold mid, on_way; apply pair_eq; cbn [fst snd]; lra).
  rewrite Em. set (m := on_way p q (1 / 2)) in *.
  assert (Hl : 0 < (fst q - fst p) ^ 2 + (snd q - snd p) ^ 2).
  { pose proof (sq_pos _ _ (pair_neq p q Hpq)) as H. lra. }
  assert (Hn : 0 < (fst m - fst c) ^ 2 + (snd m - snd c) ^ 2).
  { assert (c <> m) as Hcm by auto. pose proof (sq_pos _ _ (pair_neq c m Hcm)) as H. lra. }
  apply sqrt_lt_R0 in Hl as Hl'. apply sqrt_lt_R0 in Hn as Hn'.
  destruct (Req_EM_T (sqrt ((fst q - fst p) ^ 2 + (snd q - snd p) ^ 2)) 0) as [E | _]; [lra |].
  destruct (Req_EM_T (sqrt ((fst m - fst c) ^ 2 + (snd m - snd c) ^ 2)) 0) as [E | _]; [lra |]. f_equal.
  replace (sqrt ((fst m - fst c) ^ 2 + (snd m - snd c) ^ 2) ^ 2) with ((fst m - fst c) ^ 2 + (snd m - snd c) ^ 2)
    by (rewrite <- (sqrt_sqrt ((fst m - fst c) ^ 2 + (snd m - snd c) ^ 2)) at 1 by lra; ring).
  assert (Ec : cross (minus p c) (minus q c) = (fst m - fst c) * (snd q - snd p) - (snd m - snd c) * (fst q - fst p)).
  { unfold m, cross, minus, on_way. cbn [fst snd]. field. }
  rewrite Ec. unfold scal, minus. cbn [fst snd]. field. split; lra.
Qed.
Lemma sum_value : forall c path p, proper c p path -> nan_sum (map (edge_term c) (edges_of p path)) = Some (midpoint_sum c p path).
Proof.
  induction path as [| q path IH]; intros p H; [reflexivity |]. destruct H as [H1 [H2 H3]].
  cbn [edges_of map nan_sum midpoint_sum]. rewrite (term_value c p q H1 H2), (IH q H3). reflexivity.
Qed.

(** the value, after [n] refinements *)
Definition value (c : R * R) (edges : list ((R * R) * (R * R))) : option R :=
  match nan_sum (map (edge_term c) edges) with Some s => Some (s / 2 / PI) | None => None end.
Lemma wind_ok : forall p path points n, ends_at p path p -> (0 <= n)%Z ->
  wind_number (p :: path) points n = Ok (map (fun c => value c (flat_map (parts (Z.to_nat n)) (edges_of p path))) points).
Proof.
  intros p path points n He Hn. unfold wind_number.
  assert (E : (if (0 <? n)%Z then refine_contour (p :: path) n else Ok (p :: path)) = Ok (p :: refined_n (Z.to_nat n) p path)).
  { destruct (0 <? n)%Z eqn:En.
    - unfold refine_contour. replace (n <? 0)%Z with false by (symmetry; apply Z.ltb_ge; lia). apply refine_times_ok; auto.
    - apply Z.ltb_ge in En. replace n with 0%Z by lia. reflexivity. }
  rewrite E. cbn [bind]. set (path' := refined_n (Z.to_nat n) p path).
  rewrite (last_ends path' p p p (refined_n_ends _ p path p He)).
  replace ((fst p - fst p) ^ 2 + (snd p - snd p) ^ 2) with 0 by ring. rewrite sqrt_0.
  destruct (Rlt_dec 0 (1 / 10 ^ 13)) as [_ | H]; [| exfalso; apply H; lra].
  f_equal. apply map_ext. intros c. unfold value. rewrite segments_edges. unfold path'. rewrite refined_n_edges. reflexivity.
Qed.

(** a point seen under positive angles only *)
Fixpoint around (c p : R * R) (path : list (R * R)) : Prop :=
  match path with [] => True | q :: path' => 0 < cross (minus p c) (minus q c) /\ around c q path' end.
Lemma around_positive : forall c path p a, around c p path -> path <> [] -> total_turn c p path a -> 0 < a.
Proof.
  assert (Hone : forall c p q th, 0 < cross (minus p c) (minus q c) -> turns c p q th -> 0 < th).
  { intros c p q th Hc [[Hlo Hhi] [_ Hs]]. destruct (Rlt_dec 0 th) as [H | H]; auto. exfalso.
    assert (Hsin : sin th <= 0).
    { assert (0 <= sin (- th)) by (apply sin_ge_0; lra). rewrite sin_neg in *. lra. }
    assert (0 <= len (minus p c) * len (minus q c)) by (apply Rmult_le_pos; apply sqrt_pos).
    assert (len (minus p c) * len (minus q c) * sin th <= 0).
    { replace (len (minus p c) * len (minus q c) * sin th) with (- (len (minus p c) * len (minus q c) * (- sin th))) by ring.
      assert (0 <= len (minus p c) * len (minus q c) * (- sin th)) by (apply Rmult_le_pos; lra). lra. }
    lra. }
  induction path as [| q path IH]; intros p a Har Hne Ht; [contradiction |].
  destruct Har as [Hc Har]. destruct Ht as [th [a' [T [Ht ->]]]]. pose proof (Hone c p q th Hc T).
  destruct path as [| r path]; [cbn in Ht; lra |]. pose proof (IH q a' Har ltac:(discriminate) Ht). lra.
Qed.
Lemma around_avoids : forall c path p, around c p path -> avoids c p path.
Proof.
  induction path as [| q path IH]; intros p H; [exact Logic.I |]. destruct H as [Hc H]. split; [| split; [| apply IH; auto]].
  - intros <-. unfold cross in Hc. lra.
  - intros t _ E. assert (Hz : cross (minus p c) (minus q c) = 0); [| lra].
    rewrite <- E. unfold cross, minus, on_way. cbn [fst snd]. ring.
Qed.

(** a point from which all points are ahead *)
Definition ahead (u c p : R * R) : Prop := 0 < scal u (minus p c).
Lemma ahead_turns : forall u c p q, ahead u c p -> ahead u c q ->
  turns c p q (atan (cross u (minus q c) / scal u (minus q c)) - atan (cross u (minus p c) / scal u (minus p c))).
Proof.
  intros u c p q Hp Hq. unfold ahead in *. set (P := minus p c) in *. set (Q := minus q c) in *.
  set (x := cross u P / scal u P). set (y := cross u Q / scal u Q).
  pose proof (atan_bound x). pose proof (atan_bound y). split; [pose proof PI_RGT_0; lra |].
  assert (Hu : 0 < scal u u).
  { destruct (Rlt_dec 0 (scal u u)) as [H' | H']; auto. exfalso. pose proof (sq_nonneg (fst u) (snd u)) as Hs. unfold scal in H'.
    destruct (sq_neg_zero (fst u) (snd u)) as [E1 E2]; [lra |]. unfold scal in Hp. rewrite E1, E2 in Hp. lra. }
  assert (Hs : forall A, 0 < scal u A -> sqrt (1 + Rsqr (cross u A / scal u A)) = len u * len A / scal u A).
  { intros A HA. replace (1 + Rsqr (cross u A / scal u A)) with (scal u u * scal A A / Rsqr (scal u A)).
    - assert (0 <= scal A A) by (apply sq_nonneg). rewrite sqrt_div; [| apply Rmult_le_pos; lra | apply Rsqr_pos_lt; lra].
      rewrite sqrt_mult by lra. rewrite sqrt_Rsqr by lra. reflexivity.
    - replace (scal u u * scal A A) with (scal u A * scal u A + cross u A * cross u A) by (unfold scal, cross; ring). unfold Rsqr. field. lra. }
  assert (HA : forall A, 0 < scal u A -> 0 < len A).
  { intros A HA. apply len_pos. intros ->. unfold scal in HA. cbn in HA. lra. }
  assert (Lu : 0 < len u) by (apply sqrt_lt_R0; auto). pose proof (HA P Hp). pose proof (HA Q Hq). pose proof (len_sq u) as HLu.
  rewrite cos_minus, sin_minus, !cos_atan, !sin_atan. unfold x, y. rewrite (Hs P Hp), (Hs Q Hq).
  change (minus p c) with P. change (minus q c) with Q. clearbody P Q.
  split.
  - transitivity ((scal u Q * scal u P + cross u Q * cross u P) / (len u * len u)).
    + rewrite HLu. apply Rmult_eq_reg_r with (scal u u); [| lra].
      match goal with |- _ = ?a / ?b * _ => replace (a / b * b) with a by (field; lra) end. unfold scal, cross. ring.
    + field. repeat split; lra.
  - transitivity ((cross u Q * scal u P - scal u Q * cross u P) / (len u * len u)).
    + rewrite HLu. apply Rmult_eq_reg_r with (scal u u); [| lra].
      match goal with |- _ = ?a / ?b * _ => replace (a / b * b) with a by (field; lra) end. unfold scal, cross. ring.
    + field. repeat split; lra.
Qed.
Lemma ahead_total : forall u c path p e, ahead u c p -> (forall q, In q path -> ahead u c q) -> ends_at p path e ->
  total_turn c p path (atan (cross u (minus e c) / scal u (minus e c)) - atan (cross u (minus p c) / scal u (minus p c))).
Proof.
  induction path as [| q path IH]; intros p e Hp Hall He.
  - cbn in *. subst. ring.
  - cbn [total_turn]. eexists; eexists. split; [apply (ahead_turns u); [auto | apply Hall; left; auto] |]. split.
    + apply IH; [apply Hall; left; auto | intros; apply Hall; right; auto | exact He].
    + ring.
Qed.
Lemma ahead_avoids : forall u c path p, ahead u c p -> (forall q, In q path -> ahead u c q) -> proper c p path -> avoids c p path.
Proof.
  induction path as [| q path IH]; intros p Hp Hall Hpr; [exact Logic.I |]. destruct Hpr as [Hpq [_ Hpr]].
  assert (Hq : ahead u c q) by (apply Hall; left; auto).
  split; [auto | split; [| apply IH; auto; intros; apply Hall; right; auto]].
  intros t Ht E. unfold ahead in *.
  assert (Hz : (1 - t) * scal u (minus p c) + t * scal u (minus q c) = 0).
  { rewrite <- E. unfold scal, minus, on_way. cbn [fst snd]. ring. }
  destruct (Req_dec t 0) as [-> | Hn]; [lra |].
  assert (0 < t * scal u (minus q c)) by (apply Rmult_lt_0_compat; lra).
  assert (0 <= (1 - t) * scal u (minus p c)) by (apply Rmult_le_pos; lra). lra.
Qed.

(** an edge without length *)
Lemma nan_in : forall l, In None l -> nan_sum l = None.
Proof.
  induction l as [| [x |] l IH]; intros H; [destruct H | | reflexivity]. destruct H as [H | H]; [discriminate |].
  cbn [nan_sum]. rewrite (IH H). reflexivity.
Qed.
Lemma parts_point : forall n x, In (x, x) (parts n (x, x)).
Proof.
  assert (Em : forall x, mid (x, x) = x) by (intros x; unfold mid; apply pair_eq; cbn [fst snd]; ring).
  induction n as [| n IH]; intros x; [left; reflexivity |]. cbn [parts]. apply in_flat_map. exists (x, x). split; auto.
  unfold halves. cbn [fst snd]. rewrite Em. left; reflexivity.
Qed.
Lemma term_point : forall c x, edge_term c (x, x) = None.
Proof.
  intros c x. unfold edge_term. cbn [fst snd]. replace ((fst x - fst x) ^ 2 + (snd x - snd x) ^ 2) with 0 by ring. rewrite sqrt_0.
  destruct (Req_EM_T 0 0) as [_ | H]; [reflexivity | contradiction].
Qed.

(** parts of edges are on them *)
Lemma parts_on : forall n p q s t e, 0 <= s -> s <= t -> t <= 1 -> In e (parts n (on_way p q s, on_way p q t)) ->
  exists s' t', 0 <= s' <= 1 /\ 0 <= t' <= 1 /\ e = (on_way p q s', on_way p q t').
Proof.
  induction n as [| n IH]; intros p q s t e Hs Hst Ht H; cbn [parts] in H.
  - destruct H as [<- | []]. exists s, t. split; [lra | split; [lra | reflexivity]].
  - assert (Em : mid (on_way p q s, on_way p q t) = on_way p q ((s + t) / 2)).
    { unfold mid, on_way. cbn [fst snd]. apply pair_eq; cbn [fst snd]; lra. }
    unfold halves in H. cbn [fst snd flat_map] in H. rewrite Em, app_nil_r in H. apply in_app_or in H.
    destruct H as [H | H]; [apply IH in H | apply IH in H]; auto; lra.
Qed.
Lemma edges_in : forall path p x, In x path -> exists e, In e (edges_of p path) /\ snd e = x.
Proof.
  induction path as [| q path IH]; intros p x H; [destruct H |]. cbn [edges_of]. destruct H as [-> | H].
  - exists (p, x). split; [left |]; auto.
  - destruct (IH q x H) as [e [He E]]. exists e. split; [right |]; auto.
Qed.
