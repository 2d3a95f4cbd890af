(** Lemmas for NewtonProps.v *)
From Coq Require Import Reals Lra.
From Verif Require Import Base BaseProofs NewtonModel.
Local Open Scope R_scope.

(** ** Vectors of a given length *)
Fixpoint sq (x : list R) : R := match x with [] => 0 | a :: x' => a ^ 2 + sq x' end.
Definition norm (x : list R) : R := sqrt (sq x).
Fixpoint vsub (x y : list R) : list R := match x, y with a :: x', b :: y' => (a - b) :: vsub x' y' | _, _ => [] end.
Fixpoint vplus (x y : list R) : list R := match x, y with a :: x', b :: y' => (a + b) :: vplus x' y' | _, _ => [] end.
(** All coefficients one after the other *)
Definition flat (w : blocks) : list R := concat w.
Definition shaped (sizes : list nat) (w : blocks) : Prop := map (@length R) w = sizes.

Lemma sq_nonneg x : 0 <= sq x.
Proof. induction x as [| a x IH]; cbn [sq]; [lra |]. pose proof (pow2_ge_0 a). lra. Qed.
Lemma sq_fold x : fold_right (fun a s => a * a + s) 0 x = sq x.
Proof. induction x as [| a x IH]; cbn [fold_right sq]; [reflexivity |]. rewrite IH. ring. Qed.
Lemma sq_app x y : sq (x ++ y) = sq x + sq y.
Proof. induction x as [| a x IH]; cbn [app sq]; [lra |]. rewrite IH. lra. Qed.
Lemma l2_norm x : l2 x = norm x.
Proof. unfold l2, norm. rewrite sq_fold. reflexivity. Qed.
Lemma norm_nonneg x : 0 <= norm x. Proof. apply sqrt_pos. Qed.
Lemma norm_sq x : norm x * norm x = sq x. Proof. apply sqrt_sqrt, sq_nonneg. Qed.
Lemma block_norm_flat d : block_norm d = norm (flat d).
Proof.
  unfold block_norm, norm, flat. f_equal. induction d as [| x d IH]; cbn [fold_right concat]; [reflexivity |].
  rewrite sq_app, IH, l2_norm, norm_sq. reflexivity.
Qed.
Lemma vsub_length x y : length x = length y -> length (vsub x y) = length x.
Proof. revert y. induction x as [| a x IH]; intros [| b y] E; try discriminate; cbn; auto. Qed.
Lemma vplus_length x y : length x = length y -> length (vplus x y) = length x.
Proof. revert y. induction x as [| a x IH]; intros [| b y] E; try discriminate; cbn; auto. Qed.
Lemma norm_zero x : norm x = 0 -> forall y, length y = length x -> vsub y x = y.
Proof.
  intros H. assert (Q : sq x = 0) by (rewrite <- norm_sq, H; ring). clear H.
  induction x as [| a x IH]; intros [| b y] E; try discriminate; cbn; [reflexivity |]. cbn [sq] in Q.
  pose proof (sq_nonneg x). pose proof (pow2_ge_0 a). assert (a ^ 2 = 0) by lra. assert (a = 0) by nra.
  f_equal; [lra |]. apply IH; [lra | auto].
Qed.
Lemma norm_repeat n : norm (repeat 0 n) = 0.
Proof. unfold norm. replace (sq (repeat 0 n)) with 0; [apply sqrt_0 |]. induction n; cbn [repeat sq]; lra. Qed.
Lemma vsub_self x : vsub x x = repeat 0 (length x).
Proof. induction x as [| a x IH]; cbn; [reflexivity |]. rewrite IH. f_equal. lra. Qed.

(** Two numbers at a time *)
Lemma minkowski2 a b p q s : 0 <= p -> 0 <= q -> 0 <= s -> s <= p + q ->
  sqrt ((a + b) ^ 2 + s ^ 2) <= sqrt (a ^ 2 + p ^ 2) + sqrt (b ^ 2 + q ^ 2).
Proof.
  intros Hp Hq Hs H. set (u := sqrt (a ^ 2 + p ^ 2)). set (v := sqrt (b ^ 2 + q ^ 2)).
  pose proof (pow2_ge_0 a). pose proof (pow2_ge_0 b). pose proof (pow2_ge_0 p). pose proof (pow2_ge_0 q). pose proof (pow2_ge_0 s). pose proof (pow2_ge_0 (a + b)).
  assert (U : 0 <= u) by apply sqrt_pos. assert (V : 0 <= v) by apply sqrt_pos.
  assert (U2 : u * u = a ^ 2 + p ^ 2) by (apply sqrt_sqrt; lra). assert (V2 : v * v = b ^ 2 + q ^ 2) by (apply sqrt_sqrt; lra).
  apply Rsqr_incr_0; [| apply sqrt_pos | lra]. unfold Rsqr. rewrite sqrt_sqrt by lra.
  assert (C : a * b + p * q <= u * v).
  { apply Rsqr_incr_0_var; [| nra]. unfold Rsqr. replace (u * v * (u * v)) with ((u * u) * (v * v)) by ring. rewrite U2, V2.
    pose proof (pow2_ge_0 (a * q - b * p)). nra. }
  assert (s ^ 2 <= (p + q) ^ 2) by nra. nra.
Qed.
Lemma norm_cons a x : norm (a :: x) = sqrt (a ^ 2 + norm x ^ 2).
Proof. unfold norm at 1. cbn [sq]. replace (norm x ^ 2) with (norm x * norm x) by ring. rewrite norm_sq. reflexivity. Qed.
Lemma triangle x y : length x = length y -> norm (vplus x y) <= norm x + norm y.
Proof.
  revert y. induction x as [| a x IH]; intros [| b y] E; try discriminate; cbn [vplus].
  - unfold norm. cbn [sq]. rewrite sqrt_0. lra.
  - rewrite !norm_cons. apply minkowski2; auto using norm_nonneg.
Qed.
Lemma vsub_chain x y z : length x = length y -> length y = length z -> vsub x z = vplus (vsub x y) (vsub y z).
Proof.
  revert y z. induction x as [| a x IH]; intros [| b y] [| c z] E1 E2; try discriminate; cbn; [reflexivity |].
  f_equal; [ring |]. apply IH; auto.
Qed.
Lemma vsub_shift x y d : length x = length y -> length x = length d -> vsub (vsub x d) y = vsub (vsub x y) d.
Proof.
  revert y d. induction x as [| a x IH]; intros [| b y] [| c d] E1 E2; try discriminate; cbn; [reflexivity |].
  f_equal; [ring |]. apply IH; auto.
Qed.
Lemma norm_sym x y : norm (vsub x y) = norm (vsub y x).
Proof.
  unfold norm. f_equal. revert y. induction x as [| a x IH]; intros [| b y]; cbn [vsub sq]; auto. rewrite (IH y). ring.
Qed.
Lemma vsub_sub x d : length x = length d -> vsub x (vsub x d) = d.
Proof. revert d. induction x as [| a x IH]; intros [| c d] E; try discriminate; cbn; [reflexivity |]. f_equal; [ring | auto]. Qed.

(** ** One pass *)
Lemma cut_flat sizes x : length x = list_sum sizes -> flat (cut sizes x) = x.
Proof.
  revert x. induction sizes as [| n sizes IH]; intros x E; [destruct x; [reflexivity | discriminate] |]. change (length x = n + list_sum sizes)%nat in E. cbn [cut].
  unfold flat in *. cbn [concat]. rewrite IH by (rewrite skipn_length; lia). apply firstn_skipn.
Qed.
Lemma cut_shaped sizes x : length x = list_sum sizes -> shaped sizes (cut sizes x).
Proof.
  revert x. induction sizes as [| n sizes IH]; intros x E; unfold shaped in *; [reflexivity |]. change (length x = n + list_sum sizes)%nat in E. cbn [cut map].
  rewrite firstn_length. f_equal; [lia |]. apply IH. rewrite skipn_length. lia.
Qed.
Lemma axpy_vsub x y : length x = length y -> axpy (-1) x y = vsub y x.
Proof.
  revert y. induction x as [| a x IH]; intros [| b y] E; try discriminate; cbn; [reflexivity |].
  unfold axpy in *. cbn. f_equal; [ring |]. apply IH. auto.
Qed.
Lemma vsub_app x x' y y' : length x = length y -> vsub (x ++ x') (y ++ y') = vsub x y ++ vsub x' y'.
Proof. revert y. induction x as [| a x IH]; intros [| b y] E; try discriminate; cbn; auto. f_equal. auto. Qed.
Lemma update_ok sizes w d : shaped sizes w -> shaped sizes d -> shaped sizes (update w d) /\ flat (update w d) = vsub (flat w) (flat d).
Proof.
  revert w d. induction sizes as [| n sizes IH]; intros [| x w] [| y d] Hw Hd; try discriminate; unfold shaped, flat in *; [auto |].
  injection Hw as Hx Hw. injection Hd as Hy Hd. destruct (IH w d Hw Hd) as [I1 I2].
  change (update (x :: w) (y :: d)) with (axpy (-1) y x :: update w d). cbn [map concat].
  rewrite axpy_vsub by lia. split.
  - rewrite vsub_length by lia. f_equal; auto.
  - rewrite I2, vsub_app by lia. reflexivity.
Qed.
Lemma flat_length sizes w : shaped sizes w -> length (flat w) = list_sum sizes.
Proof.
  revert w. induction sizes as [| n sizes IH]; intros [| x w] H; try discriminate; unfold shaped, flat in *; [reflexivity |].
  injection H as Hx Hw. cbn [concat]. rewrite app_length, IH by auto. rewrite Hx. reflexivity.
Qed.
Lemma zeros_shaped sizes : shaped sizes (map (repeat 0) sizes).
Proof. unfold shaped. rewrite map_map. rewrite <- map_id. apply map_ext. intros n. apply repeat_length. Qed.
Lemma zeros_flat sizes : flat (map (repeat 0) sizes) = repeat 0 (list_sum sizes).
Proof. unfold flat. induction sizes as [| n sizes IH]; cbn; [reflexivity |]. rewrite IH. symmetry. apply repeat_app. Qed.
Lemma flat_inj sizes w w' : shaped sizes w -> shaped sizes w' -> flat w = flat w' -> w = w'.
Proof.
  revert w w'. induction sizes as [| n sizes IH]; intros [| x w] [| x' w'] H H' E; try discriminate; [reflexivity |].
  unfold shaped, flat in *. cbn in *. injection H as Hx Hw. injection H' as Hx' Hw'.
  assert (x = x'). { rewrite <- (firstn_all x), <- (firstn_all x'). apply (f_equal (firstn (length x))) in E. rewrite !firstn_app in E.
    replace (length x - length x)%nat with 0%nat in E by lia. replace (length x - length x')%nat with 0%nat in E by lia. cbn [firstn] in E. rewrite !app_nil_r in E.
    rewrite E. f_equal. lia. }
  subst x'. apply app_inv_head in E. f_equal. auto.
Qed.

Section Loop.
Variable residual : blocks -> list R.
Variable solve : blocks -> list R -> res (list R).
Variable jac : blocks -> list R -> list R.
Variable sizes : list nat.
Let n := list_sum sizes.
(** The solver solves, if it returns *)
Hypothesis solves : forall w b x, shaped sizes w -> solve w b = Ok x -> length x = n /\ jac w x = b.

(** One step of Newton, on all coefficients *)
Definition step (w w' : blocks) : Prop :=
  exists d, length d = n /\ jac w d = residual w /\ flat w' = vsub (flat w) d.

Lemma loop_runs left : forall tol eps w k eps' w', shaped sizes w -> newton_loop residual solve sizes left tol eps w = Ok (k, eps', w') ->
  exists ws, ws 0%nat = w /\ ws k = w' /\ (k <= left)%nat /\ ((k < left)%nat -> eps' <= tol) /\ (tol < eps -> (0 < left)%nat -> (0 < k)%nat) /\
    (eps <= tol -> k = 0%nat) /\
    (forall i, (i <= k)%nat -> shaped sizes (ws i)) /\ (forall i, (i < k)%nat -> step (ws i) (ws (S i))) /\
    (k = 0%nat -> eps' = eps) /\
    (forall i, (i < k)%nat -> S i = k -> eps' = norm (vsub (flat (ws i)) (flat (ws (S i))))) /\
    (forall i, (S i < k)%nat -> tol < norm (vsub (flat (ws i)) (flat (ws (S i))))).
Proof.
  induction left as [| left IH]; intros tol eps w k eps' w' Hw E; cbn [newton_loop] in E.
  - assert (E' : (0%nat, eps, w) = (k, eps', w')) by (destruct (Rlt_dec tol eps); congruence). injection E' as <- <- <-.
    exists (fun _ => w). repeat split; auto; try lia; try (intros; lia).
  - destruct (Rlt_dec tol eps) as [L | L].
    2: { injection E as <- <- <-. exists (fun _ => w). repeat split; auto; try lia; try (intros; lia); intros; lra. }
    destruct (solve w (residual w)) as [x |] eqn:Ex; cbn [bind] in E; [| discriminate].
    destruct (newton_loop _ _ _ left tol _ _) as [[[k1 e1] w1] |] eqn:E1; cbn [bind fst snd] in E; [| discriminate]. injection E as <- <- <-.
    destruct (solves w _ x Hw Ex) as [Lx Jx].
    destruct (update_ok sizes w (cut sizes x) Hw (cut_shaped _ _ Lx)) as [U1 U2]. rewrite (cut_flat _ _ Lx) in U2.
    destruct (IH _ _ _ _ _ _ U1 E1) as (ws & W0 & Wk & K1 & K2 & K3 & K4 & Sh & St & Z & La & Mi).
    assert (D : norm (vsub (flat w) (flat (ws 0%nat))) = block_norm (cut sizes x)).
    { rewrite W0, U2, vsub_sub, block_norm_flat, cut_flat; auto. rewrite (flat_length sizes w Hw). auto. }
    exists (fun i => match i with O => w | S i' => ws i' end). split; [reflexivity |]. split; [exact Wk |].
    split; [lia |]. split; [intros; apply K2; lia |]. split; [lia |]. split; [intros; lra |].
    split; [intros [| i] Hi; [exact Hw | apply Sh; lia] |]. split; [| split; [discriminate | split]].
    + intros [| i] Hi; [| apply St; lia]. exists x. rewrite W0. auto.
    + intros [| i] Hi Hk; [| apply La; lia]. rewrite D. apply Z. lia.
    + intros [| i] Hi; [| apply Mi; lia]. rewrite D. apply Rnot_le_lt. intros C. apply K4 in C. lia.
Qed.

Lemma loop_returns left : forall tol eps w, shaped sizes w -> (forall w, shaped sizes w -> exists x, solve w (residual w) = Ok x) ->
  exists r, newton_loop residual solve sizes left tol eps w = Ok r.
Proof.
  induction left as [| left IH]; intros tol eps w Hw HS; cbn [newton_loop]; destruct (Rlt_dec tol eps); eauto.
  destruct (HS w Hw) as [x Ex]. rewrite Ex. cbn [bind]. destruct (solves w _ x Hw Ex) as [Lx _].
  destruct (IH tol (block_norm (cut sizes x)) (update w (cut sizes x))) as [out Er]; auto.
  { apply update_ok; auto. apply cut_shaped. exact Lx. }
  rewrite Er. cbn [bind]. eauto.
Qed.
End Loop.

(** ** Error *)
Section Error.
Variable residual : blocks -> list R.
Variable jac : blocks -> list R -> list R.
Variable sizes : list nat.
Let n := list_sum sizes.
Variable star : blocks.
Variables r K c : R.
Hypothesis shaped_star : shaped sizes star.
Hypothesis radius : 0 <= r.
Hypothesis Kpos : 0 <= K.
Hypothesis cpos : 0 < c.
Hypothesis small : 2 * (K * r) <= c.
(** The matrices are regular near the solution, and the linearisation has an error of second order *)
Hypothesis regular : forall w x, shaped sizes w -> norm (vsub (flat w) (flat star)) <= r -> length x = n -> c * norm x <= norm (jac w x).
Hypothesis additive : forall w x y, shaped sizes w -> length x = n -> length y = n -> jac w (vsub x y) = vsub (jac w x) (jac w y).
Hypothesis taylor : forall w, shaped sizes w -> norm (vsub (flat w) (flat star)) <= r ->
  norm (vsub (jac w (vsub (flat w) (flat star))) (residual w)) <= K * norm (vsub (flat w) (flat star)) ^ 2.

Definition err (w : blocks) : R := norm (vsub (flat w) (flat star)).
Lemma step_error w w' : shaped sizes w -> shaped sizes w' -> err w <= r -> step residual jac sizes w w' ->
  c * err w' <= K * err w ^ 2.
Proof.
  intros Hw Hw' He (d & Ld & Jd & E).
  assert (L : length (flat w) = length (flat star)) by (rewrite (flat_length sizes w), (flat_length sizes star); auto).
  assert (Lw : length (flat w) = n) by (apply flat_length; auto).
  eapply Rle_trans; [| apply (taylor w Hw He)]. rewrite <- Jd, <- additive; auto.
  2: { rewrite vsub_length; lia. }
  unfold err. rewrite E, vsub_shift by lia. apply regular; auto. rewrite vsub_length; rewrite vsub_length; lia.
Qed.
Lemma step_half w w' : shaped sizes w -> shaped sizes w' -> err w <= r -> step residual jac sizes w w' -> err w' <= err w / 2.
Proof.
  intros Hw Hw' He St. pose proof (step_error w w' Hw Hw' He St) as B.
  assert (0 <= err w) by apply norm_nonneg. assert (K * err w ^ 2 <= c * (err w / 2)).
  { replace (K * err w ^ 2) with ((K * err w) * err w) by ring. replace (c * (err w / 2)) with (c / 2 * err w) by field.
    apply Rmult_le_compat_r; auto. assert (K * err w <= K * r) by (apply Rmult_le_compat_l; auto). lra. }
  apply Rmult_le_reg_l with c; lra.
Qed.
Lemma step_last w w' : shaped sizes w -> shaped sizes w' -> err w <= r -> step residual jac sizes w w' ->
  err w <= 2 * norm (vsub (flat w) (flat w')).
Proof.
  intros Hw Hw' He St. pose proof (step_half w w' Hw Hw' He St) as B. unfold err in *.
  assert (L : length (flat w) = n) by (apply flat_length; auto). assert (L' : length (flat w') = n) by (apply flat_length; auto).
  assert (Ls : length (flat star) = n) by (apply flat_length; auto).
  rewrite (vsub_chain (flat w) (flat w') (flat star)) in * by lia.
  pose proof (triangle (vsub (flat w) (flat w')) (vsub (flat w') (flat star))) as T. rewrite !vsub_length in T by lia. specialize (T ltac:(lia)). lra.
Qed.
End Error.
