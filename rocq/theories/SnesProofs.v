(** Lemmas for SnesProps.v *)
From Coq Require Import Reals Lra Lia.
From Verif Require Import Base BaseProofs NewtonModel NewtonProofs SnesModel.
Local Open Scope R_scope.

(** Methods that can be called again: what they are given is overwritten *)
Definition again_F (residual : blocks -> list R) (b : vec_obj) (w : blocks) (c : counters) : res (vec_obj * counters) := Ok (Some (residual w), c).
Definition again_J (A : mat_obj) (w : blocks) (c : counters) : res (mat_obj * counters) := Ok (Some w, c).

Lemma axpy_zero x : axpy 1 x (repeat 0 (length x)) = x.
Proof. unfold axpy. induction x as [| a x IH]; [reflexivity |]. cbn [length repeat combine map fst snd]. rewrite IH. f_equal. ring. Qed.
Lemma small_first rtol atol r : rtol < 1 -> small rtol atol r r = true <-> r < atol.
Proof.
  intros Ht. unfold small. destruct (Rlt_dec r atol) as [L | L]; [tauto |]. destruct (Req_EM_T r 0) as [Z | Z]; [split; [discriminate | tauto] |].
  destruct (Rlt_dec (r / r) rtol) as [S | S]; [| split; [discriminate | tauto]]. replace (r / r) with 1 in S by (field; exact Z). lra.
Qed.
Lemma small_true rtol atol r0 r : 0 <= r0 -> small rtol atol r0 r = true -> r < atol \/ r < rtol * r0.
Proof.
  intros H. unfold small. destruct (Rlt_dec r atol); [tauto |]. destruct (Req_EM_T r0 0) as [Z | Z]; [discriminate |].
  destruct (Rlt_dec (r / r0) rtol) as [S | S]; [| discriminate]. intros _. right. apply (Rmult_lt_compat_r r0) in S; [| lra].
  replace (r / r0 * r0) with r in S by (field; exact Z). exact S.
Qed.
Lemma small_false rtol atol r0 r : 0 <= r0 -> 0 <= r -> 0 < rtol -> small rtol atol r0 r = false -> atol <= r /\ rtol * r0 <= r.
Proof.
  intros H Hr Ht. unfold small. destruct (Rlt_dec r atol); [discriminate |]. destruct (Req_EM_T r0 0) as [Z | Z]; [intros _; rewrite Z; lra |].
  destruct (Rlt_dec (r / r0) rtol) as [S | S]; [discriminate |]. intros _. split; [lra |].
  apply Rnot_lt_le in S. apply (Rmult_le_compat_r r0) in S; [| exact H]. replace (r / r0 * r0) with r in S by (field; exact Z). exact S.
Qed.

Section Run.
Variable residual : blocks -> list R.
Variable solve : blocks -> list R -> res (list R).
Variable minus : blocks -> list R -> res blocks.
Variable jac : blocks -> list R -> list R.
Variable sizes : list nat.
Let n := list_sum sizes.
Hypothesis solves : forall w b x, shaped sizes w -> solve w b = Ok x -> length x = n /\ jac w x = b.
Hypothesis subtracts : forall w d w', shaped sizes w -> length d = n -> minus w d = Ok w' -> shaped sizes w' /\ flat w' = vsub (flat w) d.

Definition passed (rtol atol : R) (w0 w : blocks) : Prop := norm (residual w) < atol \/ norm (residual w) < rtol * norm (residual w0).
Definition missed (rtol atol : R) (w0 w : blocks) : Prop := atol <= norm (residual w) /\ rtol * norm (residual w0) <= norm (residual w).

Lemma again_loop left rtol atol w0 : 0 < rtol -> forall k w A c r,
  shaped sizes w -> snes_loop solve minus (again_F residual) again_J left k rtol atol (norm (residual w0)) (Some (residual w)) A w c = r ->
  exists m ws, (m <= left)%nat /\ ws 0%nat = w /\ ws m = left_in r /\
    (forall i, (i <= m)%nat -> shaped sizes (ws i)) /\
    (forall i, (i < m)%nat -> missed rtol atol w0 (ws i) /\ step residual jac sizes (ws i) (ws (S i))) /\
    match end_of r with
    | Converged k' => (k' = k + m)%nat /\ passed rtol atol w0 (ws m)
    | NotConverged => m = left /\ missed rtol atol w0 (ws m)
    | Raised e => missed rtol atol w0 (ws m) /\ (solve (ws m) (residual (ws m)) = Err e \/ exists dx, solve (ws m) (residual (ws m)) = Ok dx /\ minus (ws m) dx = Err e)
    end.
Proof.
  intros Ht. induction left as [| left IH]; intros k w A c r Sh E; cbn [snes_loop content] in E; rewrite l2_norm in E;
    destruct (small rtol atol (norm (residual w0)) (norm (residual w))) eqn:SM.
  1, 3: subst r; exists 0%nat, (fun _ => w); cbn [end_of left_in]; repeat split; try lia; auto; unfold passed; apply small_true; [apply norm_nonneg | exact SM].
  - subst r. apply small_false in SM; [| apply norm_nonneg | apply norm_nonneg | exact Ht]. exists 0%nat, (fun _ => w). cbn [end_of left_in]. repeat split; try lia; auto; apply SM.
  - apply small_false in SM; [| apply norm_nonneg | apply norm_nonneg | exact Ht]. unfold again_J at 1 in E. cbv iota beta in E.
    destruct (solve w (residual w)) as [dx | e] eqn:SO.
    2: { subst r. exists 0%nat, (fun _ => w). cbn [end_of left_in]. repeat split; try lia; auto; apply SM. }
    destruct (minus w dx) as [w1 | e] eqn:MI.
    2: { subst r. exists 0%nat, (fun _ => w). cbn [end_of left_in]. repeat split; try lia; auto; try apply SM. right. exists dx. auto. }
    unfold again_F at 1 in E. cbv iota beta in E. destruct (solves _ _ _ Sh SO) as [Ld Jd]. destruct (subtracts _ _ _ Sh Ld MI) as [S1 F1].
    destruct (IH _ _ _ _ _ S1 E) as (m & ws & M & W0 & Wm & SH & ST & EN).
    exists (S m), (fun i => match i with O => w | S i => ws i end). split; [lia |]. split; [reflexivity |]. split; [exact Wm |].
    split; [intros [| i] Hi; [exact Sh | apply SH; lia] |]. split.
    + intros [| i] Hi; [| apply ST; lia]. split; [exact SM |]. rewrite W0. exists dx. auto.
    + destruct (end_of r) as [k' | | e]; destruct EN as [EN1 EN2]; split; try exact EN2; try lia; exact EN1.
Qed.
End Run.
