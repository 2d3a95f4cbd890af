(** Property C113: the iterations of Newton *)
From Coq Require Import Reals Lra.
From Verif Require Import Base BaseProofs NewtonModel NewtonProofs.
Local Open Scope R_scope.

Section Newton.
Variable residual : blocks -> list R.
Variable solve : blocks -> list R -> res (list R).
Variable jac : blocks -> list R -> list R.
Variable sizes : list nat.
Let n := list_sum sizes.
Hypothesis solves : forall w b x, shaped sizes w -> solve w b = Ok x -> length x = n /\ jac w x = b.

(** What is returned is the end of a sequence of steps from zero, at most maxiter, and less only if the last
    step is at most tol long; all but the last are longer *)
Theorem C113_runs : forall maxiter tol k eps w, tol < 1 -> (0 < maxiter)%nat -> newton residual solve sizes maxiter tol = Ok (k, eps, w) ->
  (1 <= k <= maxiter)%nat /\ exists ws, flat (ws 0%nat) = repeat 0 n /\ ws k = w /\
    (forall i, (i <= k)%nat -> shaped sizes (ws i)) /\
    (forall i, (i < k)%nat -> exists d, length d = n /\ jac (ws i) d = residual (ws i) /\ flat (ws (S i)) = vsub (flat (ws i)) d) /\
    (forall i, S i = k -> eps = norm (vsub (flat (ws i)) (flat w))) /\
    ((k < maxiter)%nat -> eps <= tol) /\
    (forall i, (S i < k)%nat -> tol < norm (vsub (flat (ws i)) (flat (ws (S i))))).
Proof.
  intros maxiter tol k eps w Ht Hm E. unfold newton in E.
  destruct (loop_runs residual solve jac sizes solves _ _ _ _ _ _ _ (zeros_shaped sizes) E) as (ws & W0 & Wk & K1 & K2 & K3 & K4 & Sh & St & Z & La & Mi).
  split; [split; [apply K3; [lra | lia] | exact K1] |]. exists ws. rewrite W0, zeros_flat. repeat (split; auto).
  intros i Hi. rewrite (La i) by lia. rewrite <- Wk, Hi. reflexivity.
Qed.
(** It returns if the systems are solved *)
Theorem C113_returns : forall maxiter tol, (forall w, shaped sizes w -> exists x, solve w (residual w) = Ok x) ->
  exists r, newton residual solve sizes maxiter tol = Ok r.
Proof. intros maxiter tol H. apply (loop_returns residual solve jac sizes solves); auto. apply zeros_shaped. Qed.

(** A linear problem is solved in at most two passes *)
Theorem C113_linear : forall (J : list R -> list R) b maxiter tol k eps w, 0 <= tol < 1 -> (2 <= maxiter)%nat -> length b = n ->
  (forall w x, shaped sizes w -> jac w x = J x) -> (forall w, shaped sizes w -> residual w = vsub (J (flat w)) b) ->
  (forall x, length x = n -> length (J x) = n) ->
  (forall x y, length x = n -> length y = n -> J (vsub x y) = vsub (J x) (J y)) ->
  (forall x, length x = n -> norm (J x) = 0 -> norm x = 0) ->
  newton residual solve sizes maxiter tol = Ok (k, eps, w) -> (k <= 2)%nat /\ J (flat w) = b.
Proof.
  intros J b maxiter tol k eps w Ht Hm Lb HJ HF JL Jadd Jinj E.
  destruct (C113_runs maxiter tol k eps w ltac:(lra) ltac:(lia) E) as (K & ws & W0 & Wk & Sh & St & La & Le & Mi).
  assert (L : forall i, (i <= k)%nat -> length (flat (ws i)) = n) by (intros; apply flat_length; auto).
  assert (B : forall i, (i < k)%nat -> J (flat (ws (S i))) = b).
  { intros i Hi. destruct (St i Hi) as (d & Ld & Jd & Ed). rewrite HJ, HF in Jd by (apply Sh; lia).
    rewrite Ed, Jadd, Jd by (auto; apply L; lia). apply vsub_sub. rewrite JL; auto. apply L. lia. }
  split.
  - destruct (le_lt_dec k 2) as [C | C]; [exact C | exfalso]. specialize (Mi 1%nat ltac:(lia)).
    destruct (St 1%nat ltac:(lia)) as (d & Ld & Jd & Ed). rewrite HJ, HF, (B 0%nat) in Jd by (auto; lia || (apply Sh; lia)).
    assert (N : norm d = 0) by (apply Jinj; auto; rewrite Jd, vsub_self; apply norm_repeat).
    rewrite Ed, vsub_sub in Mi by (rewrite L; auto; lia). lra.
  - rewrite <- Wk. destruct k as [| k]; [lia |]. apply B. lia.
Qed.

(** The residual of what is returned, when the residual is its linearisation up to an error of second order *)
Theorem C113_residual : forall K maxiter tol k eps w, 0 <= K -> tol < 1 -> (0 < maxiter)%nat ->
  (forall w w' d, shaped sizes w -> shaped sizes w' -> length d = n -> flat w' = vsub (flat w) d -> jac w d = residual w ->
     norm (residual w') <= K * norm d ^ 2) ->
  newton residual solve sizes maxiter tol = Ok (k, eps, w) ->
  norm (residual w) <= K * eps ^ 2 /\ ((k < maxiter)%nat -> norm (residual w) <= K * tol ^ 2).
Proof.
  intros K maxiter tol k eps w HK Ht Hm HT E.
  destruct (C113_runs maxiter tol k eps w ltac:(lra) ltac:(lia) E) as (K1 & ws & W0 & Wk & Sh & St & La & Le & Mi).
  destruct k as [| k]; [lia |]. destruct (St k ltac:(lia)) as (d & Ld & Jd & Ed).
  assert (Eps : eps = norm d). { rewrite (La k eq_refl), <- Wk, Ed, vsub_sub; auto. rewrite (flat_length sizes (ws k)); [symmetry; exact Ld | apply Sh; lia]. }
  assert (B : norm (residual w) <= K * eps ^ 2).
  { rewrite Eps, <- Wk. apply (HT (ws k) (ws (S k)) d); auto; apply Sh; lia. }
  split; [exact B |]. intros Hk. eapply Rle_trans; [exact B |]. apply Rmult_le_compat_l; auto. apply pow_incr.
  split; [rewrite Eps; apply norm_nonneg | apply Le; exact Hk].
Qed.

(** A start that solves the problem is returned after one pass *)
Theorem C113_start : forall maxiter tol k eps w, 0 <= tol < 1 -> (0 < maxiter)%nat ->
  (forall x, length x = n -> norm (jac (map (repeat 0) sizes) x) = 0 -> norm x = 0) ->
  norm (residual (map (repeat 0) sizes)) = 0 ->
  newton residual solve sizes maxiter tol = Ok (k, eps, w) -> k = 1%nat /\ eps = 0 /\ w = map (repeat 0) sizes.
Proof.
  intros maxiter tol k eps w Ht Hm Hi H0 E.
  destruct (C113_runs maxiter tol k eps w ltac:(lra) ltac:(lia) E) as (K1 & ws & W0 & Wk & Sh & St & La & Le & Mi).
  assert (Z : ws 0%nat = map (repeat 0) sizes).
  { apply (flat_inj sizes); [apply Sh; lia | apply zeros_shaped | rewrite zeros_flat; exact W0]. }
  destruct (St 0%nat ltac:(lia)) as (d & Ld & Jd & Ed). rewrite Z in Jd.
  assert (N : norm d = 0) by (apply Hi; auto; rewrite Jd; exact H0).
  assert (L0 : length (flat (ws 0%nat)) = length d) by (rewrite (flat_length sizes); auto; apply Sh; lia).
  assert (k = 1%nat).
  { destruct k as [| [| k]]; [lia | reflexivity | exfalso]. specialize (Mi 0%nat ltac:(lia)). rewrite Ed, vsub_sub in Mi by exact L0. lra. }
  subst k. split; [reflexivity |]. split.
  - rewrite (La 0%nat eq_refl), <- Wk, Ed, vsub_sub by exact L0. exact N.
  - rewrite <- Wk, <- Z. apply (flat_inj sizes); try (apply Sh; lia). rewrite Ed. apply norm_zero; auto.
Qed.

(** Near a regular solution the number of right digits doubles in each pass, and what is returned before
    maxiter passes is as near as tol squared *)
Theorem C113_converges : forall star r K c maxiter tol k eps w, shaped sizes star ->
  0 <= r -> 0 <= K -> 0 < c -> 2 * (K * r) <= c -> norm (flat star) <= r -> tol < 1 -> (0 < maxiter)%nat ->
  (forall w x, shaped sizes w -> norm (vsub (flat w) (flat star)) <= r -> length x = n -> c * norm x <= norm (jac w x)) ->
  (forall w x y, shaped sizes w -> length x = n -> length y = n -> jac w (vsub x y) = vsub (jac w x) (jac w y)) ->
  (forall w, shaped sizes w -> norm (vsub (flat w) (flat star)) <= r ->
     norm (vsub (jac w (vsub (flat w) (flat star))) (residual w)) <= K * norm (vsub (flat w) (flat star)) ^ 2) ->
  newton residual solve sizes maxiter tol = Ok (k, eps, w) ->
  let error := norm (vsub (flat w) (flat star)) in
  error <= r * (1 / 2) ^ k /\ K * error <= c * (1 / 2) ^ (2 ^ k) /\ ((k < maxiter)%nat -> c * error <= 4 * K * tol ^ 2).
Proof.
  intros star r K c maxiter tol k eps w Hs Hr HK Hc Hsm H0 Ht Hm Hreg Hadd Htay E error.
  destruct (C113_runs maxiter tol k eps w ltac:(lra) ltac:(lia) E) as (K1 & ws & W0 & Wk & Sh & St & La & Le & Mi).
  assert (B : forall i, (i <= k)%nat -> err star (ws i) <= r /\ err star (ws i) <= r * (1 / 2) ^ i /\ K * err star (ws i) <= c * (1 / 2) ^ (2 ^ i)).
  { induction i as [| i IH]; intros Hi.
    - assert (E0 : err star (ws 0%nat) <= r).
      { unfold err. rewrite W0, norm_sym. rewrite (norm_zero (repeat 0 n)); [exact H0 | apply norm_repeat | rewrite repeat_length; apply flat_length; exact Hs]. }
      split; [exact E0 |]. split; [cbn; lra |]. cbn [Nat.pow pow]. assert (K * err star (ws 0%nat) <= K * r) by (apply Rmult_le_compat_l; auto). lra.
    - destruct (IH ltac:(lia)) as (I1 & I2 & I3).
      pose proof (step_half residual jac sizes star r K c Hs HK Hc Hsm Hreg Hadd Htay (ws i) (ws (S i)) (Sh i ltac:(lia)) (Sh (S i) Hi) I1 (St i ltac:(lia))) as SH.
      pose proof (step_error residual jac sizes star r K c Hs Hreg Hadd Htay (ws i) (ws (S i)) (Sh i ltac:(lia)) (Sh (S i) Hi) I1 (St i ltac:(lia))) as SE.
      assert (P : 0 <= err star (ws i)) by apply norm_nonneg.
      split; [lra |]. split; [cbn [pow]; lra |].
      apply Rmult_le_reg_l with c; [exact Hc |]. replace (2 ^ S i)%nat with (2 ^ i + 2 ^ i)%nat by (cbn; lia). rewrite pow_add.
      set (h := (1 / 2) ^ 2 ^ i) in *. assert (0 <= h) by (apply pow_le; lra).
      eapply Rle_trans with ((K * err star (ws i)) * (K * err star (ws i))).
      + replace (c * (K * err star (ws (S i)))) with (K * (c * err star (ws (S i)))) by ring.
        eapply Rle_trans; [apply Rmult_le_compat_l; [exact HK | exact SE] |]. apply Req_le. ring.
      + replace (c * (c * (h * h))) with ((c * h) * (c * h)) by ring. apply Rmult_le_compat; auto; apply Rmult_le_pos; auto. }
  unfold error. destruct (B k ltac:(lia)) as (_ & B2 & B3). rewrite Wk in B2, B3. split; [exact B2 |]. split; [exact B3 |].
  intros Hk. destruct k as [| k]; [lia |]. destruct (B k ltac:(lia)) as (I1 & _ & _).
  pose proof (step_error residual jac sizes star r K c Hs Hreg Hadd Htay (ws k) (ws (S k)) (Sh k ltac:(lia)) (Sh (S k) ltac:(lia)) I1 (St k ltac:(lia))) as SE.
  pose proof (step_last residual jac sizes star r K c Hs HK Hc Hsm Hreg Hadd Htay (ws k) (ws (S k)) (Sh k ltac:(lia)) (Sh (S k) ltac:(lia)) I1 (St k ltac:(lia))) as SL.
  rewrite Wk in SE, SL. rewrite <- (La k eq_refl) in SL. specialize (Le Hk). unfold err in *.
  eapply Rle_trans; [exact SE |]. replace (4 * K * tol ^ 2) with (K * (2 * tol) ^ 2) by ring. apply Rmult_le_compat_l; auto. apply pow_incr.
  split; [apply norm_nonneg | lra].
Qed.
End Newton.
Print Assumptions C113_runs.
Print Assumptions C113_returns.
Print Assumptions C113_linear.
Print Assumptions C113_residual.
Print Assumptions C113_start.
Print Assumptions C113_converges.

(** One unknown *)
Definition coordinate (w : blocks) : R := match w with [[x]] => x | _ => 0 end.
Definition residual1 (f : R -> R) (w : blocks) : list R := [f (coordinate w)].
Definition jac1 (f' : R -> R) (w : blocks) (x : list R) : list R := map (fun a => f' (coordinate w) * a) x.
Definition solve1 (f' : R -> R) (w : blocks) (b : list R) : res (list R) :=
  match b with [y] => if Req_EM_T (f' (coordinate w)) 0 then Err RuntimeError else Ok [y / f' (coordinate w)] | _ => Err RuntimeError end.
Lemma solves1 f' : forall w b x, shaped [1%nat] w -> solve1 f' w b = Ok x -> length x = list_sum [1%nat] /\ jac1 f' w x = b.
Proof.
  intros w [| y [| ? ?]] x _ E; cbn in E; try discriminate. destruct (Req_EM_T _ 0) as [Z | Z]; [discriminate |]. injection E as <-.
  split; [reflexivity |]. cbn. f_equal. field. exact Z.
Qed.

(** An iteration that does not converge is not noticed: 0, 1, 0, 1, ... for x^3 - 2 x + 2 *)
Theorem C113_converged_refuted : exists residual solve jac sizes,
  (forall w b x, shaped sizes w -> solve w b = Ok x -> length x = list_sum sizes /\ jac w x = b) /\
  exists w, newton residual solve sizes 25 (1 / 10 ^ 10) = Ok (25%nat, 1, w) /\ norm (residual w) = 1.
Proof.
  set (f := fun x : R => x ^ 3 - 2 * x + 2). set (f' := fun x : R => 3 * x ^ 2 - 2).
  exists (residual1 f), (solve1 f'), (jac1 f'), [1%nat]. split; [apply solves1 |].
  assert (T : 1 / 10 ^ 10 < 1) by lra.
  assert (A : forall left e, 1 / 10 ^ 10 < e -> newton_loop (residual1 f) (solve1 f') [1%nat] (S left) (1 / 10 ^ 10) e [[0]] =
     do r <- newton_loop (residual1 f) (solve1 f') [1%nat] left (1 / 10 ^ 10) 1 [[1]]; Ok (S (fst (fst r)), snd (fst r), snd r)).
  { intros left e He. cbn [newton_loop]. destruct (Rlt_dec (1 / 10 ^ 10) e) as [_ | C]; [| lra]. cbn [residual1 solve1 coordinate].
    destruct (Req_EM_T (f' 0) 0) as [C | _]; [unfold f' in C; lra |]. cbn [bind].
    replace (f 0 / f' 0) with (-1) by (unfold f, f'; field).
    replace (block_norm (cut [1%nat] [-1])) with 1.
    2: { rewrite block_norm_flat. unfold norm, flat. cbn [cut firstn skipn concat app sq]. replace ((-1) ^ 2 + 0) with (1 * 1) by ring. symmetry. apply sqrt_square. lra. }
    replace (update [[0]] (cut [1%nat] [-1])) with [[1]]; [reflexivity |]. unfold update, axpy. cbn. repeat f_equal. ring. }
  assert (B : forall left, newton_loop (residual1 f) (solve1 f') [1%nat] (S left) (1 / 10 ^ 10) 1 [[1]] =
     do r <- newton_loop (residual1 f) (solve1 f') [1%nat] left (1 / 10 ^ 10) 1 [[0]]; Ok (S (fst (fst r)), snd (fst r), snd r)).
  { intros left. cbn [newton_loop]. destruct (Rlt_dec (1 / 10 ^ 10) 1) as [_ | C]; [| lra]. cbn [residual1 solve1 coordinate].
    destruct (Req_EM_T (f' 1) 0) as [C | _]; [unfold f' in C; lra |]. cbn [bind].
    replace (f 1 / f' 1) with 1 by (unfold f, f'; field).
    replace (block_norm (cut [1%nat] [1])) with 1.
    2: { rewrite block_norm_flat. unfold norm, flat. cbn [cut firstn skipn concat app sq]. replace (1 ^ 2 + 0) with (1 * 1) by ring. symmetry. apply sqrt_square. lra. }
    replace (update [[1]] (cut [1%nat] [1])) with [[0]]; [reflexivity |]. unfold update, axpy. cbn. repeat f_equal. ring. }
  assert (G : forall m, newton_loop (residual1 f) (solve1 f') [1%nat] (S (m + m)) (1 / 10 ^ 10) 1 [[0]] = Ok (S (m + m), 1, [[1]])).
  { induction m as [| m IH].
    - rewrite A by exact T. cbn. destruct (Rlt_dec _ 1); reflexivity.
    - replace (S (S m + S m))%nat with (S (S (S (m + m))))%nat by lia. rewrite A by exact T. rewrite B, IH. reflexivity. }
  exists [[1]]. split.
  - unfold newton. change (map (repeat 0) [1%nat]) with [[0]]. exact (G 12%nat).
  - unfold norm, residual1. cbn [coordinate sq]. replace (f 1 ^ 2 + 0) with (1 * 1) by (unfold f; ring). apply sqrt_square. lra.
Qed.
Print Assumptions C113_converged_refuted.

(** (1 + x)^2 = 2 from zero: what C113_converges asks for *)
Lemma norm1 a : norm [a] = Rabs a.
Proof. unfold norm. cbn [sq]. replace (a ^ 2 + 0) with (Rsqr a) by (unfold Rsqr; ring). apply sqrt_Rsqr_abs. Qed.
Example case_root : let star := [[sqrt 2 - 1]] in let residual := residual1 (fun x => (1 + x) ^ 2 - 2) in let jac := jac1 (fun x => 2 * (1 + x)) in
  norm (residual star) = 0 /\ norm (flat star) <= 1 / 2 /\ 2 * (1 * (1 / 2)) <= 1 /\
  (forall w x, shaped [1%nat] w -> norm (vsub (flat w) (flat star)) <= 1 / 2 -> length x = 1%nat -> 1 * norm x <= norm (jac w x)) /\
  (forall w x y, shaped [1%nat] w -> length x = 1%nat -> length y = 1%nat -> jac w (vsub x y) = vsub (jac w x) (jac w y)) /\
  (forall w, shaped [1%nat] w -> norm (vsub (flat w) (flat star)) <= 1 / 2 ->
     norm (vsub (jac w (vsub (flat w) (flat star))) (residual w)) <= 1 * norm (vsub (flat w) (flat star)) ^ 2).
Proof.
  cbv zeta. assert (S2 : sqrt 2 * sqrt 2 = 2) by (apply sqrt_sqrt; lra). assert (S0 : 0 <= sqrt 2) by apply sqrt_pos.
  assert (S1 : 1.4 < sqrt 2 < 1.5) by (split; nra).
  assert (SH : forall w, shaped [1%nat] w -> exists a, w = [[a]]).
  { intros [| [| a [| ? ?]] [| ? ?]] H; try discriminate. eauto. }
  assert (S3 : forall x : list R, length x = 1%nat -> exists a, x = [a]). { intros [| a [| ? ?]] H; try discriminate. eauto. }
  split. { unfold residual1. cbn [coordinate]. rewrite norm1. replace ((1 + (sqrt 2 - 1)) ^ 2 - 2) with 0 by lra. apply Rabs_R0. }
  split. { cbn [flat concat app]. rewrite norm1. apply Rabs_le. lra. }
  split; [lra |]. split; [| split].
  - intros w x Hw He Hx. destruct (SH w Hw) as [a ->]. destruct (S3 x Hx) as [b ->]. unfold jac1. cbn [coordinate map flat concat app vsub] in *. rewrite !norm1 in *.
    rewrite Rabs_mult. apply Rmult_le_compat_r; [apply Rabs_pos |]. apply Rabs_le_between in He || idtac. rewrite Rabs_pos_eq; unfold Rabs in He; destruct (Rcase_abs _); lra.
  - intros w x y Hw Hx Hy. destruct (S3 x Hx) as [b ->]. destruct (S3 y Hy) as [d ->]. unfold jac1. cbn [map vsub]. f_equal. ring.
  - intros w Hw He. destruct (SH w Hw) as [a ->]. unfold jac1, residual1. cbn [coordinate map flat concat app vsub]. rewrite !norm1.
    replace (2 * (1 + a) * (a - (sqrt 2 - 1)) - ((1 + a) ^ 2 - 2)) with ((a - (sqrt 2 - 1)) ^ 2) by (ring_simplify; lra).
    rewrite <- RPow_abs. lra.
Qed.
