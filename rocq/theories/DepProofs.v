(** Lemmas for DepProps.v *)
From Coq Require Import Reals Lra Qreals FunctionalExtensionality Lia SpecFloat.
From Verif Require Import Base BaseProofs MmsModel MmsProofs GaussProofs DepModel.
Local Open Scope R_scope.

(** The solution of line 92 *)
Definition heat_exact (t x y : R) : R := sin (2 * t) * sin (5 * (x ^ 2 + y ^ 2)).

Lemma q5 : Q2R 5 = 5. Proof. unfold Q2R; cbn; lra. Qed.
Lemma exact_at t k x y : at_ [t; k] DT_u x y = heat_exact t x y.
Proof. unfold at_, DT_u, Tm, X, Y, heat_exact. cbn [value env nth]. rewrite q2, q5. reflexivity. Qed.
Lemma d_t_at k e t x y : derivable_pt_lim (fun s => at_ [s; k] e x y) t (at_ [t; k] (diff e 3) x y).
Proof.
  apply (curve_derivative (fun s => env [s; k] x y)). intros s.
  destruct s as [| [| [| [| s]]]]; cbn [env Nat.eqb nth]; [apply derivable_pt_lim_const .. | apply derivable_pt_lim_id | apply derivable_pt_lim_const].
Qed.
Lemma lim_ext f g x l : (forall s, f s = g s) -> derivable_pt_lim f x l -> derivable_pt_lim g x l.
Proof. intros E H. replace g with f; [exact H | apply functional_extensionality; exact E]. Qed.

Lemma loop_turns fuel dt : forall time w time' w' turns, dep_loop fuel dt time w = Ok (time', w', turns) ->
  let n := length turns in
  time' = time + INR n * dt /\ 1 / 2 <= time' /\ p_t w' = p_t w /\ p_k w' = p_k w /\
  (n = 0%nat -> w' = w) /\ (n <> 0%nat -> u_t w' = time' /\ f_t w' = time') /\
  forall i, (i < n)%nat -> time + INR i * dt < 1 / 2 /\
    nth_error turns i = Some (Turn (time + INR (S i) * dt) (time + INR (S i) * dt) (time + INR (S i) * dt)).
Proof.
  induction fuel as [| fuel IH]; intros time w time' w' turns E; cbn [dep_loop] in E; destruct (Rlt_dec time (1 / 2)) as [L | L]; try discriminate E.
  - injection E as <- <- <-. cbn. repeat split; try lra; try congruence; lia.
  - destruct (dep_loop fuel dt (time + dt) (set_time (time + dt) w)) as [[[t1 w1] l1] |] eqn:D; cbn [bind] in E; [| discriminate].
    injection E as <- <- <-. cbn [length]. destruct (IH _ _ _ _ _ D) as (T & G & P1 & P2 & Z & N & ST).
    cbn [fst snd] in *. rewrite S_INR. split; [rewrite T; ring |]. split; [exact G |]. split; [exact P1 |]. split; [exact P2 |].
    split; [discriminate |]. split.
    + intros _. destruct (length l1) as [| m] eqn:LL.
      * rewrite (Z eq_refl). cbn in T. replace t1 with (time + dt) by lra. split; reflexivity.
      * apply N. discriminate.
    + intros [| i] Hi.
      * split; [cbn; lra |]. cbn [nth_error]. unfold use, set_time. cbn [f_t u_t]. replace (time + INR 1 * dt) with (time + dt) by (cbn; ring). reflexivity.
      * destruct (ST i ltac:(lia)) as [S1 S2]. rewrite S_INR. split; [lra |]. cbn [nth_error]. rewrite S2. replace (time + INR (S (S i)) * dt) with (time + dt + INR (S i) * dt) by (rewrite (S_INR (S i)); ring). reflexivity.
  - injection E as <- <- <-. cbn. repeat split; try lra; try congruence; lia.
Qed.
Lemma loop_returns fuel dt : 0 < dt -> forall time w, 1 / 2 <= time + INR fuel * dt -> exists r, dep_loop fuel dt time w = Ok r.
Proof.
  intros D. induction fuel as [| fuel IH]; intros time w H; cbn [dep_loop]; destruct (Rlt_dec time (1 / 2)) as [L | L]; try (eexists; reflexivity).
  - cbn in H. lra.
  - rewrite S_INR in H. destruct (IH (time + dt) (set_time (time + dt) w)) as [r ->]; [lra |]. cbn [bind]. eexists; reflexivity.
Qed.
