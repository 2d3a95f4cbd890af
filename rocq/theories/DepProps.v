(** Property C133: the heat equation of test_dep.py *)
From Coq Require Import Reals Lra Qreals FunctionalExtensionality Lia SpecFloat.
From Verif Require Import Base BaseProofs MmsModel MmsProofs GaussProofs DepModel DepProofs.
Local Open Scope R_scope.

(** The source is that of the heat equation for the solution *)
Theorem C133_equation t k x y : exists ut ux uy uxx uyy,
  derivable_pt_lim (fun s => heat_exact s x y) t ut /\
  (forall x', derivable_pt_lim (fun s => heat_exact t s y) x' (ux x')) /\ derivable_pt_lim ux x uxx /\
  (forall y', derivable_pt_lim (fun s => heat_exact t x s) y' (uy y')) /\ derivable_pt_lim uy y uyy /\
  at_ [t; k] DT_f x y = ut - (uxx + uyy).
Proof.
  exists (at_ [t; k] (diff DT_u 3) x y), (fun x' => at_ [t; k] (diff DT_u 0) x' y), (fun y' => at_ [t; k] (diff DT_u 1) x y'),
    (at_ [t; k] (diff (diff DT_u 0) 0) x y), (at_ [t; k] (diff (diff DT_u 1) 1) x y).
  split; [apply (lim_ext (fun s => at_ [s; k] DT_u x y)); [intros s; apply exact_at | apply d_t_at] |].
  split; [intros x'; apply (lim_ext (fun s => at_ [t; k] DT_u s y)); [intros s; apply exact_at | apply d1_at] |]. split; [apply d1_at |].
  split; [intros y'; apply (lim_ext (fun s => at_ [t; k] DT_u x s)); [intros s; apply exact_at | apply d2_at] |]. split; [apply d2_at |].
  unfold DT_f, Minus, Neg. generalize (diff DT_u 3) (diff (diff DT_u 0) 0) (diff (diff DT_u 1) 1). intros a b c. autorewrite with at_. ring.
Qed.
Print Assumptions C133_equation.

(** For all step sizes, times and test functions that vanish on the sides with conditions, the solution and the
    multiplier k du/dx with k = dt fulfil row 0 up to the error of the difference quotient; row 1 and the
    conditions hold exactly *)
Theorem C133_euler dt t u u0 p v q : solution [t; dt] DT_u u -> smooth u0 -> solution [t; dt] DT_p p -> smooth v ->
  (forall s x y, In s DT_V_sides -> on_side s x y -> va (v x y) = 0) ->
  (forall ut : R -> R -> R, (forall x y, derivable_pt_lim (fun s => heat_exact s x y) t (ut x y)) ->
   balanced (fun x y => DT_row0_dx dt (u x y) (u0 x y) (v x y) (at_ [t; 0] DT_f x y) - (va (u x y) - va (u0 x y) - dt * ut x y) * va (v x y))
     (fun s x y => DT_row0_side s (p x y) (v x y))) /\
  (forall x y, DT_row1_side (u x y) (q x y) (at_ [t; 0] DT_u x y) = 0) /\
  (forall c, In c DT_Q_bcs -> va (p (fst (fst c)) (snd (fst c))) = snd c) /\
  (forall s x y, on_side s x y -> (In s DT_V_sides <-> s <> 1%nat)) /\
  (forall x y, In (x, y) (map fst DT_Q_bcs) <-> x = 0 /\ (y = 0 \/ y = 1)).
Proof.
  intros U U0 P (V1 & V2 & C1 & C2 & C3) B. split; [| split; [| split; [| split]]].
  - intros ut T.
    assert (ET : forall x y, ut x y = at_ [t; 0] (diff DT_u 3) x y).
    { intros x y. apply (uniqueness_limite (fun s => heat_exact s x y) t); [apply T |].
      apply (lim_ext (fun s => at_ [s; 0] DT_u x y)); [intros s; apply exact_at | apply d_t_at]. }
    assert (K0 : forall e x y, (forall a b, value (env [t; a] x y) e = value (env [t; b] x y) e) -> at_ [t; 0] e x y = at_ [t; dt] e x y) by (intros e x y H; apply H).
    assert (F : forall x y, at_ [t; 0] DT_f x y = at_ [t; dt] DT_f x y) by (intros x y; reflexivity).
    assert (F3 : forall x y, at_ [t; 0] (diff DT_u 3) x y = at_ [t; dt] (diff DT_u 3) x y) by (intros x y; reflexivity).
    clear K0. unfold DT_f in *. 
    apply (balanced_by (fun x y => dt * at_ [t; dt] (diff DT_u 0) x y * va (v x y)) (fun x y => dt * at_ [t; dt] (diff DT_u 1) x y * va (v x y))
      (fun x y => dt * at_ [t; dt] (diff (diff DT_u 0) 0) x y * va (v x y) + dt * at_ [t; dt] (diff DT_u 0) x y * da (v x y))
      (fun x y => dt * at_ [t; dt] (diff (diff DT_u 1) 1) x y * va (v x y) + dt * at_ [t; dt] (diff DT_u 1) x y * db (v x y))); try continuous.
    + intros x y. replace (dt * at_ [t; dt] (diff (diff DT_u 0) 0) x y * va (v x y) + dt * at_ [t; dt] (diff DT_u 0) x y * da (v x y))
        with ((0 * at_ [t; dt] (diff DT_u 0) x y + dt * at_ [t; dt] (diff (diff DT_u 0) 0) x y) * va (v x y) + dt * at_ [t; dt] (diff DT_u 0) x y * da (v x y)) by ring.
      revert x y. change (GaussProofs.d1 (fun x y => dt * at_ [t; dt] (diff DT_u 0) x y * va (v x y)) (fun x y => (0 * at_ [t; dt] (diff DT_u 0) x y + dt * at_ [t; dt] (diff (diff DT_u 0) 0) x y) * va (v x y) + dt * at_ [t; dt] (diff DT_u 0) x y * da (v x y))). derive.
    + intros x y. replace (dt * at_ [t; dt] (diff (diff DT_u 1) 1) x y * va (v x y) + dt * at_ [t; dt] (diff DT_u 1) x y * db (v x y))
        with ((0 * at_ [t; dt] (diff DT_u 1) x y + dt * at_ [t; dt] (diff (diff DT_u 1) 1) x y) * va (v x y) + dt * at_ [t; dt] (diff DT_u 1) x y * db (v x y)) by ring.
      revert x y. change (GaussProofs.d2 (fun x y => dt * at_ [t; dt] (diff DT_u 1) x y * va (v x y)) (fun x y => (0 * at_ [t; dt] (diff DT_u 1) x y + dt * at_ [t; dt] (diff (diff DT_u 1) 1) x y) * va (v x y) + dt * at_ [t; dt] (diff DT_u 1) x y * db (v x y))). derive.
    + intros x y _. rewrite F, ET, F3, (solution_jet _ _ _ U). unfold DT_row0_dx, Minus, Neg. unfold jgrad, dot, jet_of. cbn [va da db fst snd].
      generalize DT_u. intros e. autorewrite with at_. ring.
    + each_side; unfold DT_row0_side; cbn [DT_tag Nat.eqb].
      * rewrite (solution_jet _ _ _ P). unfold jet_of. cbn [va]. unfold DT_p. generalize (diff DT_u 0). intros e. rewrite at_Times. unfold at_ at 1. cbn [value Kk env nth]. ring.
      * rewrite (B 2%nat x y); [ring | cbn; auto | split; assumption].
      * rewrite (B 3%nat x y); [ring | cbn; auto | split; assumption].
      * rewrite (B 4%nat x y); [ring | cbn; auto | split; assumption].
  - intros x y. unfold DT_row1_side. rewrite (proj2 U). rewrite !exact_at. ring.
  - intros c Hc. assert (P0 : forall y, va (p 0 y) = 0).
    { intros y. rewrite (proj2 P). unfold at_, DT_p, DT_u, Kk, X, Y, Tm. cbn [value diff env nth Nat.eqb pred]. rewrite ?q0, ?q1, ?q2. cbn. ring. }
    destruct Hc as [<- | [<- | []]]; cbn [fst snd]; apply P0.
  - intros s x y S. destruct s as [| [| [| [| [| s]]]]]; destruct S as [_ S]; try contradiction S; cbn; intuition lia.
  - intros x y. cbn [map fst DT_Q_bcs In]. split.
    + intros [E | [E | []]]; injection E as <- <-; auto.
    + intros [-> [-> | ->]]; auto.
Qed.
Print Assumptions C133_euler.

(** The step number i uses the data of the time (i + 1) dt; steps are made while i dt < 1/2; the velocity is
    compared with the solution of the last time *)
Theorem C133_turns fuel dt w w' turns ue pe : dep_test fuel dt w = Ok (w', turns, (ue, pe)) ->
  let n := length turns in
  (0 < n)%nat /\ 1 / 2 <= INR n * dt /\
  (forall i, (i < n)%nat -> INR i * dt < 1 / 2 /\ let t := INR (S i) * dt in nth_error turns i = Some (Turn t t t)) /\
  (forall x y, ue x y = heat_exact (INR n * dt) x y) /\ u_t w' = INR n * dt /\ f_t w' = INR n * dt.
Proof.
  intros E. unfold dep_test in E. destruct (dep_loop fuel dt 0 (set_k dt (rest w))) as [[[t1 w1] l1] |] eqn:D; cbn [bind] in E; [| discriminate].
  injection E as <- <- <- <-. destruct (loop_turns _ _ _ _ _ _ _ D) as (T & G & _ & _ & Z & N & ST). cbn [fst snd].
  assert (H : length l1 <> 0%nat). { intros H. rewrite H in T. cbn in T. lra. }
  destruct (N H) as [N1 N2]. replace t1 with (INR (length l1) * dt) in * by lra.
  split; [lia |]. split; [exact G |]. split; [| split; [| split]].
  - intros i Hi. destruct (ST i Hi) as [S1 S2]. split; [lra |]. cbn zeta. rewrite S2. replace (0 + INR (S i) * dt) with (INR (S i) * dt) by ring. reflexivity.
  - intros x y. rewrite exact_at, N1. reflexivity.
  - exact N1.
  - exact N2.
Qed.
Print Assumptions C133_turns.

Theorem C133_returns fuel dt w : 0 < dt -> 1 / 2 <= INR fuel * dt -> exists r, dep_test fuel dt w = Ok r.
Proof.
  intros D H. unfold dep_test. destruct (loop_returns fuel dt D 0 (set_k dt (rest w))) as [r ->]; [lra |]. cbn [bind]. eexists; reflexivity.
Qed.
Print Assumptions C133_returns.

(** A call does not see what the calls before it left in the expressions *)
Theorem C133_calls fuel dts w rs : dep_calls fuel dts w = Ok rs -> Forall2 (fun dt r => dep_test fuel dt created = Ok r) dts rs.
Proof.
  revert w rs. induction dts as [| dt dts IH]; intros w rs E; cbn [dep_calls] in E; [injection E as <-; constructor |].
  destruct (dep_test fuel dt w) as [r |] eqn:D; cbn [bind] in E; [| discriminate].
  destruct (dep_calls fuel dts (fst (fst r))) as [l |] eqn:C; cbn [bind] in E; [| discriminate]. injection E as <-.
  constructor; [exact D | exact (IH _ _ C)].
Qed.
Print Assumptions C133_calls.

(** p_exact.t stays 0, so ph is compared with zero; on the interface x = 0 that is the multiplier of the last
    time, as du/dx vanishes there at all times: no factor or sign of p can be seen by this test *)
Theorem C133_multiplier fuel dt w w' turns ue pe : dep_test fuel dt w = Ok (w', turns, (ue, pe)) ->
  (p_t w' = 0 /\ p_k w' = dt) /\ (forall x y, pe x y = 0) /\
  forall t k y, derivable_pt_lim (fun s => k * heat_exact t s y) 0 0 /\ pe 0 y = at_ [t; k] DT_p 0 y.
Proof.
  intros E. unfold dep_test in E. destruct (dep_loop fuel dt 0 (set_k dt (rest w))) as [[[t1 w1] l1] |] eqn:D; cbn [bind] in E; [| discriminate].
  injection E as <- <- <- <-. destruct (loop_turns _ _ _ _ _ _ _ D) as (_ & _ & P & K & _). cbn [fst snd rest set_k p_t p_k] in *.
  assert (P0 : forall t k y, at_ [t; k] (diff DT_u 0) 0 y = 0).
  { intros t k y. unfold at_, DT_u, X, Y, Tm. cbn [value diff env nth Nat.eqb pred]. rewrite ?q0, ?q1, ?q2. cbn. ring. }
  assert (Z : forall x y, at_ [p_t w1; p_k w1] DT_p x y = 0).
  { intros x y. rewrite P. unfold at_, DT_p, DT_u, Kk, X, Y, Tm. cbn [value diff env nth Nat.eqb pred]. rewrite ?q0, ?q1, ?q2.
    replace (2 * 0) with 0 by ring. rewrite sin_0. ring. }
  split; [split; assumption |]. split; [exact Z |]. intros t k y. split.
  - apply (lim_ext (fun s => k * at_ [t; k] DT_u s y)); [intros s; rewrite exact_at; reflexivity |].
    assert (L := derivable_pt_lim_scal (fun s => at_ [t; k] DT_u s y) k 0 _ (d1_at [t; k] DT_u 0 y)). rewrite P0, Rmult_0_r in L. exact L.
  - rewrite Z. unfold DT_p. generalize (P0 t k y). generalize (diff DT_u 0). intros e H. rewrite at_Times, H. ring.
Qed.
Print Assumptions C133_multiplier.

(** Elsewhere k du/dx of the last time is not what p_exact gives *)
Theorem C133_stale_refuted : exists fuel dt w' turns ue pe, dep_test fuel dt created = Ok (w', turns, (ue, pe)) /\
  0 < dt /\ exists x y, in_square x y /\ pe x y <> at_ [u_t w'; p_k w'] DT_p x y.
Proof.
  destruct (C133_returns 1 (1 / 2) created) as [[[w' turns] [ue pe]] E]; [lra | cbn; lra |].
  exists 1%nat, (1 / 2), w', turns, ue, pe. split; [exact E |]. split; [lra |].
  destruct (C133_turns _ _ _ _ _ _ _ E) as (N & G & ST & _ & UT & _). destruct (C133_multiplier _ _ _ _ _ _ _ E) as ([_ K] & Z & _).
  assert (L : length turns = 1%nat).
  { destruct turns as [| a [| b l]]; [cbn in N; lia | reflexivity |]. destruct (ST 1%nat) as [S _]; [cbn; lia |]. cbn in S. lra. }
  rewrite L in UT. cbn in UT. exists (1 / 10), 0. split; [unfold in_square; lra |]. rewrite Z, UT, K.
  unfold at_, DT_p, DT_u, Kk, X, Y, Tm. cbn [value diff env nth Nat.eqb pred]. rewrite ?q0, ?q1, ?q2, ?q5.
  replace (Q2R (inject_Z (Z.of_nat 2))) with 2 by (unfold Q2R, inject_Z; cbn; lra).
  intros H. assert (S1 : 0 < sin (2 * (1 * (1 / 2)))) by (apply sin_gt_0; [lra | generalize PI2_1; lra]).
  assert (C1 : 0 < cos (5 * ((1 / 10) ^ 2 + 0 ^ 2))) by (apply cos_gt_0; generalize PI2_1; cbn; lra).
  set (S := sin (2 * (1 * (1 / 2)))) in *. set (C := cos (5 * ((1 / 10) ^ 2 + 0 ^ 2))) in *.
  assert (HH : 0 < S * C) by (apply Rmult_lt_0_compat; assumption). cbn in H. nra.
Qed.
Print Assumptions C133_stale_refuted.

(** In double precision the four step sizes of 102 do not end at the same time: the smallest makes one step more *)
Definition dts_float : list spec_float := map (fun e => S754_finite false 5764607523034235 e) [-59; -60; -61; -62]%Z.
Theorem C133_float_refuted :
  map (fun dt => option_map fst (dep_steps 402 dt (S754_zero false) 0)) dts_float = [Some 50; Some 100; Some 200; Some 401]%nat.
Proof. vm_compute. reflexivity. Qed.
Print Assumptions C133_float_refuted.

(** The loop in double precision stops as soon as the time is not below 1/2, and not before; one half itself is not below *)
Theorem C133_float_stops : forall fuel dt t k,
  (SFltb t float_half = false -> dep_steps fuel dt t k = Some (k, t)) /\
  (forall k' t', dep_steps fuel dt t k = Some (k', t') -> SFltb t' float_half = false /\ k <= k')%nat /\
  (SFltb t float_half = true -> dep_steps (S fuel) dt t k = dep_steps fuel dt (SFadd 53 1024 t dt) (S k)) /\
  SFltb float_half float_half = false.
Proof.
  intros fuel dt t k. split; [|split; [|split; [|reflexivity]]].
  - intros H. destruct fuel; cbn [dep_steps]; rewrite H; reflexivity.
  - revert t k. induction fuel as [|fuel IH]; intros t k k' t'; cbn [dep_steps]; destruct (SFltb t float_half) eqn:E; try discriminate.
    + intros [= <- <-]. auto.
    + intros H. apply IH in H. split; [apply H|lia].
    + intros [= <- <-]. auto.
  - intros H. cbn [dep_steps]. rewrite H. reflexivity.
Qed.
Print Assumptions C133_float_stops.

(** Two steps of 1/4 *)
Example C133_ex : exists w' ue pe, dep_test 3 (1 / 4) (Attrs 7 7 7 7) = Ok (w', [Turn (1 / 4) (1 / 4) (1 / 4); Turn (1 / 2) (1 / 2) (1 / 2)], (ue, pe)) /\
  forall x y, ue x y = sin 1 * sin (5 * (x ^ 2 + y ^ 2)).
Proof.
  destruct (C133_returns 3 (1 / 4) (Attrs 7 7 7 7)) as [[[w' turns] [ue pe]] E]; [lra | cbn; lra |].
  destruct (C133_turns _ _ _ _ _ _ _ E) as (N & G & ST & EX & _).
  assert (L : length turns = 2%nat).
  { destruct (length turns) as [| [| [| l]]]; [lia | cbn in G; lra | reflexivity |]. destruct (ST 2%nat) as [S _]; [lia |]. cbn in S. lra. }
  rewrite L in *. destruct (ST 0%nat) as [_ A]; [lia |]. destruct (ST 1%nat) as [_ B]; [lia |]. cbn zeta in A, B.
  destruct turns as [| a [| b [| c l]]]; try discriminate L. cbn [nth_error] in A, B. injection A as ->. injection B as ->.
  exists w', ue, pe. rewrite E. split.
  - replace (1 * (1 / 4)) with (1 / 4) by field. replace ((1 + 1) * (1 / 4)) with (1 / 2) by field. reflexivity.
  - intros x y. rewrite EX. unfold heat_exact. replace (2 * (INR 2 * (1 / 4))) with 1 by (cbn; field). reflexivity.
Qed.
