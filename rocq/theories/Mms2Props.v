(** C108: manufactured solutions of the demos with two domains and of elasticity *)
From Coq Require Import Reals Lra Qreals.
From Verif Require Import Base BaseProofs Mms2Model Mms2Proofs.
Local Open Scope R_scope.

(** The momentum equation of Stokes, up to what is on the sides *)
Lemma stokes_balanced par uS pS vS sides : solution_v par DS_uS uS -> solution par DS_pS pS -> smooth_v vS ->
  (forall t x y, outer_side t x y -> sides t x y + dot (at_v par (dot_t DS_sigma (pick_v DS_normalsS t)) x y) (jval (vS x y)) = 0) ->
  balanced_outer (fun x y => DS_stokes_dx par (uS x y) (vS x y) (pS x y) (at_v par DS_fS x y)) sides.
Proof.
  intros U P [(V11 & V12 & C11 & C12 & C13) (V21 & V22 & C21 & C22 & C23)] HS.
  eapply (balanced_outer_by (fun x y => at_ par (fst (fst DS_sigma)) x y * va (fst (vS x y)) + at_ par (fst (snd DS_sigma)) x y * va (snd (vS x y)))
    (fun x y => at_ par (snd (fst DS_sigma)) x y * va (fst (vS x y)) + at_ par (snd (snd DS_sigma)) x y * va (snd (vS x y)))); [derive | derive | continuous | continuous | continuous | continuous | |].
  - intros x y. rewrite (solution_v_jet _ _ _ U), (solution_jet _ _ _ P). unfold DS_stokes_dx, DS_fS, DS_sigma, add_id, scale, mu. generalize DS_uS DS_pS. intros [u1 u2] p. forms. autorewrite with at_. rewrite at_par. cbn [Nat.eqb]. autorewrite with at_. field.
  - intros t x y S. specialize (HS t x y S). rewrite <- HS. revert S. generalize (sides t x y). intros s S. clear HS.
    destruct t as [| [| [| [| [| [| [| [| [| t]]]]]]]]]; try (destruct S as (_ & _ & []); fail); unfold DS_normalsS, pick_v, lookup; cbn [nth_error pred Nat.eqb outer_normal normal fst snd];
      generalize DS_sigma; intros [[s1 s2] [s3 s4]]; forms; autorewrite with at_; ring.
Qed.

Lemma divergence_free par q x y : DS_mass_dx q (jet_v par DS_uS x y) = 0.
Proof. unfold DS_mass_dx, DS_uS. forms. unfold at_, DS_phi, X, Y, Pi, Minus, Neg. cbn [diff Nat.eqb value env]. rewrite q0, q1, q2, qm1. ring. Qed.

(** dq_darcy_stokes.py, for velocities that are zero where values are prescribed *)
Theorem C108_dq par uS pS pD vS qS qD : solution_v par DS_uS uS -> solution par DS_pS pS -> solution par DS_pD pD -> smooth_v vS -> smooth qD ->
  (forall t x y, In t DS_dirichlet_tags -> outer_side t x y -> jval (vS x y) = (0, 0)) ->
  balanced_outer (fun x y => DS_stokes_dx par (uS x y) (vS x y) (pS x y) (at_v par DS_fS x y))
    (fun t x y => DQ_row0_side par t (uS x y) (vS x y) (pD x y) (at_v par (pick_v DS_traction t) x y) (at_ par (pick DS_g_n t) x y) (at_ par (pick DS_g_t t) x y)) /\
  (forall x y, DS_mass_dx (qS x y) (uS x y) = 0) /\
  balanced_inner (fun x y => DQ_row2_dx par (pD x y) (qD x y) (at_ par DS_fD x y)) (fun t x y => DQ_row2_side t (uS x y) (qD x y) (at_ par (pick DS_g_u t) x y)) /\
  (forall t g x y, In (t, g) DS_VS_bcs -> jval (uS x y) = at_v par g x y) /\
  forall t, (1 <= t <= 8)%nat <-> In t (DS_lm_tags ++ DS_neumann_tags ++ DS_dirichlet_tags).
Proof.
  intros U PS PD V (Q1 & Q2 & C0 & C1 & C2) D. split; [| split; [| split; [| split]]].
  - apply stokes_balanced; try assumption. intros t x y S. pose proof (fun I => D t x y I S) as D'. clear D. rewrite (solution_v_jet _ _ _ U), (solution_jet _ _ _ PD).
    destruct t as [| [| [| [| [| [| [| [| [| t]]]]]]]]]; try (destruct S as (_ & _ & []); fail); try (rewrite D' by (cbn; tauto)); clear D';
      unfold DQ_row0_side, DS_traction, DS_g_n, DS_g_t, DS_normalsS, DS_normalsI, pick, pick_v, lookup, rotate, Rot, nS_; cbn [map nth_error pred Nat.eqb among existsb orb DS_lm_tags DS_neumann_tags nS n_ fst snd];
      generalize DS_sigma, DS_uS, DS_pD; intros [[s1 s2] [s3 s4]] [u1 u2] p; unfold alpha; forms; autorewrite with at_; rewrite ?at_par; ring.
  - intros x y. rewrite (solution_v_jet _ _ _ U). apply divergence_free.
  - eapply (balanced_inner_by (fun x y => at_ par (fst DS_uD) x y * va (qD x y)) (fun x y => at_ par (snd DS_uD) x y * va (qD x y))); [derive | derive | continuous | continuous | continuous | continuous | |].
    + intros x y. rewrite (solution_jet _ _ _ PD). unfold DQ_row2_dx, DS_fD, DS_uD, scale_v, K. generalize DS_pD. intros p. forms. cbn [Nat.eqb]. autorewrite with at_. rewrite !at_par. ring.
    + inner_sides; rewrite (solution_v_jet _ _ _ U); unfold DQ_row2_side, DS_g_u, DS_normalsI, pick, lookup, nS_; cbn [map nth_error pred Nat.eqb n_ fst snd]; generalize DS_uS, DS_uD; intros [u1 u2] [w1 w2]; forms; autorewrite with at_; ring.
  - intros t g x y H. rewrite (solution_v_jet _ _ _ U). cbn in H. destruct H as [H | [H | []]]; injection H as <- <-; reflexivity.
  - intros t. cbn. lia.
Qed.
Print Assumptions C108_dq.

(** layton_darcy_stokes.py *)
Theorem C108_layton par uS uD pS pD vS vD qS qD m : DS_check par -> solution_v par DS_uS uS -> solution_v par DS_uD uD -> solution par DS_pS pS -> solution par DS_pD pD -> smooth_v vS -> smooth_v vD ->
  (forall t x y, In t DS_dirichlet_tags -> outer_side t x y -> jval (vS x y) = (0, 0)) ->
  let l t x y := at_ par (pick DS_lms t) x y in
  balanced_outer (fun x y => DS_stokes_dx par (uS x y) (vS x y) (pS x y) (at_v par DS_fS x y))
    (fun t x y => LY_row0_side par t (uS x y) (vS x y) (l t x y) (at_v par (pick_v DS_traction t) x y) (at_ par (pick DS_g_t t) x y)) /\
  (forall hA n x y vp vm, LY_stab par hA n (jval (uS x y)) (jval (uS x y)) vp vm = 0) /\
  balanced_inner (fun x y => LY_row1_dx par (uD x y) (vD x y) (pD x y)) (fun t x y => LY_row1_side t (vD x y) (l t x y) (at_ par (pick DS_g_n t) x y)) /\
  (forall x y, DS_mass_dx (qS x y) (uS x y) = 0) /\
  (forall x y, LY_row3_dx (qD x y) (uD x y) (at_ par DS_fD x y) = 0) /\
  (forall t x y, inner_side t x y -> LY_row4_side t (m x y) (uS x y) (uD x y) (at_ par (pick DS_g_u t) x y) = 0) /\
  (forall t g x y, In (t, g) DS_VS_bcs -> jval (uS x y) = at_v par g x y).
Proof.
  intros Chk US UD PS PD VS [(V11 & V12 & C11 & C12 & C13) (V21 & V22 & C21 & C22 & C23)] D l. unfold l. split; [| split; [| split; [| split; [| split; [| split]]]]].
  - apply stokes_balanced; try assumption. intros t x y S. pose proof (fun I => D t x y I S) as D'. clear D. rewrite (solution_v_jet _ _ _ US).
    destruct t as [| [| [| [| [| [| [| [| [| t]]]]]]]]]; try (destruct S as (_ & _ & []); fail); try (rewrite D' by (cbn; tauto)); clear D';
      unfold LY_row0_side, DS_traction, DS_lms, DS_g_t, DS_normalsS, DS_normalsI, pick, pick_v, lookup, rotate, Rot, nS_; cbn [map nth_error pred Nat.eqb among existsb orb DS_lm_tags DS_neumann_tags nS n_ fst snd];
      generalize DS_sigma, DS_uS; intros [[s1 s2] [s3 s4]] [u1 u2]; unfold alpha; forms; autorewrite with at_; rewrite ?at_par; ring.
  - intros. unfold LY_stab, dot. cbn [fst snd]. ring.
  - eapply (balanced_inner_by (fun x y => -1 * (at_ par DS_pD x y * va (fst (vD x y)))) (fun x y => -1 * (at_ par DS_pD x y * va (snd (vD x y))))); [derive | derive | continuous | continuous | continuous | continuous | |].
    + intros x y. rewrite (solution_jet _ _ _ PD), (solution_v_jet _ _ _ UD). unfold LY_row1_dx, DS_uD, scale_v, K. generalize DS_pD. intros p. forms. autorewrite with at_. rewrite !at_par. destruct Chk as (_ & Pk & _). field. lra.
    + inner_sides; unfold LY_row1_side, DS_lms, DS_g_n, DS_normalsI, nD, pick, lookup; cbn [map nth_error pred Nat.eqb n_ fst snd]; generalize DS_sigma, DS_pD; intros [[s1 s2] [s3 s4]] p; forms; autorewrite with at_; ring.
  - intros x y. rewrite (solution_v_jet _ _ _ US). apply divergence_free.
  - intros x y. rewrite (solution_v_jet _ _ _ UD). unfold LY_row3_dx, DS_fD. generalize DS_uD. intros [u1 u2]. forms. autorewrite with at_. ring.
  - inner_sides; rewrite (solution_v_jet _ _ _ US), (solution_v_jet _ _ _ UD); unfold LY_row4_side, DS_g_u, DS_normalsI, pick, lookup, nS_; cbn [map nth_error pred Nat.eqb n_ fst snd]; generalize DS_uS, DS_uD; intros [u1 u2] [w1 w2]; forms; autorewrite with at_; ring.
  - intros t g x y H. rewrite (solution_v_jet _ _ _ US). cbn in H. destruct H as [H | [H | []]]; injection H as <- <-; reflexivity.
Qed.
Print Assumptions C108_layton.

(** isect_mortar_2d.py *)
Lemma mortar_flat par t x y : inner_side t x y -> at_ par (diff IM_u1 0) x y = 0 /\ at_ par (diff IM_u1 1) x y = 0 /\ at_ par (diff IM_u2 0) x y = 0 /\ at_ par (diff IM_u2 1) x y = 0.
Proof.
  intros S. assert (E : x = 1/4 \/ x = 3/4 \/ y = 1/4 \/ y = 3/4) by (destruct t as [| [| [| [| [| t]]]]]; destruct S as (_ & _ & S); tauto).
  unfold at_, IM_u1, IM_u2, IM_bump, X, Y, Pi, Minus, Neg. cbn [diff Nat.eqb value env]. rewrite q0, q1, q2, qm1, q14, q34.
  assert (Z : (x + -1 * (1 / 4)) * (x + -1 * (3 / 4)) * (y + -1 * (1 / 4)) * (y + -1 * (3 / 4)) = 0) by (destruct E as [-> | [-> | [-> | ->]]]; field).
  rewrite Z, !Rmult_0_r, sin_0. repeat split; ring.
Qed.
Theorem C108_mortar par u1 u2 p v1 v2 q : solution par IM_u1 u1 -> solution par IM_u2 u2 -> solution par IM_p p -> smooth v1 -> smooth v2 ->
  balanced_inner (fun x y => IM_row0_dx par (u1 x y) (v1 x y) (at_ par IM_f1 x y)) (fun _ x y => IM_row0_side (u1 x y) (v1 x y) (p x y)) /\
  balanced_outer (fun x y => IM_row1_dx (u2 x y) (v2 x y) (at_ par IM_f2 x y)) (fun t x y => IM_row1_side t (u2 x y) (v2 x y) (p x y) (at_v par IM_h2 x y) (at_ par IM_h x y)) /\
  forall x y, IM_row2_side (u1 x y) (u2 x y) (q x y) (at_ par IM_g x y) = 0.
Proof.
  intros U1 U2 P (V11 & V12 & C11 & C12 & C13) (V21 & V22 & C21 & C22 & C23). split; [| split].
  - eapply (balanced_inner_by (fun x y => nth 0 par 0 * (at_ par (diff IM_u1 0) x y * va (v1 x y))) (fun x y => nth 0 par 0 * (at_ par (diff IM_u1 1) x y * va (v1 x y)))); [derive | derive | continuous | continuous | continuous | continuous | |].
    + intros x y. rewrite (solution_jet _ _ _ U1). unfold IM_row0_dx, IM_f1. generalize IM_u1. intros u. forms. autorewrite with at_. rewrite at_par. ring.
    + intros t x y S. destruct (mortar_flat par t x y S) as (Z1 & Z2 & _ & _). rewrite Z1, Z2, (solution_jet _ _ _ U1), (solution_jet _ _ _ P). unfold IM_row0_side, IM_p. cbn [jet_of va]. ring.
  - eapply (balanced_outer_by (fun x y => at_ par (diff IM_u2 0) x y * va (v2 x y)) (fun x y => at_ par (diff IM_u2 1) x y * va (v2 x y))); [derive | derive | continuous | continuous | continuous | continuous | |].
    + intros x y. rewrite (solution_jet _ _ _ U2). unfold IM_row1_dx, IM_f2. generalize IM_u2. intros u. forms. autorewrite with at_. ring.
    + intros t x y S. assert (Z : (t <= 4)%nat -> at_ par (diff IM_u2 0) x y = 0 /\ at_ par (diff IM_u2 1) x y = 0).
      { intros H. assert (S' : inner_side t x y) by (destruct t as [| [| [| [| [| t]]]]]; try exact S; lia). destruct (mortar_flat par t x y S') as (_ & _ & Z1 & Z2). auto. }
      rewrite (solution_jet _ _ _ U2), (solution_jet _ _ _ P). unfold IM_row1_side, IM_p, IM_h, IM_h2, at_v. cbn [fst snd].
      destruct t as [| [| [| [| [| [| [| [| [| t]]]]]]]]]; try (destruct S as (_ & _ & []); fail); cbn [among existsb Nat.eqb orb outer_normal normal nS fst snd]; unfold MmsModel.dot; cbn [fst snd jet_of va];
        try (destruct Z as [Z1 Z2]; [lia |]; rewrite ?Z1, ?Z2, ?at_Plus; ring); ring.
  - intros x y. rewrite (solution_jet _ _ _ U1), (solution_jet _ _ _ U2). unfold IM_row2_side, IM_g, Minus, Neg. cbn [jet_of va]. autorewrite with at_. ring.
Qed.
Print Assumptions C108_mortar.

(** elasticity_2d.py and elasticity_mixed_2d.py *)
Lemma elastic_flat par t x y : on_side t x y -> at_ par (diff (fst EL_u) 0) x y = 0 /\ at_ par (diff (fst EL_u) 1) x y = 0 /\ at_ par (diff (snd EL_u) 0) x y = 0 /\ at_ par (diff (snd EL_u) 1) x y = 0.
Proof.
  intros S. assert (E : x = 0 \/ x = 1 \/ y = 0 \/ y = 1) by (destruct t as [| [| [| [| [| t]]]]]; destruct S as (_ & S); tauto).
  unfold at_, EL_u, EL_bump, X, Y, Pi, Minus, Neg. cbn [fst snd diff Nat.eqb value env]. rewrite q0, q1, q2, qm1, q100, qm100.
  assert (Z : x * (1 + -1 * x) * y * (1 + -1 * y) = 0) by (destruct E as [-> | [-> | [-> | ->]]]; ring).
  rewrite Z, !Rmult_0_r, sin_0. repeat split; ring.
Qed.
Theorem C108_elasticity par u p x v q r : solution_v par EL_u u -> solution par EM_p p -> solution_v par EL_x x -> smooth_v v ->
  balanced (fun a b => EL_row0_dx par (u a b) (v a b) (at_v par EL_f a b)) (fun _ a b => EL_row0_side (v a b) (x a b)) /\
  balanced (fun a b => EM_row0_dx par (u a b) (v a b) (p a b) (at_v par EL_f a b)) (fun _ a b => EL_row0_side (v a b) (x a b)) /\
  (nth 1 par 0 <> 0 -> forall a b, EM_row1_dx par (u a b) (p a b) (q a b) = 0) /\
  forall a b, EL_row1_side (u a b) (r a b) (at_v par EL_g a b) = 0.
Proof.
  intros U P X0 [(V11 & V12 & C11 & C12 & C13) (V21 & V22 & C21 & C22 & C23)].
  pose (s := EL_sigma EL_u).
  assert (B : forall interior, (forall a b, interior a b = inner2 (EL_stress par (jet_v par EL_u a b)) (jsym (v a b)) - dot (at_v par EL_f a b) (jval (v a b))) -> balanced interior (fun _ a b => EL_row0_side (v a b) (x a b))).
  { intros interior HI. eapply (balanced_by (fun a b => at_ par (fst (fst s)) a b * va (fst (v a b)) + at_ par (fst (snd s)) a b * va (snd (v a b)))
      (fun a b => at_ par (snd (fst s)) a b * va (fst (v a b)) + at_ par (snd (snd s)) a b * va (snd (v a b)))); [derive | derive | continuous | continuous | continuous | continuous | |].
    - intros a b _. rewrite HI. unfold s, EL_stress, EL_f, EL_sigma, add_id, scale, mu, EL_lmbda. cbv zeta. generalize EL_u. intros [u1 u2]. forms. cbn [Nat.eqb]. autorewrite with at_. rewrite !at_par. field.
    - intros t a b S. destruct (elastic_flat par t a b S) as (Z1 & Z2 & Z3 & Z4). rewrite (solution_v_jet _ _ _ X0). unfold EL_row0_side, EL_x, s, EL_sigma, add_id, scale, mu, EL_lmbda.
      revert Z1 Z2 Z3 Z4. generalize EL_u. intros [u1 u2] Z1 Z2 Z3 Z4. forms. autorewrite with at_. rewrite Z1, Z2, Z3, Z4. field. }
  split; [| split; [| split]].
  - apply B. intros a b. rewrite (solution_v_jet _ _ _ U). reflexivity.
  - apply B. intros a b. rewrite (solution_v_jet _ _ _ U), (solution_jet _ _ _ P). unfold EM_row0_dx, EL_stress, EM_p, EL_lmbda. cbv zeta. generalize (at_v par EL_f a b). generalize EL_u. intros [u1 u2] f. forms. autorewrite with at_. rewrite !at_par. field.
  - intros N a b. rewrite (solution_v_jet _ _ _ U), (solution_jet _ _ _ P). unfold EM_row1_dx, EM_p, EL_lmbda. generalize EL_u. intros [u1 u2]. forms. autorewrite with at_. rewrite !at_par. field. exact N.
  - intros a b. rewrite (solution_v_jet _ _ _ U). unfold EL_row1_side, EL_g. generalize EL_u. intros [u1 u2]. forms. ring.
Qed.
Print Assumptions C108_elasticity.

(** A velocity that is zero on the sides 5 and 6 *)
Example C108_ex : let v := jet_v [] (Times X (Minus (Num 1) X), Times X (Minus (Num 1) X)) in DS_check [1; 1; 0] /\ smooth_v v /\
  (forall t x y, In t DS_dirichlet_tags -> outer_side t x y -> jval (v x y) = (0, 0)) /\ jval (v (1/4) (1/2)) = (3/16, 3/16).
Proof.
  intros v. split; [unfold DS_check; cbn; lra |]. split; [split; apply solution_of |]. split.
  - intros t x y [<- | [<- | []]] [_ E]; cbn in E; subst; unfold v, jval, jet_v, jet_of, at_, X, Minus, Neg; cbn [fst snd va value env]; rewrite q1, qm1; f_equal; ring.
  - unfold v, jval, jet_v, jet_of, at_, X, Minus, Neg; cbn [fst snd va value env]; rewrite q1, qm1; f_equal; field.
Qed.
(** Being balanced is not always so *)
Example C108_ex_sharp : ~ balanced_outer (fun _ _ => 1) (fun _ _ _ => 0).
Proof.
  assert (K : forall c a b, integral (fun _ => c) a b (c * (b - a))) by (intros c a b; exists (RiemannInt_P14 a b c); exact (RiemannInt_P15 (RiemannInt_P14 a b c))).
  intros (I & J & s1 & s2 & s3 & s4 & s5 & s6 & s7 & s8 & HI & HJ & H1 & H2 & H3 & H4 & H5 & H6 & H7 & H8 & E).
  rewrite (integral_unique _ _ _ _ _ H1 (K 0 _ _)), (integral_unique _ _ _ _ _ H2 (K 0 _ _)), (integral_unique _ _ _ _ _ H3 (K 0 _ _)), (integral_unique _ _ _ _ _ H4 (K 0 _ _)),
    (integral_unique _ _ _ _ _ H5 (K 0 _ _)), (integral_unique _ _ _ _ _ H6 (K 0 _ _)), (integral_unique _ _ _ _ _ H7 (K 0 _ _)), (integral_unique _ _ _ _ _ H8 (K 0 _ _)) in E.
  assert (A : forall a b, a <= b -> integral2 (fun _ _ => 1) a b a b (1 * (b - a) * (b - a))) by (intros a b L; exists (fun _ => 1 * (b - a)); split; [intros; apply K | apply K]).
  rewrite (integral2_unique (fun _ _ => 1) 0 1 0 1 _ _ ltac:(lra) HI (A 0 1 ltac:(lra))), (integral2_unique (fun _ _ => 1) (1/4) (3/4) (1/4) (3/4) _ _ ltac:(lra) HJ (A (1/4) (3/4) ltac:(lra))) in E. lra.
Qed.
