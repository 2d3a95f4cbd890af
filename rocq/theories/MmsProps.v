(** C107: manufactured solutions of the demos on the unit square *)
From Coq Require Import Reals Lra Qreals.
From Verif Require Import Base BaseProofs MmsModel MmsProofs.
Local Open Scope R_scope.

(** poisson_babuska.py: both equations hold for all test functions with u and the multiplier 0 *)
Theorem C107_poisson u p v q : solution [] PB_u u -> solution [] PB_p p -> smooth v ->
  balanced (fun x y => PB_row0_dx (u x y) (v x y) (at_ [] PB_f x y)) (fun _ x y => PB_row0_side (v x y) (p x y)) /\
  forall t x y, on_side t x y -> PB_row1_side (u x y) (q x y) (at_ [] PB_g x y) = 0.
Proof.
  intros U P (V1 & V2 & C1 & C2 & C3). split.
  - eapply (balanced_by (fun x y => at_ [] (diff PB_u 0) x y * va (v x y)) (fun x y => at_ [] (diff PB_u 1) x y * va (v x y))); [derive | derive | continuous | continuous | continuous | continuous | |].
    + intros x y _. rewrite (solution_jet _ _ _ U). unfold PB_row0_dx, PB_a00, PB_L0, PB_f. forms. autorewrite with at_. ring.
    + each_side; rewrite (solution_jet _ _ _ P); unfold PB_row0_side, PB_a01, PB_p; forms; autorewrite with at_;
        assert (Z : at_ [] (diff PB_u 0) x y = 0 /\ at_ [] (diff PB_u 1) x y = 0) by
          (subst; unfold at_, PB_u, X, Y, Pi, Minus, Neg; cbn [diff Nat.eqb value env]; rewrite ?q0, ?q1, ?qm1; match goal with |- context [sin ?a] => replace a with 0 by ring end; rewrite sin_0; split; ring);
        destruct Z as [Z1 Z2]; rewrite ?Z1, ?Z2; ring.
  - intros t x y _. rewrite (solution_jet _ _ _ U). unfold PB_row1_side, PB_a10, PB_L1, PB_g. forms. ring.
Qed.
Print Assumptions C107_poisson.

(** poisson_babuska_bc.py: for test functions that are zero where there are conditions, and the values of V_bcs are those of u *)
Theorem C107_poisson_bc s u p v q : solution [] PBC_u u -> (forall t, solution [] (pick PBC_lms t) (p t)) -> smooth v ->
  (forall t x y, In t (PBC_dir_tags s) -> on_side t x y -> va (v x y) = 0) ->
  balanced (fun x y => PBC_row0_dx (u x y) (v x y) (at_ [] PBC_f x y)) (fun t x y => PBC_row0_side s t (v x y) (p t x y) (at_ [] (pick PBC_g_sigma t) x y)) /\
  (forall t x y, on_side t x y -> PBC_row1_side s t (u x y) (q x y) (at_ [] (pick PBC_g_u t) x y) = 0) /\
  (forall t g x y, In (t, g) (PBC_V_bcs s) -> va (u x y) = at_ [] g x y) /\
  forall t, (1 <= t <= 4)%nat <-> In t (PBC_lm_tags s ++ PBC_dir_tags s ++ PBC_neu_tags s).
Proof.
  intros U P (V1 & V2 & C1 & C2 & C3) VD. split; [| split; [| split]].
  - eapply (balanced_by (fun x y => at_ [] (diff PBC_u 0) x y * va (v x y)) (fun x y => at_ [] (diff PBC_u 1) x y * va (v x y))); [derive | derive | continuous | continuous | continuous | continuous | |].
    + intros x y _. rewrite (solution_jet _ _ _ U). unfold PBC_row0_dx, PBC_f. forms. autorewrite with at_. ring.
    + intros t x y S. rewrite (solution_jet _ _ _ (P t)). pose proof (fun I => VD t x y I S) as VD'. clear VD. destruct t as [| [| [| [| [| t]]]]]; destruct S as [Sq E]; try contradiction E; cbn [normal fst snd];
        destruct s; cbn [PBC_dir_tags In] in VD'; unfold PBC_row0_side; cbn [PBC_lm_tags PBC_neu_tags among existsb Nat.eqb orb]; try (rewrite VD' by tauto);
        unfold PBC_lms, PBC_g_sigma, pick, lookup, normals; cbn [map nth_error pred Nat.eqb]; forms; autorewrite with at_; ring.
  - each_side; rewrite (solution_jet _ _ _ U); destruct s; unfold PBC_row1_side, PBC_g_u; cbn [PBC_lm_tags among existsb Nat.eqb orb pick lookup repeat nth_error pred]; forms; ring.
  - intros t g x y H. rewrite (solution_jet _ _ _ U). destruct s; cbn in H; intuition; match goal with E : _ = (t, g) |- _ => injection E as <- <- end; reflexivity.
  - intros t. destruct s; cbn; lia.
Qed.
Print Assumptions C107_poisson_bc.

(** The values of Q_bcs are not those of the multiplier *)
Theorem C107_multiplier_bc_refuted : forall s, s <> PBC_neu -> exists x y g t, In ((x, y), g) (PBC_Q_bcs s) /\ In t (PBC_lm_tags s) /\ on_side t x y /\ at_ [] (pick PBC_lms t) x y <> g.
Proof.
  intros s H. exists 0, 1, 0, 4%nat. split; [destruct s; cbn; try tauto; contradiction H; reflexivity |]. split; [destruct s; cbn; tauto |]. split; [unfold on_side, in_square; lra |].
  unfold PBC_lms, pick, lookup, normals. cbn [map nth_error pred Nat.eqb]. forms. autorewrite with at_. unfold at_, PBC_u, X, Y, Pi. cbn [diff Nat.eqb value env]. rewrite ?q0, ?q1.
  replace (PI * (0 + 1)) with PI by ring. rewrite cos_PI. pose proof PI_RGT_0. lra.
Qed.
Print Assumptions C107_multiplier_bc_refuted.

(** grad_div_babuska.py *)
Theorem C107_grad_div u p v q : solution_v [] GD_u u -> solution [] GD_p p -> smooth_v v ->
  balanced (fun x y => GD_row0_dx (u x y) (v x y) (at_v [] GD_f x y)) (fun t x y => GD_row0_side t (v x y) (p x y)) /\
  forall t x y, on_side t x y -> GD_row1_side t (u x y) (q x y) (at_v [] (pick_v GD_g_u t) x y) = 0.
Proof.
  intros U P [(V11 & V12 & C11 & C12 & C13) (V21 & V22 & C21 & C22 & C23)]. split.
  - eapply (balanced_by (fun x y => at_ [] (div GD_u) x y * va (fst (v x y))) (fun x y => at_ [] (div GD_u) x y * va (snd (v x y)))); [derive | derive | continuous | continuous | continuous | continuous | |].
    + intros x y _. rewrite (solution_v_jet _ _ _ U). unfold GD_row0_dx, GD_f. forms. autorewrite with at_. ring.
    + each_side; rewrite (solution_jet _ _ _ P); unfold GD_row0_side, GD_p; cbn [n_]; forms; autorewrite with at_; ring.
  - each_side; rewrite (solution_v_jet _ _ _ U); unfold GD_row1_side, GD_g_u; cbn [n_ pick_v lookup repeat nth_error pred Nat.eqb]; forms; ring.
Qed.
Print Assumptions C107_grad_div.

(** curl_curl_babuska.py *)
Theorem C107_curl_curl u p v q : solution_v [] CC_u u -> solution [] CC_p p -> smooth_v v ->
  balanced (fun x y => CC_row0_dx (u x y) (v x y) (at_v [] CC_f x y)) (fun t x y => CC_row0_side t (v x y) (p x y)) /\
  forall t x y, on_side t x y -> CC_row1_side t (u x y) (q x y) (at_v [] (pick_v CC_g_u t) x y) = 0.
Proof.
  intros U P [(V11 & V12 & C11 & C12 & C13) (V21 & V22 & C21 & C22 & C23)]. split.
  - eapply (balanced_by (fun x y => at_ [] (curl_v CC_u) x y * va (snd (v x y))) (fun x y => -1 * (at_ [] (curl_v CC_u) x y * va (fst (v x y))))); [derive | derive | continuous | continuous | continuous | continuous | |].
    + intros x y _. rewrite (solution_v_jet _ _ _ U). unfold CC_row0_dx, CC_f. forms. autorewrite with at_. ring.
    + each_side; rewrite (solution_jet _ _ _ P); unfold CC_row0_side, CC_t_, CC_p; cbn [n_]; forms; autorewrite with at_; ring.
  - each_side; rewrite (solution_v_jet _ _ _ U); unfold CC_row1_side, CC_t_, CC_g_u; cbn [n_ pick_v lookup repeat nth_error pred Nat.eqb]; forms; ring.
Qed.
Print Assumptions C107_curl_curl.

(** sym_grad_babuska.py, with the three multipliers *)
Theorem C107_sym_grad u v : solution_v [] SG_u u -> smooth_v v ->
  let interior := fun x y => SG_row0_dx (u x y) (v x y) (at_v [] SG_f x y) in
  balanced interior (fun t x y => SG_row0_full (v x y) (at_v [] (pick_v SG_lm t) x y)) /\
  balanced interior (fun t x y => SG_row0_normal t (v x y) (at_ [] (pick SG_lm_n t) x y) (at_v [] (pick_v SG_neumann t) x y)) /\
  balanced interior (fun t x y => SG_row0_tangent t (v x y) (at_ [] (pick SG_lm_t t) x y) (at_v [] (pick_v SG_neumann t) x y)) /\
  forall t x y q qv, on_side t x y -> let g := at_v [] (pick_v SG_dirichlet t) x y in SG_row1_full (u x y) qv g = 0 /\ SG_row1_normal t (u x y) q g = 0 /\ SG_row1_tangent t (u x y) q g = 0.
Proof.
  intros U [(V11 & V12 & C11 & C12 & C13) (V21 & V22 & C21 & C22 & C23)] interior.
  pose (F := fun x y => at_ [] (fst (fst SG_sigma)) x y * va (fst (v x y)) + at_ [] (fst (snd SG_sigma)) x y * va (snd (v x y))).
  pose (G := fun x y => at_ [] (snd (fst SG_sigma)) x y * va (fst (v x y)) + at_ [] (snd (snd SG_sigma)) x y * va (snd (v x y))).
  assert (K : exists dF dG, d1 F dF /\ d2 G dG /\ (cont2 F /\ cont2 G /\ cont2 dF /\ cont2 dG) /\ forall x y, in_square x y -> interior x y = dF x y + dG x y).
  { eexists _, _. split; [unfold F; derive |]. split; [unfold G; derive |]. split; [unfold F, G; repeat split; continuous |]. intros x y _. unfold interior. rewrite (solution_v_jet _ _ _ U). unfold SG_row0_dx, SG_f, SG_sigma. forms. autorewrite with at_. field. }
  destruct K as (dF & dG & DF & DG & (CF & CG & CdF & CdG) & I). assert (B : forall sides, (forall t x y, on_side t x y -> sides t x y + (F x y * fst (normal t) + G x y * snd (normal t)) = 0) -> balanced interior sides) by (intros sides H; apply (balanced_by F G dF dG); assumption).
  split; [| split; [| split]].
  - apply B. each_side; unfold F, G, SG_row0_full, SG_lm, SG_sigma, pick_v, lookup, normals; cbn [map nth_error pred Nat.eqb]; forms; autorewrite with at_; field.
  - apply B. each_side; unfold F, G, SG_row0_normal, SG_lm_n, SG_lm, SG_neumann, SG_t_, SG_sigma, pick, pick_v, lookup, normals; cbn [map combine nth_error pred Nat.eqb n_]; forms; autorewrite with at_; field.
  - apply B. each_side; unfold F, G, SG_row0_tangent, SG_lm_t, SG_lm, SG_neumann, SG_t_, SG_sigma, Rot, pick, pick_v, lookup, normals; cbn [map combine nth_error pred Nat.eqb n_]; forms; autorewrite with at_; field.
  - intros t x y q qv S. cbv zeta. rewrite (solution_v_jet _ _ _ U). assert (E : pick_v SG_dirichlet t = SG_u) by (destruct S as [_ E]; destruct t as [| [| [| [| [| t]]]]]; try contradiction E; reflexivity). rewrite E.
    unfold SG_row1_full, SG_row1_normal, SG_row1_tangent. forms. repeat split; ring.
Qed.
Print Assumptions C107_sym_grad.

(** mixed_poisson_babuska.py: for test functions with no flux where there are conditions on the flux *)
Theorem C107_mixed sigma u p tau v q : solution_v [] MP_sigma sigma -> solution [] MP_u u -> solution [] MP_p p -> smooth_v tau ->
  (forall t x y, In t MP_flux_tags -> on_side t x y -> va (fst (tau x y)) * fst (normal t) + va (snd (tau x y)) * snd (normal t) = 0) ->
  balanced (fun x y => MP_row0_dx (sigma x y) (tau x y) (u x y)) (fun t x y => MP_row0_side t (tau x y) (p x y) (at_ [] (pick MP_g_u t) x y)) /\
  (forall x y, MP_row1_dx (v x y) (sigma x y) (at_ [] MP_f x y) = 0) /\
  (forall t x y, on_side t x y -> MP_row2_side t (q x y) (sigma x y) (at_v [] (pick_v MP_g_sigma t) x y) = 0) /\
  (forall t g x y, In (t, g) MP_S_bcs -> jval (sigma x y) = at_v [] g x y) /\
  forall t, (1 <= t <= 4)%nat <-> In t (MP_lm_tags ++ MP_pressure_tags ++ MP_flux_tags).
Proof.
  intros S U P [(V11 & V12 & C11 & C12 & C13) (V21 & V22 & C21 & C22 & C23)] T. split; [| split; [| split; [| split]]].
  - eapply (balanced_by (fun x y => -1 * (at_ [] MP_u x y * va (fst (tau x y)))) (fun x y => -1 * (at_ [] MP_u x y * va (snd (tau x y))))); [derive | derive | continuous | continuous | continuous | continuous | |].
    + intros x y _. rewrite (solution_v_jet _ _ _ S), (solution_jet _ _ _ U). unfold MP_row0_dx, MP_sigma. forms. autorewrite with at_. ring.
    + intros t x y H. rewrite (solution_jet _ _ _ P). pose proof (fun I => T t x y I H) as T'. clear T. destruct t as [| [| [| [| [| t]]]]]; destruct H as [Sq E]; try contradiction E; cbn [normal fst snd] in *;
        unfold MP_row0_side, MP_g_u, MP_p, pick, lookup; cbn [MP_lm_tags MP_pressure_tags among existsb Nat.eqb orb repeat nth_error pred n_]; forms; cbn [MP_flux_tags In] in T'; try ring.
      specialize (T' (or_introl eq_refl)). replace (va (snd (tau x y))) with 0 by lra. ring.
  - intros x y. rewrite (solution_v_jet _ _ _ S). unfold MP_row1_dx, MP_f. forms. autorewrite with at_. ring.
  - each_side; rewrite (solution_v_jet _ _ _ S); unfold MP_row2_side, MP_g_sigma; cbn [MP_lm_tags among existsb Nat.eqb orb pick_v lookup repeat nth_error pred n_]; forms; ring.
  - intros t g x y H. rewrite (solution_v_jet _ _ _ S). cbn in H. destruct H as [H | []]. injection H as <- <-. reflexivity.
  - intros t. cbn. lia.
Qed.
Print Assumptions C107_mixed.

(** There are such fields; a test function that is zero on the sides 1 and 3 *)
Example C107_ex : solution [] PB_u (jet_of [] PB_u) /\ solution_v [] SG_u (jet_v [] SG_u) /\
  smooth (jet_of [] (Times X Y)) /\ (forall t x y, In t (PBC_dir_tags PBC_dir) -> on_side t x y -> va (jet_of [] (Times X Y) x y) = 0) /\ va (jet_of [] (Times X Y) 1 1) = 1.
Proof.
  split; [apply solution_of |]. split; [apply solution_v_of |]. split; [apply solution_of |]. split; [| unfold jet_of, at_; cbn; ring].
  intros t x y [<- | [<- | []]] [_ E]; subst; unfold jet_of, at_; cbn; ring.
Qed.
(** A test function of mixed_poisson_babuska.py *)
Example C107_ex_mixed : let tau := jet_v [] (X, Times X Y) in smooth_v tau /\
  forall t x y, In t MP_flux_tags -> on_side t x y -> va (fst (tau x y)) * fst (normal t) + va (snd (tau x y)) * snd (normal t) = 0.
Proof. intros tau. split; [split; apply solution_of |]. intros t x y [<- | []] [_ E]. subst. unfold tau, jet_v, jet_of, at_. cbn. ring. Qed.
(** Being balanced is not always so *)
Example C107_ex_sharp : ~ balanced (fun _ _ => 1) (fun _ _ _ => 0).
Proof.
  assert (K : forall c, integral (fun _ => c) 0 1 c) by (intros c; exists (RiemannInt_P14 0 1 c); eapply eq_trans; [exact (RiemannInt_P15 (RiemannInt_P14 0 1 c)) | ring]).
  intros (I & l & r & b & t & H & Hl & Hr & Hb & Ht & E). rewrite (integral_unique _ _ _ _ _ Hl (K 0)), (integral_unique _ _ _ _ _ Hr (K 0)), (integral_unique _ _ _ _ _ Hb (K 0)), (integral_unique _ _ _ _ _ Ht (K 0)) in E.
  assert (I = 1) by (apply (integral2_unique (fun _ _ => 1) 0 1 0 1); [lra | exact H | exists (fun _ => 1); split; [intros; apply K | apply K]]). lra.
Qed.
