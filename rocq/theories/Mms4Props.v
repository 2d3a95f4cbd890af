(** C116: manufactured solutions of the sandbox *)
From Coq Require Import Reals Lra Qreals FunctionalExtensionality.
From Verif Require Import Base BaseProofs MmsModel MmsProofs Mms2Model Mms4Model GaussProofs.
Local Open Scope R_scope.

(** babuska_hand_newton.py: F vanishes at the solution for all test functions *)
Theorem C116_nonlinear u p v q : solution [] NB_u u -> solution [] NB_p p -> smooth v ->
  balanced (fun x y => NB_F0_dx (u x y) (v x y) (at_ [] NB_f x y)) (fun _ x y => NB_F0_side (p x y) (v x y)) /\
  forall t x y, on_side t x y -> NB_F1_side (u x y) (q x y) (at_ [] NB_h x y) = 0.
Proof.
  intros U P (V1 & V2 & C1 & C2 & C3). split.
  - eapply (balanced_by (fun x y => at_ [] (Times (NB_nl NB_u) (diff NB_u 0)) x y * va (v x y)) (fun x y => at_ [] (Times (NB_nl NB_u) (diff NB_u 1)) x y * va (v x y))); [derive | derive | continuous | continuous | continuous | continuous | |].
    + intros x y _. rewrite (solution_jet _ _ _ U). unfold NB_F0_dx, NB_f, NB_nlR, scale_v. forms. autorewrite with at_. unfold NB_nl. generalize NB_u. intros w. cbn [diff]. autorewrite with at_.
      replace (at_ [] (Power (Plus (Num 1) w) 2) x y) with ((1 + at_ [] w x y) ^ 2) by (unfold at_; cbn [value]; rewrite q1; reflexivity). ring.
    + each_side; rewrite (solution_jet _ _ _ P); unfold NB_F0_side, NB_p; forms; autorewrite with at_;
        assert (Z : at_ [] (diff NB_u 0) x y = 0 /\ at_ [] (diff NB_u 1) x y = 0) by
          (subst; unfold at_, NB_u, X, Y, Pi, Minus, Neg; cbn [diff Nat.eqb value env]; rewrite ?q0, ?q1, ?qm1; match goal with |- context [sin ?a] => replace a with 0 by ring end; rewrite sin_0; split; ring);
        destruct Z as [Z1 Z2]; rewrite ?Z1, ?Z2; ring.
  - intros t x y _. rewrite (solution_jet _ _ _ U). unfold NB_F1_side, NB_h. forms. ring.
Qed.
Print Assumptions C116_nonlinear.

(** The multiplier is determined: no other constant one balances the first equation *)
Theorem C116_multiplier c : c <> 0 ->
  ~ balanced (fun x y => NB_F0_dx (jet_of [] NB_u x y) (Jet 1 0 0) (at_ [] NB_f x y)) (fun _ x y => NB_F0_side (Jet c 0 0) (Jet 1 0 0)).
Proof.
  intros Hc. destruct (C116_nonlinear (jet_of [] NB_u) (fun _ _ => Jet 0 0 0) (fun _ _ => Jet 1 0 0) (fun _ _ => Jet 0 0 0) (solution_of [] NB_u)) as [B _].
  - split; [split; [| split; [| split; [| split]]] |]; cbn [va da db]; [derive | derive | continuous | continuous | continuous |]. intros x y. unfold NB_p. autorewrite with at_. reflexivity.
  - split; [| split; [| split; [| split]]]; cbn [va da db]; [derive | derive | continuous | continuous | continuous].
  - intros (I' & l' & r' & b' & t' & HI' & Hl' & Hr' & Hb' & Ht' & E'). destruct B as (I & l & r & b & t & HI & Hl & Hr & Hb & Ht & E).
    assert (K : forall k a, integral (fun _ : R => k * 1) 0 1 a -> a = k).
    { intros k a Ha. apply (integral_unique (fun _ => k * 1) 0 1 a k Ha).
      pose proof (integral_deriv (fun x => k * x) (fun _ => k * 1) 0 1) as T. cbv beta in T. replace (k * 1 - k * 0) with k in T by ring. apply T; [intros x; apply (derivable_pt_lim_scal id k x 1), derivable_pt_lim_id | apply derivable_continuous, derivable_const]. }
    unfold NB_F0_side in *. cbn [va] in *. apply K in Hl', Hr', Hb', Ht', Hl, Hr, Hb, Ht. subst. assert (I = I') by (apply (integral2_unique _ 0 1 0 1 I I' ltac:(lra) HI HI')). lra.
Qed.
Print Assumptions C116_multiplier.

(** mini_hack.py, Taylor-Hood: u is given on the left side *)
Lemma mh_field v : smooth_v v -> exists F G dF dG, d1 F dF /\ d2 G dG /\ (cont2 F /\ cont2 G /\ cont2 dF /\ cont2 dG) /\
  (forall x y, inner2 (jgrad_v (jet_v [] MH_u x y)) (jgrad_v (v x y)) - jdiv (v x y) * va (jet_of [] MH_p x y) - dot (at_v [] MH_f x y) (jval (v x y)) = dF x y + dG x y) /\
  (forall n x y, MH_ds n (v x y) (at_v [] (fst MH_h) x y, at_v [] (snd MH_h) x y) + (F x y * fst n + G x y * snd n) = 0).
Proof.
  intros [(V11 & V12 & C11 & C12 & C13) (V21 & V22 & C21 & C22 & C23)].
  exists (fun x y => at_ [] (fst (fst MH_h)) x y * va (fst (v x y)) + at_ [] (fst (snd MH_h)) x y * va (snd (v x y))).
  exists (fun x y => at_ [] (snd (fst MH_h)) x y * va (fst (v x y)) + at_ [] (snd (snd MH_h)) x y * va (snd (v x y))).
  eexists. eexists. split; [derive |]. split; [derive |]. split; [split; [continuous | split; [continuous | split; continuous]] |]. split.
  - intros x y. unfold jgrad_v, MH_f, MH_h, add_id. generalize MH_u, MH_p. intros [u1 u2] p. forms. cbn [diff]. autorewrite with at_. ring.
  - intros n x y. unfold MH_ds. generalize MH_h. intros [[a b] [c d]]. forms. ring.
Qed.
Lemma mh_divergence x y : jdiv (jet_v [] MH_u x y) = 0.
Proof. unfold MH_u. forms. unfold at_, X, Y, Pi. cbn [diff Nat.eqb value env]. rewrite ?q0, ?q1. ring. Qed.
Theorem C116_taylor_hood u p v q : solution_v [] MH_u u -> solution [] MH_p p -> smooth_v v ->
  balanced (fun x y => MH_dx (u x y) (v x y) (p x y) (q x y) (at_v [] MH_f x y))
    (fun t x y => MH_ds (n_ t) (v x y) (at_v [] (fst MH_h) x y, at_v [] (snd MH_h) x y)) /\
  (forall t g x y, In (t, g) MH_bcs -> jval (u x y) = at_v [] g x y) /\
  ((forall y, 0 <= y <= 1 -> exists t g, In (t, g) MH_bcs /\ on_side t 0 y) /\ forall t g x y, In (t, g) MH_bcs -> on_side t x y -> x = 0).
Proof.
  intros U P V. split; [| split].
  - destruct (mh_field v V) as (F & G & dF & dG & DF & DG & (CF & CG & CdF & CdG) & HI & HS). apply (balanced_by F G dF dG); try assumption.
    + intros x y _. rewrite (solution_v_jet _ _ _ U), (solution_jet _ _ _ P), <- HI. unfold MH_dx. rewrite (mh_divergence x y). ring.
    + each_side; [exact (HS (-1, 0) x y) | exact (HS (1, 0) x y) | exact (HS (0, -1) x y) | exact (HS (0, 1) x y)].
  - intros t g x y [H | []]. injection H as <- <-. rewrite (solution_v_jet _ _ _ U). reflexivity.
  - split.
    + intros y Hy. exists 1%nat, MH_u. split; [left; reflexivity |]. unfold on_side, in_square. lra.
    + intros t g x y [H | []] S. injection H as <- <-. apply S.
Qed.
Print Assumptions C116_taylor_hood.

(** With bubbles: for every way to write the solution as a sum *)
Theorem C116_mini u_ ub p v_ vb q : solution_v [] MH_u (fun x y => plus_jets (u_ x y) (ub x y)) -> solution [] MH_p p -> smooth_v (fun x y => plus_jets (v_ x y) (vb x y)) ->
  balanced (fun x y => MH_mini_dx (u_ x y) (ub x y) (v_ x y) (vb x y) (p x y) (q x y) (at_v [] MH_f x y))
    (fun t x y => MH_mini_ds (n_ t) (v_ x y) (vb x y) (at_v [] (fst MH_h) x y, at_v [] (snd MH_h) x y)).
Proof.
  intros U P V. apply (C116_taylor_hood (fun x y => plus_jets (u_ x y) (ub x y)) p (fun x y => plus_jets (v_ x y) (vb x y)) q U P V).
Qed.
Print Assumptions C116_mini.

(** The rows of the block system, and their sum is the form of the mixed space *)
Theorem C116_block u ub p v vb q : solution_v [] MH_u (fun x y => plus_jets (u x y) (ub x y)) -> solution [] MH_p p -> smooth_v v -> smooth_v vb ->
  (forall t x y, on_side t x y -> jval (vb x y) = (0, 0)) ->
  balanced (fun x y => MH_row0_dx (u x y) (ub x y) (v x y) (p x y) (at_v [] MH_f x y))
    (fun t x y => MH_row0_ds (n_ t) (v x y) (at_v [] (fst MH_h) x y, at_v [] (snd MH_h) x y)) /\
  balanced (fun x y => MH_row1_dx (u x y) (ub x y) (vb x y) (p x y) (at_v [] MH_f x y)) (fun _ _ _ => 0) /\
  (forall x y, MH_row2_dx (u x y) (ub x y) (q x y) = 0) /\
  forall (u ub v vb : jet * jet) p q f n h, MH_row0_dx u ub v p f + MH_row1_dx u ub vb p f + MH_row2_dx u ub q = MH_mini_dx u ub v vb p q f /\
    (jval vb = (0, 0) -> MH_row0_ds n v h = MH_mini_ds n v vb h).
Proof.
  intros U P V VB B.
  assert (J : forall x y (w : jet * jet), inner2 (jgrad_v (u x y)) (jgrad_v w) + inner2 (jgrad_v (ub x y)) (jgrad_v w) = inner2 (jgrad_v (jet_v [] MH_u x y)) (jgrad_v w)).
  { intros x y w. rewrite <- (solution_v_jet _ _ _ U x y). unfold plus_jets, plus_jet, jgrad_v. forms. ring. }
  split; [| split; [| split]].
  - destruct (mh_field v V) as (F & G & dF & dG & DF & DG & (CF & CG & CdF & CdG) & HI & HS). apply (balanced_by F G dF dG); try assumption.
    + intros x y _. rewrite <- HI, <- J, (solution_jet _ _ _ P). unfold MH_row0_dx. generalize (jgrad_v (u x y)), (jgrad_v (ub x y)), (jgrad_v (v x y)). intros g1 g2 g3. unfold inner2, MmsModel.dot. ring.
    + each_side; [exact (HS (-1, 0) x y) | exact (HS (1, 0) x y) | exact (HS (0, -1) x y) | exact (HS (0, 1) x y)].
  - destruct (mh_field vb VB) as (F & G & dF & dG & DF & DG & (CF & CG & CdF & CdG) & HI & HS). apply (balanced_by F G dF dG); try assumption.
    + intros x y _. rewrite <- HI, <- J, (solution_jet _ _ _ P). unfold MH_row1_dx. generalize (jgrad_v (u x y)), (jgrad_v (ub x y)), (jgrad_v (vb x y)). intros g1 g2 g3. unfold inner2, MmsModel.dot. ring.
    + intros t x y S. pose proof (HS (normal t) x y) as H. unfold MH_ds in H. rewrite (B t x y S) in H. unfold MmsModel.dot in H. cbn [fst snd] in H. lra.
  - intros x y. pose proof (mh_divergence x y) as E. rewrite <- (solution_v_jet _ _ _ U x y) in E. unfold jdiv, plus_jets, plus_jet in E. cbn [fst snd da db] in E. unfold MH_row2_dx, jdiv. transitivity (- (da (fst (u x y)) + da (fst (ub x y)) + (db (snd (u x y)) + db (snd (ub x y)))) * va (q x y)); [ring | rewrite E; ring].
  - intros u' ub' w wb p' q' f n h. split.
    + unfold MH_row0_dx, MH_row1_dx, MH_row2_dx, MH_mini_dx, MH_dx, plus_jets, plus_jet, jgrad_v. forms. ring.
    + intros E. unfold MH_row0_ds, MH_mini_ds, MH_ds, plus_jets, plus_jet, jval in *. cbn [fst snd va]. injection E as -> ->. unfold MmsModel.dot. cbn [fst snd]. ring.
Qed.
Print Assumptions C116_block.

(** grad_div_hypre_2d.py: there are no conditions on the boundary, where the divergence is zero *)
Theorem C116_grad_div u v : solution_v [] GH_sigma u -> smooth_v v ->
  balanced (fun x y => GH_dx (u x y) (v x y) (at_v [] GH_f x y)) (fun _ _ _ => 0).
Proof.
  intros U [(V11 & V12 & C11 & C12 & C13) (V21 & V22 & C21 & C22 & C23)].
  assert (Z : forall x y, at_ [] (div GH_sigma) x y = 0) by (intros x y; unfold GH_sigma; forms; unfold at_, X, Y, Pi; cbn [diff Nat.eqb value env]; rewrite ?q0, ?q1; ring).
  eapply (balanced_by (fun x y => at_ [] (div GH_sigma) x y * va (fst (v x y))) (fun x y => at_ [] (div GH_sigma) x y * va (snd (v x y)))); [derive | derive | continuous | continuous | continuous | continuous | |].
  - intros x y _. rewrite (solution_v_jet _ _ _ U). unfold GH_dx, GH_f. forms. autorewrite with at_. ring.
  - intros t x y _. rewrite !Z. ring.
Qed.
Print Assumptions C116_grad_div.

(** mixed_poisson_hypre_2d.py *)
Theorem C116_mixed sigma u tau v : solution_v [] MX_sigma sigma -> solution [] MX_u u -> smooth_v tau ->
  balanced (fun x y => MX_row0_dx (sigma x y) (tau x y) (u x y)) (fun _ _ _ => 0) /\
  forall x y, MX_row1_dx (sigma x y) (u x y) (v x y) (at_ [] MX_f x y) = 0.
Proof.
  intros S U [(V11 & V12 & C11 & C12 & C13) (V21 & V22 & C21 & C22 & C23)]. split.
  - eapply (balanced_by (fun x y => at_ [] MX_u x y * va (fst (tau x y))) (fun x y => at_ [] MX_u x y * va (snd (tau x y)))); [derive | derive | continuous | continuous | continuous | continuous | |].
    + intros x y _. rewrite (solution_v_jet _ _ _ S), (solution_jet _ _ _ U). unfold MX_row0_dx, MX_sigma. forms. ring.
    + each_side; assert (Z : at_ [] MX_u x y = 0) by
        (subst; unfold at_, MX_u, X, Y, Pi, Minus, Neg; cbn [value env]; rewrite ?q0, ?q1, ?qm1; match goal with |- context [sin ?a] => replace a with 0 by ring end; apply sin_0); rewrite ?Z; ring.
  - intros x y. rewrite (solution_v_jet _ _ _ S), (solution_jet _ _ _ U). unfold MX_row1_dx, MX_f. generalize MX_sigma. intros [s1 s2]. forms. autorewrite with at_. ring.
Qed.
Print Assumptions C116_mixed.

(** There are such fields and test functions *)
Example case_solution : solution_v [] MH_u (fun x y => plus_jets (jet_v [] MH_u x y) (Jet 0 0 0, Jet 0 0 0)) /\ solution [] MH_p (jet_of [] MH_p).
Proof.
  split; [| apply solution_of]. pose proof (solution_v_of [] MH_u) as H. replace (fun x y => plus_jets (jet_v [] MH_u x y) (Jet 0 0 0, Jet 0 0 0)) with (jet_v [] MH_u); [exact H |].
  apply functional_extensionality. intros x. apply functional_extensionality. intros y. unfold plus_jets, plus_jet, jet_v, jet_of. cbn [fst snd va da db]. rewrite !Rplus_0_r. reflexivity.
Qed.
