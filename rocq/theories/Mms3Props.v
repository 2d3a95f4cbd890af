(** C109: manufactured solutions of further demos *)
From Coq Require Import Reals Lra Qreals.
From Verif Require Import Base BaseProofs Mms3Model Mms3Proofs.
Local Open Scope R_scope.

(** emi_primal.py and emi_primal_mortar.py *)
Theorem C109_emi par u0 u1 v0 v1 q : solution par EP_u0 u0 -> solution par EP_u1 u1 -> smooth v0 -> smooth v1 ->
  (forall t x y, In t EP_dirichlet_tags -> outer_side t x y -> va (v0 x y) = 0) ->
  let f0 x y := at_ par EP_f0 x y in let f1 x y := at_ par EP_f1 x y in
  let g_n t x y := at_ par (pick EP_g_n t) x y in let g_r t x y := at_ par (pick EP_g_r t) x y in let p t x y := at_ par (pick EP_lms t) x y in
  balanced_outer (fun x y => EP_row0_dx par (u0 x y) (v0 x y) (f0 x y)) (fun t x y => EP_row0_side t (u0 x y) (u1 x y) (v0 x y) (g_r t x y)) /\
  balanced_inner (fun x y => EP_row1_dx par (u1 x y) (v1 x y) (f1 x y)) (fun t x y => EP_row1_side (u0 x y) (u1 x y) (v1 x y) (g_r t x y) (g_n t x y)) /\
  balanced_outer (fun x y => EP_row0_dx par (u0 x y) (v0 x y) (f0 x y)) (fun t x y => EP_mortar0_side t (v0 x y) (p t x y)) /\
  balanced_inner (fun x y => EP_row1_dx par (u1 x y) (v1 x y) (f1 x y)) (fun t x y => EP_mortar1_side (v1 x y) (p t x y) (g_n t x y)) /\
  (forall t x y, inner_side t x y -> EP_mortar2_side (u0 x y) (u1 x y) (p t x y) (q x y) (g_r t x y) = 0) /\
  (forall t g x y, In (t, g) EP_V0_bcs -> va (u0 x y) = at_ par g x y) /\
  forall t, (5 <= t <= 8)%nat <-> In t EP_dirichlet_tags.
Proof.
  intros U0 U1 (V01 & V02 & C01 & C02 & C03) (V11 & V12 & C11 & C12 & C13) D f0 f1 g_n g_r p.
  assert (B0 : forall sides, (forall t x y, outer_side t x y -> sides t x y + (at_ par (fst EP_sigma0) x y * fst (outer_normal t) + at_ par (snd EP_sigma0) x y * snd (outer_normal t)) * va (v0 x y) = 0) ->
    balanced_outer (fun x y => EP_row0_dx par (u0 x y) (v0 x y) (f0 x y)) sides).
  { intros sides HS. eapply (balanced_outer_by (fun x y => at_ par (fst EP_sigma0) x y * va (v0 x y)) (fun x y => at_ par (snd EP_sigma0) x y * va (v0 x y))); [derive | derive | continuous | continuous | continuous | continuous | |].
    - intros x y. rewrite (solution_jet _ _ _ U0). unfold f0, EP_row0_dx, EP_f0, EP_sigma0, scale_v. generalize EP_u0. intros u. forms. cbn [Nat.eqb]. autorewrite with at_. rewrite !at_par. ring.
    - intros t x y S. rewrite <- (HS t x y S). ring. }
  assert (B1 : forall sides, (forall t x y, inner_side t x y -> sides t x y + (at_ par (fst EP_sigma1) x y * fst (normal t) + at_ par (snd EP_sigma1) x y * snd (normal t)) * va (v1 x y) = 0) ->
    balanced_inner (fun x y => EP_row1_dx par (u1 x y) (v1 x y) (f1 x y)) sides).
  { intros sides HS. eapply (balanced_inner_by (fun x y => at_ par (fst EP_sigma1) x y * va (v1 x y)) (fun x y => at_ par (snd EP_sigma1) x y * va (v1 x y))); [derive | derive | continuous | continuous | continuous | continuous | |].
    - intros x y. rewrite (solution_jet _ _ _ U1). unfold f1, EP_row1_dx, EP_f1, EP_sigma1, scale_v. generalize EP_u1. intros u. forms. cbn [Nat.eqb]. autorewrite with at_. rewrite !at_par. ring.
    - intros t x y S. rewrite <- (HS t x y S). ring. }
  unfold g_n, g_r, p in *. split; [| split; [| split; [| split; [| split; [| split]]]]].
  - apply B0. intros t x y S. rewrite (solution_jet _ _ _ U0), (solution_jet _ _ _ U1). pose proof (fun I => D t x y I S) as D'. clear D.
    destruct t as [| [| [| [| [| [| [| [| [| t]]]]]]]]]; try (destruct S as (_ & _ & []); fail); try (rewrite D' by (cbn; tauto)); clear D';
      unfold EP_row0_side, EP_g_r, EP_normalsI, pick, lookup; cbn [map nth_error pred Nat.eqb among existsb orb outer_normal normal fst snd];
      generalize EP_sigma0, EP_u0, EP_u1; intros [s1 s2] a b; forms; autorewrite with at_; ring.
  - apply B1. inner_sides; rewrite (solution_jet _ _ _ U0), (solution_jet _ _ _ U1); unfold EP_row1_side, EP_g_r, EP_g_n, EP_normalsI, pick, lookup; cbn [map nth_error pred Nat.eqb fst snd];
      generalize EP_sigma0, EP_sigma1, EP_u0, EP_u1; intros [s1 s2] [s3 s4] a b; forms; autorewrite with at_; ring.
  - apply B0. intros t x y S. pose proof (fun I => D t x y I S) as D'. clear D.
    destruct t as [| [| [| [| [| [| [| [| [| t]]]]]]]]]; try (destruct S as (_ & _ & []); fail); try (rewrite D' by (cbn; tauto)); clear D';
      unfold EP_mortar0_side, EP_lms, EP_normalsI, pick, lookup; cbn [map nth_error pred Nat.eqb among existsb orb outer_normal normal fst snd];
      generalize EP_sigma0; intros [s1 s2]; forms; autorewrite with at_; ring.
  - apply B1. inner_sides; unfold EP_mortar1_side, EP_lms, EP_g_n, EP_normalsI, pick, lookup; cbn [map nth_error pred Nat.eqb fst snd];
      generalize EP_sigma0, EP_sigma1; intros [s1 s2] [s3 s4]; forms; autorewrite with at_; ring.
  - inner_sides; rewrite (solution_jet _ _ _ U0), (solution_jet _ _ _ U1); unfold EP_mortar2_side, EP_lms, EP_g_r, EP_normalsI, pick, lookup; cbn [map nth_error pred Nat.eqb fst snd];
      generalize EP_sigma0, EP_u0, EP_u1; intros [s1 s2] a b; forms; autorewrite with at_; ring.
  - intros t g x y H. rewrite (solution_jet _ _ _ U0). cbn in H. destruct H as [H | [H | [H | [H | []]]]]; injection H as <- <-; reflexivity.
  - intros t. cbn. lia.
Qed.
Print Assumptions C109_emi.

(** twoDoneDoneD.py: u0 left and u1 right of the curve; the test function is smooth on both sides and continuous *)
Theorem C109_curve par u0 u1 u p v w v1 q : solution par TD_u0 u0 -> solution par TD_u1 u1 -> solution par TD_u u -> solution par TD_lm p -> smooth v -> smooth w -> smooth v1 ->
  (forall x y, on_boundary x y -> va (v x y) = 0 /\ va (w x y) = 0) -> (forall y, va (v (1/2) y) = va (w (1/2) y)) -> va (v1 (1/2) 0) = 0 -> va (v1 (1/2) 1) = 0 ->
  balanced_halves (fun x y => TD_row0_dx par (u0 x y) (v x y) (at_ par TD_f0 x y)) (fun x y => TD_row0_dx par (u1 x y) (w x y) (at_ par TD_f1 x y)) (fun y => TD_row0_gamma (v (1/2) y) (p (1/2) y)) /\
  integral (fun y => TD_row1_gamma par (u (1/2) y) (v1 (1/2) y) (p (1/2) y) (at_ par TD_f (1/2) y)) 0 1 0 /\
  (forall y, TD_row2_gamma (q y) (u0 (1/2) y) (u (1/2) y) (at_ par TD_g_u (1/2) y) = 0 /\ va (u0 (1/2) y) = va (u1 (1/2) y)) /\
  (forall t x y, half_side t x y -> exists g, In (t, g) TD_dirichlet_omega) /\
  forall t g x y, In (t, g) TD_dirichlet_omega -> half_side t x y -> (x <= 1/2 -> at_ par g x y = va (u0 x y)) /\ (1/2 <= x -> at_ par g x y = va (u1 x y)).
Proof.
  intros U0 U1 U P (V1 & V2 & Cv & Cv1 & Cv2) (W1 & W2 & Cw & Cw1 & Cw2) (Z1 & Z2 & Cz & Cz1 & Cz2) D E E0 E1.
  assert (mid : forall y, at_ par TD_u0 (1/2) y = at_ par TD_u1 (1/2) y).
  { intros y. unfold at_, TD_u0, TD_u1, Minus, Neg, X, Y, Pi. cbn [value env]. rewrite qhalf, qm1. replace (PI * y * (1 / 2 + -1 * / 2)) with 0 by field. rewrite sin_0. ring. }
  assert (bd : forall z, 0 <= z <= 1 -> on_boundary 0 z /\ on_boundary 1 z /\ on_boundary z 0 /\ on_boundary z 1).
  { intros z Hz. unfold on_boundary. split; [exists 1%nat | split; [exists 2%nat | split; [exists 3%nat | exists 4%nat]]]; unfold on_side, in_square; lra. }
  split; [| split; [| split; [| split]]].
  - eapply (balanced_halves_by (fun x y => nth 0 par 0 * (at_ par (diff TD_u0 0) x y * va (v x y))) (fun x y => nth 0 par 0 * (at_ par (diff TD_u0 1) x y * va (v x y))) _ _
      (fun x y => nth 0 par 0 * (at_ par (diff TD_u1 0) x y * va (w x y))) (fun x y => nth 0 par 0 * (at_ par (diff TD_u1 1) x y * va (w x y)))); [derive | derive | continuous | continuous | continuous | continuous | derive | derive | continuous | continuous | continuous | continuous | | | | | | |].
    + intros x y. rewrite (solution_jet _ _ _ U0). unfold TD_row0_dx, TD_f0, scale_v. generalize TD_u0. intros a. forms. cbn [Nat.eqb]. autorewrite with at_. rewrite !at_par. ring.
    + intros x y. rewrite (solution_jet _ _ _ U1). unfold TD_row0_dx, TD_f1, scale_v. generalize TD_u1. intros a. forms. cbn [Nat.eqb]. autorewrite with at_. rewrite !at_par. ring.
    + intros y Hy. rewrite (proj1 (D 0 y (proj1 (bd y Hy)))). ring.
    + intros x Hx. assert (H : 0 <= x <= 1) by lra. destruct (bd x H) as (_ & _ & A & B). rewrite (proj1 (D x 0 A)), (proj1 (D x 1 B)). split; ring.
    + intros y Hy. rewrite (proj2 (D 1 y (proj1 (proj2 (bd y Hy))))). ring.
    + intros x Hx. assert (H : 0 <= x <= 1) by lra. destruct (bd x H) as (_ & _ & A & B). rewrite (proj2 (D x 0 A)), (proj2 (D x 1 B)). split; ring.
    + intros y Hy. rewrite (solution_jet _ _ _ P), <- (E y). unfold TD_row0_gamma, TD_lm, TD_n. generalize TD_u0, TD_u1. intros a b. forms. autorewrite with at_. rewrite !at_par. ring.
  - pose (F := fun y => nth 1 par 0 * (at_ par (diff TD_u 1) (1/2) y * va (v1 (1/2) y))).
    assert (DF : forall y, derivable_pt_lim F y (nth 1 par 0 * (at_ par (diff (diff TD_u 1) 1) (1/2) y * va (v1 (1/2) y) + at_ par (diff TD_u 1) (1/2) y * db (v1 (1/2) y)))).
    { intros y. apply (derivable_pt_lim_scal (fun y => at_ par (diff TD_u 1) (1/2) y * va (v1 (1/2) y))). apply (derivable_pt_lim_mult (fun y => at_ par (diff TD_u 1) (1/2) y) (fun y => va (v1 (1/2) y))); [apply d2_at | apply Z2]. }
    assert (CF : continuity (fun y => nth 1 par 0 * (at_ par (diff (diff TD_u 1) 1) (1/2) y * va (v1 (1/2) y) + at_ par (diff TD_u 1) (1/2) y * db (v1 (1/2) y)))).
    { apply (cont2_y (fun x y => nth 1 par 0 * (at_ par (diff (diff TD_u 1) 1) x y * va (v1 x y) + at_ par (diff TD_u 1) x y * db (v1 x y))) (1/2)). continuous. }
    pose proof (integral_deriv F _ 0 1 DF CF) as H. replace (F 1 - F 0) with 0 in H by (unfold F; rewrite E0, E1; ring).
    refine (integral_ext _ _ 0 1 0 _ _ H); [lra |]. intros y _. rewrite (solution_jet _ _ _ U), (solution_jet _ _ _ P). unfold TD_row1_gamma, TD_f. generalize TD_u, TD_lm. intros a b. forms. autorewrite with at_. rewrite !at_par. ring.
  - intros y. rewrite (solution_jet _ _ _ U0), (solution_jet _ _ _ U1), (solution_jet _ _ _ U). split; [| apply mid]. unfold TD_row2_gamma, TD_g_u, Minus, Neg. cbn [jet_of va]. autorewrite with at_. ring.
  - intros t x y [_ S]. destruct t as [| [| [| [| [| [| [| t]]]]]]]; try contradiction S; cbn [TD_dirichlet_omega In]; eauto 10.
  - intros t g x y H S. rewrite (solution_jet _ _ _ U0), (solution_jet _ _ _ U1). cbn [jet_of va]. destruct S as [Sq S].
    assert (M : x = 1/2 -> at_ par TD_u0 x y = at_ par TD_u1 x y) by (intros ->; apply mid).
    cbn [TD_dirichlet_omega In] in H. destruct H as [H | [H | [H | [H | [H | [H | []]]]]]]; injection H as <- <-; (split; intros L; [| ]); try reflexivity; try (exfalso; lra); (rewrite M by lra) || (rewrite <- M by lra); reflexivity.
Qed.
Print Assumptions C109_curve.

(** The value 0 prescribed for the multiplier at the two ends is not its value at (1/2, 1) *)
Theorem C109_curve_bc_refuted par : (forall x y g, In ((x, y), g) TD_Q_bcs <-> x = 1/2 /\ (y = 0 \/ y = 1) /\ g = 0) /\
  (nth 0 par 0 <> 0 -> exists x y g, In ((x, y), g) TD_Q_bcs /\ at_ par TD_lm x y <> g).
Proof.
  split.
  { intros x y g. split.
    - intros [H | [H | []]]; injection H as <- <- <-; repeat split; auto.
    - intros (-> & [-> | ->] & ->); cbn; auto. }
  intros N. exists (1/2), 1, 0. split; [cbn; tauto |]. unfold TD_lm, TD_n, TD_u0, TD_u1. forms. autorewrite with at_. unfold at_, Minus, Neg, X, Y, Pi. cbn [diff Nat.eqb value env]. rewrite ?q0, ?q1, ?qm1, ?qhalf.
  replace (PI * 1 * (1 / 2 + -1 * / 2)) with 0 by field. rewrite cos_0, sin_0. pose proof PI_RGT_0. intros K. assert (nth 0 par 0 * PI = 0) as K' by lra. apply Rmult_integral in K'. lra.
Qed.
Print Assumptions C109_curve_bc_refuted.

(** bertoluzza_stokes.py *)
Lemma bs_divergence_free q x y : BS_row1_dx (jet_v [] BS_u x y) q = 0.
Proof. unfold BS_row1_dx, BS_u. forms. unfold at_, BS_phi, X, Y, Pi, Minus, Neg. cbn [diff Nat.eqb value env]. rewrite q0, q1, q2, qm1. ring. Qed.
Theorem C109_bertoluzza u p v q m : solution_v [] BS_u u -> solution [] BS_p p -> smooth_v v ->
  (forall t x y, In t BS_dir_tags -> on_side t x y -> jval (v x y) = (0, 0)) ->
  balanced (fun x y => BS_row0_dx (u x y) (v x y) (p x y) (at_v [] BS_f x y))
    (fun t x y => BS_row0_side t (n_ t) (v x y) (at_ [] (BS_lm true) x y) (at_v [] (pick_v (BS_g_neu true) t) x y) (at_ [] (pick (BS_g_lm_n true) t) x y)) /\
  (forall x y, BS_row1_dx (u x y) (q x y) = 0) /\
  (forall x y, on_side 1 x y -> BS_row2_side (n_ 1) (m x y) (u x y) (at_ [] (pick (BS_g_lm_t true) 1) x y) = 0) /\
  (forall t g x y, In (t, g) BS_V_bcs -> jval (u x y) = at_v [] g x y) /\
  (forall x y g, In ((x, y), g) BS_M_bcs -> at_ [] (BS_lm true) x y = g) /\
  forall t, (1 <= t <= 4)%nat <-> In t (BS_lm_tags ++ BS_dir_tags ++ BS_neu_tags).
Proof.
  intros U P V D. split; [| split; [| split; [| split; [| split]]]].
  - destruct (stokes_field [] BS_u BS_p v V) as (F & G & dF & Gx & dG & (DF & DGx) & DG & (CF & CG & CdF & CdG & CGx) & HI & HS). apply (balanced_by F G dF dG); try assumption.
    + intros x y _. rewrite (solution_v_jet _ _ _ U), (solution_jet _ _ _ P). apply HI.
    + intros t x y S. pose proof (fun I => D t x y I S) as D'. rewrite HS. fold BS_sigma. destruct (side_cases t x y S) as [-> | [-> | [-> | ->]]]; cbn [normal fst snd n_];
        unfold BS_row0_side, BS_lm, BS_g_neu, BS_g_lm_n, BS_normals, BS_R, BS_rot, pick, pick_v, lookup; cbn [map nth_error pred Nat.eqb among existsb orb BS_lm_tags BS_neu_tags fst snd];
        try (specialize (D' ltac:(cbn; tauto)); injection D' as D1 D2; rewrite D1, D2; ring); generalize BS_sigma; intros [[s1 s2] [s3 s4]]; forms; autorewrite with at_; ring.
  - intros x y. rewrite (solution_v_jet _ _ _ U). apply bs_divergence_free.
  - intros x y _. rewrite (solution_v_jet _ _ _ U). unfold BS_row2_side, BS_g_lm_t, BS_normals, BS_R, BS_rot, pick, lookup. cbn [map nth_error pred Nat.eqb n_ fst snd]. generalize BS_u. intros [u1 u2]. forms. autorewrite with at_. ring.
  - intros t g x y H. rewrite (solution_v_jet _ _ _ U). cbn in H. destruct H as [H | [H | []]]; injection H as <- <-; reflexivity.
  - intros x y g H. unfold BS_lm, BS_normals, BS_R, BS_sigma, stress, add_id, scale, pick_v, lookup, BS_u. cbn [nth_error pred Nat.eqb]. forms. autorewrite with at_. unfold at_, BS_phi, X, Y, Pi, Minus, Neg. cbn [diff Nat.eqb value env]. rewrite ?q0, ?q1, ?q2, ?qm1.
    destruct H as [H | [H | []]]; injection H as <- <- <-.
    + replace (PI * (0 + -1 * (2 * 0))) with 0 by ring. rewrite sin_0. ring.
    + replace (PI * (0 + -1 * (2 * 1))) with (- (2 * PI)) by ring. rewrite sin_neg, sin_2PI. ring.
  - intros t. cbn. lia.
Qed.
Print Assumptions C109_bertoluzza.
(** With the arc *)
Theorem C109_arc u p v m : solution_v [] BS_u u -> solution [] BS_p p -> smooth_v v ->
  (forall t x y n, In t BS_dir_tags -> arc_side t x y n -> jval (v x y) = (0, 0)) ->
  balanced_arc (fun x y => BS_row0_dx (u x y) (v x y) (p x y) (at_v [] BS_f x y))
    (fun t n x y => BS_row0_side t n (v x y) (at_ [] (BS_lm false) x y) (at_v [] (pick_v (BS_g_neu false) t) x y) (at_ [] (pick (BS_g_lm_n false) t) x y)) /\
  (forall x y n, arc_side 1 x y n -> fst n * fst n + snd n * snd n = 1 /\ BS_row2_side n (m x y) (u x y) (at_ [] (pick (BS_g_lm_t false) 1) x y) = 0) /\
  (forall x y g, In ((x, y), g) BS_M_bcs -> at_ [] (BS_lm false) x y = g).
Proof.
  intros U P V D.
  assert (N : forall x y n, arc_side 1 x y n -> n = (2 * x, 2 * (y - 1/2)) /\ fst n * fst n + snd n * snd n = 1) by (intros x y n (E & _ & ->); cbn [fst snd]; split; [reflexivity | lra]).
  split; [| split].
  - destruct (stokes_field [] BS_u BS_p v V) as (F & G & dF & Gx & dG & (DF & DGx) & DG & (CF & CG & CdF & CdG & CGx) & HI & HS). apply (balanced_arc_by F G dF Gx dG); try assumption.
    + intros x y. rewrite (solution_v_jet _ _ _ U), (solution_jet _ _ _ P). apply HI.
    + intros t n x y S. pose proof (fun I => D t x y n I S) as D'. rewrite HS. fold BS_sigma. destruct t as [| [| [| [| [| t]]]]]; try contradiction S.
      * destruct (N x y n S) as [-> UN]. cbn [fst snd] in UN |- *. unfold BS_row0_side, BS_lm, BS_g_neu, BS_g_lm_n, BS_normals, BS_R, BS_rot, pick, pick_v, lookup; cbn [map nth_error pred Nat.eqb among existsb orb BS_lm_tags BS_neu_tags fst snd].
        generalize BS_sigma; intros [[s1 s2] [s3 s4]]; forms; autorewrite with at_. replace (at_ [] X x y) with x by reflexivity. replace (at_ [] Y x y) with y by reflexivity.
        revert UN. set (a := 2 * x). set (b := 2 * (y - 1/2)). replace (2 * (y + -1 * / 2)) with b by (unfold b; field). intros UN.
        generalize (at_ [] s1 x y), (at_ [] s2 x y), (at_ [] s3 x y), (at_ [] s4 x y), (va (fst (v x y))), (va (snd (v x y))). intros S1 S2 S3 S4 v1 v2.
        transitivity ((S1 * a + S2 * b) * v1 * (1 - (a * a + b * b)) + (S3 * a + S4 * b) * v2 * (1 - (a * a + b * b))); [ring | rewrite UN; ring].
      * destruct S as (_ & _ & ->). unfold BS_row0_side, BS_g_neu, BS_normals, pick_v, lookup; cbn [map nth_error pred Nat.eqb among existsb orb BS_lm_tags BS_neu_tags fst snd]. generalize BS_sigma; intros [[s1 s2] [s3 s4]]; forms; autorewrite with at_; ring.
      * unfold BS_row0_side. cbn [among existsb Nat.eqb orb BS_lm_tags BS_neu_tags]. specialize (D' ltac:(cbn; tauto)). injection D' as D1 D2. rewrite D1, D2. ring.
      * unfold BS_row0_side. cbn [among existsb Nat.eqb orb BS_lm_tags BS_neu_tags]. specialize (D' ltac:(cbn; tauto)). injection D' as D1 D2. rewrite D1, D2. ring.
  - intros x y n S. destruct (N x y n S) as [-> UN]. split; [exact UN |]. rewrite (solution_v_jet _ _ _ U). unfold BS_row2_side, BS_g_lm_t, BS_normals, BS_R, BS_rot, pick, lookup. cbn [map nth_error pred Nat.eqb n_ fst snd]. generalize BS_u. intros [u1 u2]. forms. autorewrite with at_.
    replace (at_ [] X x y) with x by reflexivity. replace (at_ [] Y x y) with y by reflexivity. field.
  - intros x y g H. unfold BS_lm, BS_normals, BS_R, BS_sigma, stress, add_id, scale, pick_v, lookup, BS_u. cbn [nth_error pred Nat.eqb]. forms. autorewrite with at_. unfold at_, BS_phi, X, Y, Pi, Minus, Neg. cbn [diff Nat.eqb value env]. rewrite ?q0, ?q1, ?q2, ?qm1.
    destruct H as [H | [H | []]]; injection H as <- <- <-.
    + replace (PI * (0 + -1 * (2 * 0))) with 0 by ring. rewrite sin_0. ring.
    + replace (PI * (0 + -1 * (2 * 1))) with (- (2 * PI)) by ring. rewrite sin_neg, sin_2PI. ring.
Qed.
Print Assumptions C109_arc.

(** free_slip_stokes_iter.py *)
Theorem C109_free_slip u p v m : solution_v [] BS_u u -> solution [] BS_p p -> smooth_v v ->
  (forall t x y, In t BS_dir_tags -> on_side t x y -> jval (v x y) = (0, 0)) ->
  balanced (fun x y => BS_row0_dx (u x y) (v x y) (p x y) (at_v [] BS_f x y))
    (fun t x y => FS_row0_side t (n_ t) (v x y) (at_ [] (FS_lm true) x y) (at_v [] (pick_v (BS_g_neu true) t) x y) (at_v [] (pick_v (FS_g_lm_t true) t) x y)) /\
  (forall x y, on_side 1 x y -> FS_row2_side (n_ 1) (m x y) (u x y) (at_ [] (pick (FS_g_lm_n true) 1) x y) = 0) /\
  (forall hF x y vp vm, FS_stab hF (jval (u x y)) (jval (u x y)) vp vm = 0) /\
  (forall hF up um vp vm, FS_stab hF up um vp vm = FS_stab hF vp vm up um) /\ (forall hF up um, 0 < hF -> 0 <= FS_stab hF up um up um /\ (FS_stab hF up um up um = 0 -> up = um)).
Proof.
  intros U P V D. split; [| split; [| split; [| split]]].
  - destruct (stokes_field [] BS_u BS_p v V) as (F & G & dF & Gx & dG & (DF & DGx) & DG & (CF & CG & CdF & CdG & CGx) & HI & HS). apply (balanced_by F G dF dG); try assumption.
    + intros x y _. rewrite (solution_v_jet _ _ _ U), (solution_jet _ _ _ P). apply HI.
    + intros t x y S. pose proof (fun I => D t x y I S) as D'. rewrite HS. fold BS_sigma. destruct (side_cases t x y S) as [-> | [-> | [-> | ->]]]; cbn [normal fst snd n_];
        unfold FS_row0_side, FS_lm, BS_g_neu, FS_g_lm_t, jtangent, tangent, BS_normals, pick, pick_v, lookup; cbn [map nth_error pred Nat.eqb among existsb orb BS_lm_tags BS_neu_tags fst snd];
        try (specialize (D' ltac:(cbn; tauto)); injection D' as D1 D2; rewrite D1, D2; ring); generalize BS_sigma; intros [[s1 s2] [s3 s4]]; unfold scale_v, add_v, neg_v; forms; autorewrite with at_; ring.
  - intros x y _. rewrite (solution_v_jet _ _ _ U). unfold FS_row2_side, FS_g_lm_n, BS_normals, pick, lookup. cbn [map nth_error pred Nat.eqb n_ fst snd]. generalize BS_u. intros [u1 u2]. forms. autorewrite with at_. ring.
  - intros hF x y vp vm. unfold FS_stab, dot. cbn [fst snd]. ring.
  - intros hF up um vp vm. unfold FS_stab, dot. cbn [fst snd]. ring.
  - intros hF [a b] [c d] H. unfold FS_stab, dot. cbn [fst snd]. assert (K : 0 < 2 / hF) by (apply Rdiv_lt_0_compat; lra).
    pose proof (Rle_0_sqr (a - c)) as A. pose proof (Rle_0_sqr (b - d)) as B. unfold Rsqr in A, B. split.
    + apply Rmult_le_pos; lra.
    + intros Z. apply Rmult_integral in Z. destruct Z as [Z | Z]; [lra |]. assert ((a - c) * (a - c) = 0) as A0 by lra. assert ((b - d) * (b - d) = 0) as B0 by lra.
      apply Rmult_integral in A0. apply Rmult_integral in B0. f_equal; lra.
Qed.
Print Assumptions C109_free_slip.
(** With the arc *)
Theorem C109_free_slip_arc u p v m : solution_v [] BS_u u -> solution [] BS_p p -> smooth_v v ->
  (forall t x y n, In t BS_dir_tags -> arc_side t x y n -> jval (v x y) = (0, 0)) ->
  balanced_arc (fun x y => BS_row0_dx (u x y) (v x y) (p x y) (at_v [] BS_f x y))
    (fun t n x y => FS_row0_side t n (v x y) (at_ [] (FS_lm false) x y) (at_v [] (pick_v (BS_g_neu false) t) x y) (at_v [] (pick_v (FS_g_lm_t false) t) x y)) /\
  (forall x y n, arc_side 1 x y n -> FS_row2_side n (m x y) (u x y) (at_ [] (pick (FS_g_lm_n false) 1) x y) = 0).
Proof.
  intros U P V D.
  assert (N : forall x y n, arc_side 1 x y n -> n = (2 * x, 2 * (y - 1/2)) /\ fst n * fst n + snd n * snd n = 1) by (intros x y n (E & _ & ->); cbn [fst snd]; split; [reflexivity | lra]).
  split.
  - destruct (stokes_field [] BS_u BS_p v V) as (F & G & dF & Gx & dG & (DF & DGx) & DG & (CF & CG & CdF & CdG & CGx) & HI & HS). apply (balanced_arc_by F G dF Gx dG); try assumption.
    + intros x y. rewrite (solution_v_jet _ _ _ U), (solution_jet _ _ _ P). apply HI.
    + intros t n x y S. pose proof (fun I => D t x y n I S) as D'. rewrite HS. fold BS_sigma. destruct t as [| [| [| [| [| t]]]]]; try contradiction S.
      * destruct (N x y n S) as [-> UN]. cbn [fst snd] in UN |- *. unfold FS_row0_side, FS_lm, BS_g_neu, FS_g_lm_t, jtangent, tangent, BS_normals, pick, pick_v, lookup; cbn [map nth_error pred Nat.eqb among existsb orb BS_lm_tags BS_neu_tags fst snd].
        generalize BS_sigma; intros [[s1 s2] [s3 s4]]; unfold scale_v, add_v, neg_v; forms; autorewrite with at_. replace (at_ [] X x y) with x by reflexivity. replace (at_ [] Y x y) with y by reflexivity.
        revert UN. set (a := 2 * x). set (b := 2 * (y - 1/2)). replace (2 * (y + -1 * / 2)) with b by (unfold b; field). intros UN.
        generalize (at_ [] s1 x y), (at_ [] s2 x y), (at_ [] s3 x y), (at_ [] s4 x y), (va (fst (v x y))), (va (snd (v x y))). intros S1 S2 S3 S4 v1 v2.
        transitivity (((S1 * a + S2 * b) * a + (S3 * a + S4 * b) * b) * (v1 * a + v2 * b) * (1 - (a * a + b * b))); [ring | rewrite UN; ring].
      * destruct S as (_ & _ & ->). unfold FS_row0_side, BS_g_neu, BS_normals, pick_v, lookup; cbn [map nth_error pred Nat.eqb among existsb orb BS_lm_tags BS_neu_tags fst snd]. generalize BS_sigma; intros [[s1 s2] [s3 s4]]; forms; autorewrite with at_; ring.
      * unfold FS_row0_side. cbn [among existsb Nat.eqb orb BS_lm_tags BS_neu_tags]. specialize (D' ltac:(cbn; tauto)). injection D' as D1 D2. rewrite D1, D2. ring.
      * unfold FS_row0_side. cbn [among existsb Nat.eqb orb BS_lm_tags BS_neu_tags]. specialize (D' ltac:(cbn; tauto)). injection D' as D1 D2. rewrite D1, D2. ring.
  - intros x y n S. destruct (N x y n S) as [-> UN]. rewrite (solution_v_jet _ _ _ U). unfold FS_row2_side, FS_g_lm_n, BS_normals, pick, lookup. cbn [map nth_error pred Nat.eqb n_ fst snd]. generalize BS_u. intros [u1 u2]. forms. autorewrite with at_.
    replace (at_ [] X x y) with x by reflexivity. replace (at_ [] Y x y) with y by reflexivity. field.
Qed.
Print Assumptions C109_free_slip_arc.

(** The value 0 prescribed for its multiplier at the ends of the side is not the value of the multiplier, at (0, 0) *)
Theorem C109_free_slip_bc_refuted : (forall x y g, In ((x, y), g) FS_M_bcs <-> x = 0 /\ (y = 0 \/ y = 1) /\ g = 0) /\
  exists x y g, In ((x, y), g) FS_M_bcs /\ on_side 1 x y /\ at_ [] (FS_lm true) x y <> g.
Proof.
  split.
  { intros x y g. split.
    - intros [E | [E | []]]; injection E as <- <- <-; auto.
    - intros (-> & [-> | ->] & ->); cbn; auto. }
  exists 0, 0, 0. split; [cbn; tauto |]. split; [unfold on_side, in_square; lra |]. unfold FS_lm, BS_normals, BS_sigma, stress, add_id, scale, pick_v, lookup, BS_u. cbn [nth_error pred Nat.eqb]. forms. autorewrite with at_. unfold at_, BS_phi, BS_p, X, Y, Pi, Minus, Neg. cbn [diff Nat.eqb value env]. rewrite ?q0, ?q1, ?q2, ?q3, ?qm1.
  replace (PI * (0 + -1 * (2 * 0))) with 0 by ring. replace (PI * (2 * 0 + -1 * (3 * 0))) with 0 by ring. rewrite sin_0, cos_0. lra.
Qed.
Print Assumptions C109_free_slip_bc_refuted.

(** isoP2_stokes.py: the multiplier of the mean is 0 and the mean of the pressure is 0 *)
Theorem C109_isoP2 u p v q psi : solution_v [] IS_u u -> solution [] IS_p p -> smooth_v v -> (forall x y, on_boundary x y -> jval (v x y) = (0, 0)) ->
  balanced (fun x y => IS_row0_dx (u x y) (v x y) (p x y) (at_v [] IS_f x y)) (fun _ _ _ => 0) /\
  (forall x y, IS_row1_dx (q x y) (u x y) 0 = 0) /\
  integral2 (fun x y => IS_row2_dx (p x y) psi) 0 1 0 1 0 /\
  forall x y, jval (u x y) = at_v [] IS_g_u x y.
Proof.
  intros U P V D. split; [| split; [| split]].
  - destruct (stokes_field [] IS_u IS_p v V) as (F & G & dF & Gx & dG & (DF & DGx) & DG & (CF & CG & CdF & CdG & CGx) & HI & HS). apply (balanced_by F G dF dG); try assumption.
    + intros x y _. rewrite (solution_v_jet _ _ _ U), (solution_jet _ _ _ P). rewrite <- HI. unfold IS_row0_dx, BS_row0_dx, IS_f, IS_sigma. ring.
    + intros t x y S. rewrite HS. pose proof (D x y (ex_intro _ t S)) as H. injection H as H1 H2. rewrite H1, H2. ring.
  - intros x y. rewrite (solution_v_jet _ _ _ U). unfold IS_row1_dx, IS_u. forms. unfold at_, IS_phi, X, Y, Pi. cbn [diff Nat.eqb value env]. rewrite ?q0, ?q1, ?qm1. ring.
  - pose (e := Times (Sin (Times Pi X)) (Cos (Times Pi Y))).
    destruct (gauss (fun x y => psi / PI * at_ [] e x y) (fun _ _ => 0) (fun x y => psi / PI * at_ [] (diff e 0) x y) (fun _ _ => 0) 0 1 0 1) as (I & l & r & b & t & H2 & Hl & Hr & Hb & Ht & E);
      [lra | lra | intros x y; apply (derivable_pt_lim_scal (fun x => at_ [] e x y)), d1_at | intros x y; apply (derivable_pt_lim_const 0) | continuous | continuous | continuous | continuous |].
    assert (K0 : forall a b, integral (fun _ => 0) a b 0) by (intros a c; exists (RiemannInt_P14 a c 0); eapply eq_trans; [exact (RiemannInt_P15 (RiemannInt_P14 a c 0)) | ring]).
    rewrite (integral_unique _ _ _ _ _ Hb (K0 0 1)), (integral_unique _ _ _ _ _ Ht (K0 0 1)) in E.
    assert (l = 0) as -> by (apply (integral_unique _ _ _ _ _ Hl), (integral_ext (fun _ => 0)); [lra | intros y _; unfold e, at_, X, Pi; cbn [value env]; rewrite Rmult_0_r, sin_0; ring | apply K0]).
    assert (r = 0) as -> by (apply (integral_unique _ _ _ _ _ Hr), (integral_ext (fun _ => 0)); [lra | intros y _; unfold e, at_, X, Pi; cbn [value env]; rewrite Rmult_1_r, sin_PI; ring | apply K0]).
    replace I with 0 in H2 by lra. refine (integral2_ext _ _ 0 1 0 1 0 _ _ _ H2); [lra | lra |]. intros x y _ _. rewrite (solution_jet _ _ _ P).
    unfold IS_row2_dx, IS_p, e, at_, X, Y, Pi. cbn [jet_of va]. unfold at_. cbn [diff Nat.eqb value env]. rewrite ?q0, ?q1, ?qm1. field. apply PI_neq0.
  - intros x y. rewrite (solution_v_jet _ _ _ U). reflexivity.
Qed.
Print Assumptions C109_isoP2.

(** dirac_2d.py: no force is needed at the point *)
Theorem C109_dirac u v Dv q : solution_v [] (DI_u, DI_u) u -> smooth_v v ->
  balanced (fun x y => DI_row0_dx (u x y) (v x y) Dv DI_p (at_v [] (DI_f, DI_f) x y)) (fun _ _ _ => 0) /\
  DI_row1_dx (jval (u (fst DI_x0) (snd DI_x0))) q DI_g = 0.
Proof.
  intros U [(V11 & V12 & C11 & C12 & C13) (V21 & V22 & C21 & C22 & C23)]. split.
  - eapply (balanced_by (fun x y => at_ [] (diff DI_u 0) x y * va (fst (v x y)) + at_ [] (diff DI_u 0) x y * va (snd (v x y))) (fun x y => at_ [] (diff DI_u 1) x y * va (fst (v x y)) + at_ [] (diff DI_u 1) x y * va (snd (v x y))));
      [derive | derive | continuous | continuous | continuous | continuous | |].
    + intros x y _. rewrite (solution_v_jet _ _ _ U). unfold DI_row0_dx, DI_f, DI_p. generalize DI_u. intros a. forms. autorewrite with at_. ring.
    + intros t x y S. assert (Z : (t = 1%nat \/ t = 2%nat -> at_ [] (diff DI_u 0) x y = 0) /\ (t = 3%nat \/ t = 4%nat -> at_ [] (diff DI_u 1) x y = 0)).
      { unfold at_, DI_u, X, Y, Pi, Minus, Neg. cbn [diff Nat.eqb value env]. rewrite ?q0, ?q1, ?qm1. split; intros [-> | ->]; destruct S as [_ ->].
        - replace (PI * 0 * (1 + -1 * 0) * y * (1 + -1 * y)) with 0 by ring. rewrite sin_0. ring.
        - replace (PI * 1 * (1 + -1 * 1) * y * (1 + -1 * y)) with 0 by ring. rewrite sin_0. ring.
        - replace (PI * x * (1 + -1 * x) * 0 * (1 + -1 * 0)) with 0 by ring. rewrite sin_0. ring.
        - replace (PI * x * (1 + -1 * x) * 1 * (1 + -1 * 1)) with 0 by ring. rewrite sin_0. ring. }
      destruct Z as [Z1 Z2]. destruct (side_cases t x y S) as [-> | [-> | [-> | ->]]]; cbn [normal fst snd]; (rewrite Z1 by tauto) || (rewrite Z2 by tauto); ring.
  - rewrite (solution_v_jet _ _ _ U). unfold DI_row1_dx, DI_g, dot. cbn [jval jet_v jet_of fst snd va]. ring.
Qed.
Print Assumptions C109_dirac.

(** sandbox/stokes.py *)
Theorem C109_sandbox u p v q m : solution_v [] ST_u u -> solution [] ST_p p -> smooth_v v -> (forall t x y, t = 3%nat \/ t = 4%nat -> on_side t x y -> jval (v x y) = (0, 0)) ->
  balanced (fun x y => ST_row0_dx (u x y) (v x y) (p x y) (at_v [] ST_f x y)) (fun t x y => ST_row0_side t (u x y) (v x y) (at_ [] ST_x x y) (at_ [] ST_g x y) (at_v [] ST_h x y)) /\
  (forall x y, ST_row1_dx (q x y) (u x y) = 0) /\ (forall x y, ST_row2_side (u x y) m (at_v [] ST_u x y) = 0).
Proof.
  intros U P V D. split; [| split].
  - destruct V as [(V11 & V12 & C11 & C12 & C13) (V21 & V22 & C21 & C22 & C23)].
    eapply (balanced_by (fun x y => at_ [] (fst (fst ST_sigma)) x y * va (fst (v x y)) + at_ [] (fst (snd ST_sigma)) x y * va (snd (v x y))) (fun x y => at_ [] (snd (fst ST_sigma)) x y * va (fst (v x y)) + at_ [] (snd (snd ST_sigma)) x y * va (snd (v x y))));
      [derive | derive | continuous | continuous | continuous | continuous | |].
    + intros x y _. rewrite (solution_v_jet _ _ _ U), (solution_jet _ _ _ P). unfold ST_row0_dx, ST_f, ST_sigma, add_id. generalize ST_u, ST_p. intros [u1 u2] a. forms. autorewrite with at_. ring.
    + intros t x y S. pose proof (fun I => D t x y I S) as D'. rewrite (solution_v_jet _ _ _ U). destruct (side_cases t x y S) as [-> | [-> | [-> | ->]]]; cbn [normal fst snd]; unfold ST_row0_side; cbn [Nat.eqb];
        try (specialize (D' ltac:(tauto)); injection D' as D1 D2; rewrite D1, D2; ring); clear D'; unfold ST_x, ST_g, ST_h, ST_normal, ST_tangent, ST_n, ST_tau; generalize ST_sigma, ST_u; intros [[s1 s2] [s3 s4]] [u1 u2]; forms; autorewrite with at_; ring.
  - intros x y. rewrite (solution_v_jet _ _ _ U). unfold ST_row1_dx, ST_u. forms. unfold at_, X, Y. cbn [diff Nat.eqb value env]. rewrite ?q0, ?q1. ring.
  - intros x y. rewrite (solution_v_jet _ _ _ U). unfold ST_row2_side. generalize ST_u. intros [u1 u2]. forms. ring.
Qed.
Print Assumptions C109_sandbox.

(** daq_3d1d.py: the second equation has lost its terms in p, though a11 is not zero *)
Theorem C109_daq_refuted : exists Pi_u p dp q dq, DA_row1 Pi_u p dp q dq <> DA_a10 Pi_u q + DA_a11 p dp q dq.
Proof. exists 0, 1, 0, 1, 0. unfold DA_row1, DA_a10, DA_a11, DA_beta, DA_alpha1, DA_alpha0. lra. Qed.
Print Assumptions C109_daq_refuted.

(** With all four forms, and where the average of a function is its trace, the energy of a state is that of the curve and of the exchange with it; with the forms of the system it can be negative *)
Theorem C109_daq_energy U p dp : DA_a00 U U + DA_a01 p U + DA_a10 U p + DA_a11 p dp p dp = DA_alpha1 * dp ^ 2 + DA_alpha0 * p ^ 2 + DA_beta * (U - p) ^ 2 /\
  0 <= DA_a00 U U + DA_a01 p U + DA_a10 U p + DA_a11 p dp p dp /\
  (DA_a00 U U + DA_a01 p U + DA_a10 U p + DA_a11 p dp p dp = 0 -> U = 0 /\ p = 0 /\ dp = 0) /\
  (forall q, DA_a01 p U = DA_a10 U p /\ DA_row0 U p dp q = DA_a00 U q + DA_a01 p q) /\
  (p <> 0 -> exists V, DA_row0 V p dp V + DA_row1 V p dp p dp < 0).
Proof.
  assert (E : DA_a00 U U + DA_a01 p U + DA_a10 U p + DA_a11 p dp p dp = DA_alpha1 * dp ^ 2 + DA_alpha0 * p ^ 2 + DA_beta * (U - p) ^ 2) by (unfold DA_a00, DA_a01, DA_a10, DA_a11; ring).
  rewrite E. unfold DA_alpha1, DA_alpha0, DA_beta. pose proof (pow2_ge_0 dp). pose proof (pow2_ge_0 p). pose proof (pow2_ge_0 (U - p)). split; [reflexivity | split; [lra | split; [| split]]].
  - intros Z. assert (p ^ 2 = 0) as P by lra. assert (dp ^ 2 = 0) as D by lra. assert ((U - p) ^ 2 = 0) as K by lra.
    cbn [pow] in P, D, K. rewrite Rmult_1_r in P, D, K. apply Rmult_integral in P. apply Rmult_integral in D. apply Rmult_integral in K. repeat split; lra.
  - intros q. unfold DA_a01, DA_a10, DA_row0. split; [ring | reflexivity].
  - intros N. exists p. unfold DA_row0, DA_row1, DA_a00, DA_a01, DA_a10, DA_beta. assert (0 < p * p) by (apply Rsqr_pos_lt in N; exact N). lra.
Qed.
Print Assumptions C109_daq_energy.

(** The hypotheses can be met *)
Example C109_ex : let b := Times (Times X (Minus (Num 1) X)) (Times Y (Minus (Num 1) Y)) in let v := jet_of [] b in
  smooth v /\ smooth_v (jet_v [] (b, b)) /\ (forall x y, on_boundary x y -> va (v x y) = 0) /\ (forall t x y, In t EP_dirichlet_tags -> outer_side t x y -> va (v x y) = 0) /\ va (v (1/2) (1/2)) = 1/16.
Proof.
  intros b v. assert (E : forall x y, va (v x y) = x * (1 - x) * (y * (1 - y))) by (intros; unfold v, b, jet_of, at_, X, Y, Minus, Neg; cbn [va value env]; rewrite q1, qm1; ring).
  split; [apply solution_of |]. split; [split; apply solution_of |]. split; [| split].
  - intros x y [t S]. rewrite E. destruct (side_cases t x y S) as [-> | [-> | [-> | ->]]]; destruct S as [_ ->]; ring.
  - intros t x y H S. rewrite E. cbn in H. destruct H as [<- | [<- | [<- | [<- | []]]]]; destruct S as (_ & S); cbn in S; try (rewrite S; ring); destruct S as [_ S]; rewrite S; ring.
  - rewrite E. field.
Qed.
(** and for the arc, and for the sandbox *)
Example C109_ex_arc : let b := Times Y (Minus (Num 1) Y) in let v := jet_v [] (b, b) in
  smooth_v v /\ (forall t x y n, In t BS_dir_tags -> arc_side t x y n -> jval (v x y) = (0, 0)) /\ (forall t x y, In t BS_dir_tags -> on_side t x y -> jval (v x y) = (0, 0)) /\
  arc_side 1 (-1/2) (1/2) (-1, 0) /\ jval (v (-1/2) (1/2)) = (1/4, 1/4).
Proof.
  intros b v. assert (E : forall x y, jval (v x y) = (y * (1 - y), y * (1 - y))) by (intros; unfold v, b, jval, jet_v, jet_of, at_, X, Y, Minus, Neg; cbn [fst snd va value env]; rewrite q1, qm1; f_equal; ring).
  split; [split; apply solution_of |]. split; [| split; [| split]].
  - intros t x y n [<- | [<- | []]] (-> & _); rewrite E; f_equal; ring.
  - intros t x y [<- | [<- | []]] [_ ->]; rewrite E; f_equal; ring.
  - cbn. split; [field | split; [lra | f_equal; field]].
  - rewrite E. f_equal; field.
Qed.
(** Being balanced is not always so *)
Example C109_ex_sharp : ~ balanced_halves (fun _ _ => 1) (fun _ _ => 1) (fun _ => 0).
Proof.
  assert (K : forall c a b, integral (fun _ => c) a b (c * (b - a))) by (intros c a b; exists (RiemannInt_P14 a b c); exact (RiemannInt_P15 (RiemannInt_P14 a b c))).
  intros (I & J & L & HI & HJ & HL & E). rewrite (integral_unique _ _ _ _ _ HL (K 0 _ _)) in E.
  assert (A : forall a b c d, integral2 (fun _ _ => 1) a b c d (1 * (b - a) * (d - c))) by (intros a b c d; exists (fun _ => 1 * (b - a)); split; [intros; apply K | apply K]).
  rewrite (integral2_unique (fun _ _ => 1) 0 (1/2) 0 1 _ _ ltac:(lra) HI (A 0 (1/2) 0 1)), (integral2_unique (fun _ _ => 1) (1/2) 1 0 1 _ _ ltac:(lra) HJ (A (1/2) 1 0 1)) in E. lra.
Qed.
