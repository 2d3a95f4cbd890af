(** Integrals over the unit disk, and the moments of the quadrature rules. *)
From Coq Require Import Reals QArith Qreals Qabs Lra Machin.
From Verif Require Import Base BaseProofs DiskModel.
Local Open Scope R_scope.

(** ** Specification *)

(** The integral of x^i y^j over the unit disk, in polar coordinates. *)
Definition disk_moment (i j : nat) (m : R) : Prop :=
  exists (a : Riemann_integrable (fun t => cos t ^ i * sin t ^ j) 0 (2 * PI))
         (b : Riemann_integrable (fun r => r ^ (i + j) * r) 0 1),
    m = RiemannInt a * RiemannInt b.
(** A number in units of 10^-15 *)
Definition dec (z : Z) : R := IZR z / 10 ^ 15.
Fixpoint moment_of (i j : nat) (pts : list (Z * Z)) (ws : list Z) : R :=
  match pts, ws with
  | p :: pts', w :: ws' => dec w * dec (fst p) ^ i * dec (snd p) ^ j + moment_of i j pts' ws'
  | _, _ => 0
  end.
Definition in_unit_disk (p : Z * Z) : Prop := dec (fst p) ^ 2 + dec (snd p) ^ 2 <= 1.

(** ** The fundamental theorem for a given antiderivative *)
Lemma ftc f F a b (pr : Riemann_integrable f a b) : a <= b -> (forall x, derivable_pt_lim F x (f x)) -> continuity f -> RiemannInt pr = F b - F a.
Proof.
  intros AB D C. assert (dF : derivable F) by (intros x; exists (f x); apply D).
  assert (E : forall x, derive F dF x = f x) by (intros x; apply derive_pt_eq_0, D).
  assert (C1 : continuity (derive F dF)).
  { intros x e He. destruct (C x e He) as (d & Hd & H). exists d. split; [assumption|]. intros y Hy. rewrite !E. apply H, Hy. }
  assert (pr' : Riemann_integrable (derive F dF) a b) by (apply continuity_implies_RiemannInt; [assumption|intros; apply C1]).
  pose proof (@FTC_Riemann (mkC1 C1) a b pr') as H. cbn [c1] in H. rewrite <- H. apply RiemannInt_P18; [assumption|]. intros; symmetry; apply E.
Qed.

(** ** Integrals of trigonometric monomials *)
Fixpoint sin_coef (j : nat) : Q :=
  match j with
  | O => 1%Q
  | S O => 0%Q
  | S (S j') => Qred (((Z.of_nat j' + 1) # Pos.of_nat (j' + 2)) * sin_coef j')%Q
  end.
Fixpoint trig_coef (j i : nat) : Q :=
  match i with
  | O => sin_coef j
  | S O => 0%Q
  | S (S i') => Qred (((Z.of_nat i' + 1) # Pos.of_nat (i' + j + 2)) * trig_coef j i')%Q
  end.
Lemma IZR_pos_of_nat n : (0 < n)%nat -> IZR (Z.pos (Pos.of_nat n)) = INR n.
Proof. intros Hn. rewrite <- (Nat2Pos.id n) at 2 by lia. rewrite INR_IPR. reflexivity. Qed.
Lemma Q2R_coef a n q : (0 < n)%nat -> Q2R (Qred (((Z.of_nat a + 1) # Pos.of_nat n) * q)%Q) = (INR a + 1) / INR n * Q2R q.
Proof.
  intros Hn. rewrite (Qeq_eqR _ _ (Qred_correct _)), Q2R_mult. f_equal. unfold Q2R. cbn [Qnum Qden]. rewrite plus_IZR, <- INR_IZR_INZ. unfold Rdiv. do 2 f_equal.
  rewrite <- (Nat2Pos.id n) at 2 by lia. rewrite INR_IPR. reflexivity.
Qed.

Definition trig (i j : nat) (F : R -> R) : Prop := forall x, derivable_pt_lim F x (cos x ^ i * sin x ^ j).
Lemma der_prod i j x : derivable_pt_lim (fun x => cos x ^ (S i) * sin x ^ (S j)) x (- (INR i + 1) * cos x ^ i * sin x ^ (S (S j)) + (INR j + 1) * cos x ^ (S (S i)) * sin x ^ j).
Proof.
  assert (C : derivable_pt_lim (fun x => cos x ^ S i) x ((INR (S i) * cos x ^ i) * (- sin x))).
  { apply (derivable_pt_lim_comp cos (fun y => y ^ S i)); [apply derivable_pt_lim_cos|]. apply (derivable_pt_lim_pow (cos x) (S i)). }
  assert (D : derivable_pt_lim (fun x => sin x ^ S j) x ((INR (S j) * sin x ^ j) * cos x)).
  { apply (derivable_pt_lim_comp sin (fun y => y ^ S j)); [apply derivable_pt_lim_sin|]. apply (derivable_pt_lim_pow (sin x) (S j)). }
  pose proof (derivable_pt_lim_mult _ _ _ _ _ C D) as H. unfold mult_fct in H.
  match type of H with derivable_pt_lim _ _ ?l => replace (_ + _) with l; [exact H|] end.
  rewrite !S_INR. cbn [pow]. ring.
Qed.
Lemma sc x : cos x * cos x = 1 - sin x * sin x.
Proof. pose proof (sin2_cos2 x) as H. unfold Rsqr in H. lra. Qed.
Lemma step_j i j F : trig i j F -> trig i (S (S j)) (fun x => ((INR j + 1) * F x - cos x ^ S i * sin x ^ S j) / (INR i + INR j + 2)).
Proof.
  intros H x. pose proof (pos_INR i). pose proof (pos_INR j).
  pose proof (derivable_pt_lim_scal _ (INR j + 1) _ _ (H x)) as A. pose proof (derivable_pt_lim_minus _ _ _ _ _ A (der_prod i j x)) as B.
  pose proof (derivable_pt_lim_scal _ (/ (INR i + INR j + 2)) _ _ B) as C. unfold mult_real_fct, minus_fct in C.
  intros e He. destruct (C e He) as (d & Hd). exists d. intros h h0 hd. specialize (Hd h h0 hd).
  match type of Hd with Rabs ?a < _ => match goal with |- Rabs ?b < _ => replace b with a; [exact Hd|] end end.
  f_equal.
  - unfold Rdiv. ring.
  - cbn [pow]. pose proof (sc x) as E. generalize dependent (cos x). intros c _ _ _ _ E. generalize dependent (sin x). intros s E.
    replace ((INR j + 1) * (c * (c * c ^ i)) * s ^ j) with ((INR j + 1) * (c * c) * c ^ i * s ^ j) by ring. rewrite E. field. lra.
Qed.
Lemma step_i i j F : trig i j F -> trig (S (S i)) j (fun x => ((INR i + 1) * F x + cos x ^ S i * sin x ^ S j) / (INR i + INR j + 2)).
Proof.
  intros H x. pose proof (pos_INR i). pose proof (pos_INR j).
  pose proof (derivable_pt_lim_scal _ (INR i + 1) _ _ (H x)) as A. pose proof (derivable_pt_lim_plus _ _ _ _ _ A (der_prod i j x)) as B.
  pose proof (derivable_pt_lim_scal _ (/ (INR i + INR j + 2)) _ _ B) as C. unfold mult_real_fct, plus_fct in C.
  intros e He. destruct (C e He) as (d & Hd). exists d. intros h h0 hd. specialize (Hd h h0 hd).
  match type of Hd with Rabs ?a < _ => match goal with |- Rabs ?b < _ => replace b with a; [exact Hd|] end end.
  f_equal.
  - unfold Rdiv. ring.
  - cbn [pow]. pose proof (sc x) as E. generalize dependent (cos x). intros c _ _ _ _ E. generalize dependent (sin x). intros s E.
    replace (c * (c * c ^ i) * s ^ j) with ((c * c) * c ^ i * s ^ j) by ring. replace ((INR j + 1) * (c * (c * c ^ i)) * s ^ j) with ((INR j + 1) * (c * c) * c ^ i * s ^ j) by ring. rewrite E. field. lra.
Qed.

Lemma nat_ind2 (P : nat -> Prop) : P 0%nat -> P 1%nat -> (forall n, P n -> P (S (S n))) -> forall n, P n.
Proof. intros H0 H1 HS n. assert (P n /\ P (S n)) as [H _]; [|exact H]. induction n as [|n [A B]]; split; auto. Qed.

Lemma trig_antiderivative j i : exists F, trig i j F /\ F (2 * PI) - F 0 = 2 * PI * Q2R (trig_coef j i).
Proof.
  revert i. apply nat_ind2.
  - revert j. apply nat_ind2.
    + exists (fun x => x). split; [intros x; cbn [pow]; rewrite Rmult_1_l; apply derivable_pt_lim_id|]. cbn [trig_coef sin_coef]. unfold Q2R. cbn. field.
    + exists (fun x => - cos x). split.
      * intros x. cbn [pow]. rewrite Rmult_1_l, Rmult_1_r. rewrite <- (Ropp_involutive (sin x)). apply (derivable_pt_lim_opp cos). apply derivable_pt_lim_cos.
      * rewrite cos_2PI, cos_0. cbn [trig_coef sin_coef]. unfold Q2R. cbn. field.
    + intros j (F & HF & E). eexists. split; [apply step_j, HF|]. cbn beta. cbn [trig_coef sin_coef] in *. rewrite Q2R_coef by lia.
      rewrite sin_2PI, sin_0, !(pow_i (S j)) by lia. rewrite plus_INR. cbn [INR]. pose proof (pos_INR j).
      transitivity ((INR j + 1) * (F (2 * PI) - F 0) / (INR j + 2)); [field; lra|]. rewrite E. field. lra.
  - exists (fun x => sin x ^ S j / (INR j + 1)). pose proof (pos_INR j). split.
    + intros x. assert (D : derivable_pt_lim (fun x => sin x ^ S j) x ((INR (S j) * sin x ^ j) * cos x)).
      { apply (derivable_pt_lim_comp sin (fun y => y ^ S j)); [apply derivable_pt_lim_sin|]. apply (derivable_pt_lim_pow (sin x) (S j)). }
      pose proof (derivable_pt_lim_scal _ (/ (INR j + 1)) _ _ D) as C. unfold mult_real_fct in C.
      intros e He. destruct (C e He) as (d & Hd). exists d. intros h h0 hd. specialize (Hd h h0 hd).
      match type of Hd with Rabs ?a < _ => match goal with |- Rabs ?b < _ => replace b with a; [exact Hd|] end end.
      f_equal; [unfold Rdiv; ring|]. rewrite S_INR. cbn [pow]. field. lra.
    + rewrite sin_2PI, sin_0. cbn [trig_coef]. unfold Q2R. cbn. field. lra.
  - intros i (F & HF & E). eexists. split; [apply step_i, HF|]. cbn beta. cbn [trig_coef] in *. rewrite Q2R_coef by lia.
    rewrite sin_2PI, sin_0, !(pow_i (S j)) by lia. rewrite !plus_INR. cbn [INR]. pose proof (pos_INR j). pose proof (pos_INR i).
    transitivity ((INR i + 1) * (F (2 * PI) - F 0) / (INR i + INR j + 2)); [field; lra|]. rewrite E. field. lra.
Qed.

Lemma cont_trig i j : continuity (fun t => cos t ^ i * sin t ^ j).
Proof.
  apply (continuity_mult (fun t => cos t ^ i) (fun t => sin t ^ j)).
  - apply (continuity_comp cos (fun y => y ^ i)); [apply continuity_cos|]. apply derivable_continuous, derivable_pow.
  - apply (continuity_comp sin (fun y => y ^ j)); [apply continuity_sin|]. apply derivable_continuous, derivable_pow.
Qed.
Lemma cont_radial k : continuity (fun r => r ^ k * r).
Proof.
  apply (continuity_mult (fun r => r ^ k) (fun r => r)).
  - apply derivable_continuous, derivable_pow.
  - apply derivable_continuous, derivable_id.
Qed.
Lemma radial k (pr : Riemann_integrable (fun r => r ^ k * r) 0 1) : RiemannInt pr = / (INR k + 2).
Proof.
  pose proof (pos_INR k). rewrite (ftc _ (fun r => r ^ (S (S k)) / (INR k + 2))).
  - rewrite pow1, pow_i by lia. field. lra.
  - lra.
  - intros x. pose proof (derivable_pt_lim_scal _ (/ (INR k + 2)) _ _ (derivable_pt_lim_pow x (S (S k)))) as C. unfold mult_real_fct in C.
    intros e He. destruct (C e He) as (d & Hd). exists d. intros h h0 hd. specialize (Hd h h0 hd).
    match type of Hd with Rabs ?a < _ => match goal with |- Rabs ?b < _ => replace b with a; [exact Hd|] end end.
    f_equal; [unfold Rdiv; ring|]. cbn [Init.Nat.pred]. rewrite !S_INR. cbn [pow]. field. lra.
  - apply cont_radial.
Qed.
(** Twice the coefficient of pi in the moment, over the degree plus two *)
Definition moment_coef (i j : nat) : Q := Qred ((2 # Pos.of_nat (i + j + 2)) * trig_coef j i)%Q.
Lemma disk_moment_value i j m : disk_moment i j m <-> m = PI * Q2R (moment_coef i j).
Proof.
  assert (V : forall (a : Riemann_integrable (fun t => cos t ^ i * sin t ^ j) 0 (2 * PI)) (b : Riemann_integrable (fun r => r ^ (i + j) * r) 0 1), RiemannInt a * RiemannInt b = PI * Q2R (moment_coef i j)).
  { intros a b. destruct (trig_antiderivative j i) as (F & HF & E). rewrite radial, (ftc _ F) by (try apply cont_trig; try assumption; pose proof PI_RGT_0; lra). rewrite E.
    unfold moment_coef. rewrite (Qeq_eqR _ _ (Qred_correct _)), Q2R_mult.
    replace (Q2R (2 # Pos.of_nat (i + j + 2))) with (2 / (INR (i + j) + 2)).
    - pose proof (pos_INR (i + j)). field. lra.
    - unfold Q2R. cbn [Qnum Qden]. unfold Rdiv. do 2 f_equal. rewrite IZR_pos_of_nat by lia. rewrite (plus_INR (i + j)). cbn [INR]. ring. }
  split.
  - intros (a & b & ->). apply V.
  - intros ->. assert (a : Riemann_integrable (fun t => cos t ^ i * sin t ^ j) 0 (2 * PI)) by (apply continuity_implies_RiemannInt; [pose proof PI_RGT_0; lra|intros; apply cont_trig]).
    assert (b : Riemann_integrable (fun r => r ^ (i + j) * r) 0 1) by (apply continuity_implies_RiemannInt; [lra|intros; apply cont_radial]).
    exists a, b. symmetry. apply V.
Qed.

(** ** Bounds for pi *)
Definition sgn (n : nat) : Z := if Nat.even n then 1%Z else (-1)%Z.
Lemma sgn_pow n : IZR (sgn n) = (-1) ^ n.
Proof.
  revert n. apply nat_ind2; [reflexivity|unfold sgn; cbn; ring|]. intros n IH. change (sgn (S (S n))) with (sgn n). rewrite IH. cbn [pow]. ring.
Qed.
Fixpoint ppow (b : positive) (n : nat) : positive := match n with O => 1%positive | S n' => (b * ppow b n')%positive end.
Lemma ppow_R b n : IZR (Z.pos (ppow b n)) = IZR (Z.pos b) ^ n.
Proof. induction n as [|n IH]; [reflexivity|]. cbn [ppow pow]. rewrite Pos2Z.inj_mul, mult_IZR, IH. reflexivity. Qed.
Definition pi_term (n : nat) : Q :=
  ((2 * sgn n # Pos.of_nat (2 * n + 1) * ppow 3 (2 * n + 1)) + (sgn n # Pos.of_nat (2 * n + 1) * ppow 7 (2 * n + 1)))%Q.
Fixpoint pi_sum (n : nat) : Q := match n with O => pi_term 0 | S n' => Qred (pi_sum n' + pi_term n)%Q end.
Lemma pi_term_R n : Q2R (pi_term n) = tg_alt PI_2_3_7_tg n.
Proof.
  unfold pi_term, tg_alt, PI_2_3_7_tg, Ratan_seq. rewrite Q2R_plus. unfold Q2R. cbn [Qnum Qden]. rewrite mult_IZR, sgn_pow, !Pos2Z.inj_mul, !mult_IZR, !ppow_R, IZR_pos_of_nat by lia.
  rewrite !pow_inv. assert (0 < INR (2 * n + 1)) by (apply lt_0_INR; lia).
  assert (0 < 3 ^ (2 * n + 1)) by (apply pow_lt; lra). assert (0 < 7 ^ (2 * n + 1)) by (apply pow_lt; lra). field. repeat split; lra.
Qed.
Lemma pi_sum_R n : Q2R (pi_sum n) = sum_f_R0 (tg_alt PI_2_3_7_tg) n.
Proof.
  induction n as [|n IH]; [apply pi_term_R|]. cbn [pi_sum sum_f_R0]. rewrite (Qeq_eqR _ _ (Qred_correct _)), Q2R_plus, IH, pi_term_R. reflexivity.
Qed.
Definition pi_lo : Q := 3141592653589793 # (10 ^ 15).
Definition pi_hi : Q := 3141592653589794 # (10 ^ 15).
Lemma pi_bounds : Q2R pi_lo <= PI <= Q2R pi_hi.
Proof.
  destruct (PI_2_3_7_ineq 8) as [L U]. rewrite <- pi_sum_R in L. rewrite <- pi_sum_R in U.
  assert (A : (pi_lo <= 4 * pi_sum (S (2 * 8)))%Q) by (apply Qle_bool_iff; vm_compute; reflexivity).
  assert (B : (4 * pi_sum (2 * 8) <= pi_hi)%Q) by (apply Qle_bool_iff; vm_compute; reflexivity).
  apply Qle_Rle in A. apply Qle_Rle in B. rewrite Q2R_mult in A, B. replace (Q2R 4) with 4 in * by (unfold Q2R; cbn; field). split; lra.
Qed.

(** ** Evaluation of the moments *)
Fixpoint zmoment (i j : nat) (pts : list (Z * Z)) (ws : list Z) : Z :=
  match pts, ws with
  | p :: pts', w :: ws' => w * Z.pow (fst p) (Z.of_nat i) * Z.pow (snd p) (Z.of_nat j) + zmoment i j pts' ws'
  | _, _ => 0
  end%Z.
Definition scale (i j : nat) : positive := ppow (10 ^ 15) (1 + i + j).
Lemma zmoment_R i j pts ws : moment_of i j pts ws = Q2R (zmoment i j pts ws # scale i j).
Proof.
  unfold Q2R, scale. cbn [Qnum Qden]. rewrite ppow_R. replace (IZR (Z.pos (10 ^ 15))) with (10 ^ 15) by (rewrite pow_IZR; f_equal).
  assert (P : (10 ^ 15) <> 0) by (apply pow_nonzero; lra).
  assert (forall n, (10 ^ 15) ^ n <> 0) by (intros; apply pow_nonzero, P).
  revert ws. induction pts as [|p pts IH]; intros ws; [cbn; ring|]. destruct ws as [|w ws]; [cbn; ring|]. cbn [moment_of zmoment]. rewrite IH, plus_IZR, !mult_IZR, <- !pow_IZR.
  unfold dec. set (D := 10 ^ 15) in *. replace (1 + i + j)%nat with (S (i + j)) by lia. cbn [pow]. rewrite pow_add.
  assert (E : forall a n, (a / D) ^ n = a ^ n / D ^ n) by (intros; unfold Rdiv; rewrite Rpow_mult_distr, pow_inv; reflexivity). rewrite !E. field. auto.
Qed.
(** The moment equals the integral up to [tol]. *)
Definition close (tol : Q) (pts : list (Z * Z)) (ws : list Z) (ij : nat * nat) : bool :=
  let '(i, j) := ij in
  let m := (zmoment i j pts ws # scale i j)%Q in
  let c := moment_coef i j in
  Qle_bool (Qabs (m - pi_lo * c)) tol && Qle_bool (Qabs (m - pi_hi * c)) tol.
Lemma Q2R_abs q : Q2R (Qabs q) = Rabs (Q2R q).
Proof.
  destruct (Qlt_le_dec q 0) as [H|H].
  - rewrite (Qeq_eqR _ _ (Qabs_neg q (Qlt_le_weak _ _ H))), Q2R_opp. apply Qlt_Rlt in H. unfold Q2R at 2 in H. cbn in H. rewrite Rmult_0_l in H. rewrite Rabs_left; [reflexivity|assumption].
  - rewrite (Qeq_eqR _ _ (Qabs_pos q H)). apply Qle_Rle in H. unfold Q2R at 1 in H. cbn in H. rewrite Rmult_0_l in H. rewrite Rabs_pos_eq; [reflexivity|assumption].
Qed.
Lemma close_R tol pts ws i j m : close tol pts ws (i, j) = true -> disk_moment i j m -> Rabs (moment_of i j pts ws - m) <= Q2R tol.
Proof.
  intros C M. apply disk_moment_value in M. subst m. cbn beta iota delta [close] in C. apply andb_prop in C. destruct C as [A B].
  apply Qle_bool_iff, Qle_Rle in A. apply Qle_bool_iff, Qle_Rle in B. rewrite Q2R_abs, Q2R_minus, Q2R_mult in A, B. rewrite <- zmoment_R in A, B.
  generalize dependent (moment_of i j pts ws). intros v A B. generalize dependent (Q2R (moment_coef i j)). intros c A B. destruct pi_bounds as [L U]. generalize dependent PI. intros x L U.
  apply Rabs_le. apply Rabs_def2_le in A || (pose proof (Rle_trans _ _ _ (Rle_abs _) A); pose proof (Rle_trans _ _ _ (Rle_abs _) B)).
  rewrite <- Rabs_Ropp in A. rewrite <- Rabs_Ropp in B. pose proof (Rle_trans _ _ _ (Rle_abs _) A). pose proof (Rle_trans _ _ _ (Rle_abs _) B).
  destruct (Rle_dec 0 c); split; nra.
Qed.

(** ** Symmetry of the expanded rules *)
Fixpoint zpts (i j : nat) (pts : list (Z * Z)) : Z :=
  match pts with
  | [] => 0
  | p :: pts' => Z.pow (fst p) (Z.of_nat i) * Z.pow (snd p) (Z.of_nat j) + zpts i j pts'
  end%Z.
Lemma zmoment_app i j p1 w1 p2 w2 : length p1 = length w1 -> (zmoment i j (p1 ++ p2) (w1 ++ w2) = zmoment i j p1 w1 + zmoment i j p2 w2)%Z.
Proof.
  revert w1. induction p1 as [|p p1 IH]; destruct w1 as [|w w1]; intros L; try discriminate L; [reflexivity|]. cbn [app zmoment]. rewrite IH by (cbn in L; lia). lia.
Qed.
Lemma zmoment_repeat i j w pts : zmoment i j pts (repeat w (length pts)) = (w * zpts i j pts)%Z.
Proof. induction pts as [|p pts IH]; cbn [length repeat zmoment zpts]; [|rewrite IH]; lia. Qed.
Definition odd_nat (n : nat) : Prop := exists k, n = (2 * k + 1)%nat.
Lemma pow_opp_odd x n : odd_nat n -> ((- x) ^ Z.of_nat n = - x ^ Z.of_nat n)%Z.
Proof. intros (k & ->). apply Z.pow_opp_odd. exists (Z.of_nat k). lia. Qed.
Lemma pow_0_odd n : odd_nat n -> (0 ^ Z.of_nat n = 0)%Z.
Proof. intros (k & ->). apply Z.pow_0_l. lia. Qed.
Lemma pow_opp_both x n : (exists k, n = 2 * k)%nat -> ((- x) ^ Z.of_nat n = x ^ Z.of_nat n)%Z.
Proof. intros (k & ->). apply Z.pow_opp_even. exists (Z.of_nat k). lia. Qed.
Lemma parity n : odd_nat n \/ (exists k, n = 2 * k)%nat.
Proof. destruct (Nat.Even_or_Odd n) as [[k E]|[k E]]; [right|left]; exists k; lia. Qed.
Definition centred (r : row) : bool := let '(_, x, y, t) := r in negb (t =? 1)%Z || ((x =? 0)%Z && (y =? 0)%Z).
Lemma expand_odd r pts i j : expand r = Ok pts -> centred r = true -> odd_nat i \/ odd_nat j -> zpts i j pts = 0%Z.
Proof.
  destruct r as [[[w x] y] t]. unfold expand, centred. intros E C O.
  assert (Z0 : forall a b : Z, (odd_nat i -> a = 0)%Z -> (odd_nat j -> b = 0)%Z -> (a * b = 0)%Z).
  { intros a b A B. destruct O as [O|O]; [rewrite (A O)|rewrite (B O)]; lia. }
  assert (SY : forall a b, ((- a) ^ Z.of_nat i = - a ^ Z.of_nat i /\ odd_nat i \/ (- a) ^ Z.of_nat i = a ^ Z.of_nat i /\ ~ odd_nat i)%Z /\ ((- b) ^ Z.of_nat j = - b ^ Z.of_nat j /\ odd_nat j \/ (- b) ^ Z.of_nat j = b ^ Z.of_nat j /\ ~ odd_nat j)%Z).
  { intros a b. split; [destruct (parity i) as [P|P]|destruct (parity j) as [P|P]]; [left; split; [apply pow_opp_odd|]; assumption|right; split; [apply pow_opp_both; assumption|]|left; split; [apply pow_opp_odd|]; assumption|right; split; [apply pow_opp_both; assumption|]];
      destruct P as [k1 P]; intros [k2 Q0]; lia. }
  destruct (t =? 1)%Z.
  { injection E as <-. cbn in C. apply andb_prop in C. destruct C as [A B]. apply Z.eqb_eq in A. apply Z.eqb_eq in B. subst x y. cbn [zpts fst snd].
    destruct O as [O|O]; rewrite (pow_0_odd _ O); lia. }
  clear C. destruct (t =? 2)%Z.
  { destruct (Z.abs y <? 10 ^ 5)%Z; [|discriminate E]. injection E as <-. cbn [zpts fst snd]. destruct (SY x x) as [SX SY0].
    destruct O as [O|O]; rewrite ?(pow_0_odd _ O); [destruct SX as [[-> _]|[_ N]]|destruct SY0 as [[-> _]|[_ N]]]; first [lia|contradiction]. }
  destruct (t =? 3)%Z.
  { destruct (Z.abs (x - y) <? 10 ^ 5)%Z; [|discriminate E]. injection E as <-. cbn [zpts fst snd]. destruct (SY x x) as [SX SY0].
    destruct SX as [[-> SX]|[-> SX]], SY0 as [[-> SY0]|[-> SY0]]; try lia. destruct O; contradiction. }
  destruct (t =? 4)%Z; [|injection E as <-; reflexivity].
  injection E as <-. cbn [zpts fst snd]. destruct (SY x y) as [SX SY0]. destruct (SY y x) as [SX1 SY1].
  destruct SX as [[-> SX]|[-> SX]], SY0 as [[-> SY0]|[-> SY0]], SX1 as [[-> SX1]|[-> SX1]], SY1 as [[-> SY1]|[-> SY1]]; try lia; try contradiction; destruct O; contradiction.
Qed.
Lemma from_template_odd data pts ws i j : from_template data = Ok (pts, ws) -> forallb centred data = true -> odd_nat i \/ odd_nat j -> moment_of i j pts ws = 0.
Proof.
  intros E C O. rewrite zmoment_R. replace (zmoment i j pts ws) with 0%Z; [unfold Q2R; cbn [Qnum]; ring|]. symmetry. revert pts ws E C. unfold from_template.
  induction data as [|r data IH]; intros pts ws E C; [injection E as <- <-; reflexivity|]. rewrite mapM_cons in E. destruct (expand r) as [p|] eqn:Er; [|discriminate E]. cbn [bind] in E.
  cbn [forallb] in C. apply andb_prop in C. destruct C as [C1 C2].
  destruct (mapM expand data) as [ps|]; [|discriminate E]. cbn [bind] in *.
  assert (E1 : pts = p ++ concat ps) by (cbn in E; congruence).
  assert (E2 : ws = repeat (fst (fst (fst r))) (length p) ++ flat_map (fun rp => repeat (fst (fst (fst (fst rp)))) (length (snd rp))) (combine data ps)) by (cbn in E; congruence).
  subst pts ws. rewrite zmoment_app by (rewrite repeat_length; reflexivity). rewrite (IH _ _ eq_refl C2), zmoment_repeat, (expand_odd _ _ _ _ Er C1 O). lia.
Qed.

(** ** Even moments, one row at a time *)
Fixpoint pows (u v : Z) (n : nat) : list Z := match n with O => [v] | S n' => v :: pows u (u * v)%Z n' end.
Lemma pows_nth u v n a : (a <= n)%nat -> nth a (pows u v n) 0%Z = (v * u ^ Z.of_nat a)%Z.
Proof.
  revert v a. induction n as [|n IH]; intros v a H.
  - assert (a = 0)%nat by lia. subst a. cbn. lia.
  - destruct a as [|a]; [cbn; lia|]. cbn [pows nth]. rewrite IH by lia. rewrite Nat2Z.inj_succ, Z.pow_succ_r by lia. ring.
Qed.
Definition entry (w t : Z) (px py : list Z) (ab : nat * nat) : Z :=
  let '(a, b) := ab in
  (w * (if t =? 1 then match (a + b)%nat with O => 1 | _ => 0 end
        else if t =? 2 then match a, b with O, O => 4 | _, O => 2 * nth a px 0 | O, _ => 2 * nth b px 0 | _, _ => 0 end
        else if t =? 3 then 4 * nth (a + b) px 0
        else if t =? 4 then 4 * (nth a px 0 * nth b py 0 + nth b px 0 * nth a py 0)
        else 0))%Z.
Definition row_vec (ms : list (nat * nat)) (n : nat) (r : row) : list Z :=
  let '(w, x, y, t) := r in
  let px := pows (x * x)%Z 1%Z n in
  let py := if (t =? 4)%Z then pows (y * y)%Z 1%Z n else [] in
  map (entry w t px py) ms.
Fixpoint addv (a b : list Z) : list Z := match a, b with x :: a', y :: b' => (x + y)%Z :: addv a' b' | _, _ => [] end.
Fixpoint table_vec (ms : list (nat * nat)) (n : nat) (data : list row) : list Z :=
  match data with [] => map (fun _ => 0%Z) ms | r :: data' => addv (row_vec ms n r) (table_vec ms n data') end.

Lemma pow_double x a : (x ^ Z.of_nat (2 * a) = (x * x) ^ Z.of_nat a)%Z.
Proof. rewrite Nat2Z.inj_mul, Z.pow_mul_r by lia. f_equal. change (Z.of_nat 2) with 2%Z. apply Z.pow_2_r. Qed.
Lemma row_entry r pts n a b : expand r = Ok pts -> centred r = true -> (a + b <= n)%nat ->
  let '(w, x, y, t) := r in
  entry w t (pows (x * x)%Z 1%Z n) (if (t =? 4)%Z then pows (y * y)%Z 1%Z n else []) (a, b) = (w * zpts (2 * a) (2 * b) pts)%Z.
Proof.
  destruct r as [[[w x] y] t]. unfold expand, centred, entry. intros E C L. f_equal.
  assert (OP : forall z c, ((- z) ^ Z.of_nat (2 * c) = z ^ Z.of_nat (2 * c))%Z) by (intros; apply pow_opp_both; exists c; lia).
  destruct (t =? 1)%Z.
  { injection E as <-. cbn in C. apply andb_prop in C. destruct C as [A B]. apply Z.eqb_eq in A. apply Z.eqb_eq in B. subst x y. cbn [zpts fst snd]. rewrite !pow_double.
    destruct a as [|a]; destruct b as [|b]; cbn [Nat.add]; rewrite ?(Z.pow_0_l (Z.of_nat (S _))) by lia; reflexivity. }
  clear C. destruct (t =? 2)%Z eqn:T2.
  { apply Z.eqb_eq in T2. subst t. cbn [Z.eqb Pos.eqb]. destruct (Z.abs y <? 10 ^ 5)%Z; [|discriminate E]. injection E as <-. cbn [zpts fst snd]. rewrite !OP, !pow_double.
    assert (Z0 : forall c, ((0 * 0) ^ Z.of_nat (S c) = 0)%Z) by (intros; apply Z.pow_0_l; lia).
    destruct a as [|a]; destruct b as [|b]; rewrite ?Z0; rewrite ?pows_nth by lia; change (Z.of_nat 0) with 0%Z; rewrite ?Z.pow_0_r; ring. }
  destruct (t =? 3)%Z eqn:T3.
  { apply Z.eqb_eq in T3. subst t. cbn [Z.eqb Pos.eqb]. destruct (Z.abs (x - y) <? 10 ^ 5)%Z; [|discriminate E]. injection E as <-. cbn [zpts fst snd]. rewrite !OP, !pow_double, pows_nth by lia.
    rewrite Nat2Z.inj_add, Z.pow_add_r by lia. ring. }
  destruct (t =? 4)%Z; [|injection E as <-; reflexivity].
  injection E as <-. cbn [zpts fst snd]. rewrite !OP, !pow_double, !pows_nth by lia. ring.
Qed.
Fixpoint data_moment (a b n : nat) (data : list row) : Z :=
  match data with
  | [] => 0
  | (w, x, y, t) :: data' => entry w t (pows (x * x) 1 n) (if t =? 4 then pows (y * y) 1 n else []) (a, b) + data_moment a b n data'
  end%Z.
Lemma addv_map {A} (f g : A -> Z) l : addv (map f l) (map g l) = map (fun x => (f x + g x)%Z) l.
Proof. induction l as [|x l IH]; cbn [map addv]; [reflexivity|]. rewrite IH. reflexivity. Qed.
Lemma table_vec_map ms n data : table_vec ms n data = map (fun ab => data_moment (fst ab) (snd ab) n data) ms.
Proof.
  induction data as [|[[[w x] y] t] data IH]; cbn [table_vec]; [reflexivity|]. rewrite IH. unfold row_vec. rewrite addv_map. apply map_ext. intros [a b]. reflexivity.
Qed.
Lemma from_template_even data pts ws a b n : from_template data = Ok (pts, ws) -> forallb centred data = true -> (a + b <= n)%nat ->
  zmoment (2 * a) (2 * b) pts ws = data_moment a b n data.
Proof.
  intros E C L. revert pts ws E C. unfold from_template.
  induction data as [|r data IH]; intros pts ws E C; [injection E as <- <-; reflexivity|]. rewrite mapM_cons in E. destruct (expand r) as [p|] eqn:Er; [|discriminate E]. cbn [bind] in E.
  cbn [forallb] in C. apply andb_prop in C. destruct C as [C1 C2].
  destruct (mapM expand data) as [ps|]; [|discriminate E]. cbn [bind] in *.
  assert (E1 : pts = p ++ concat ps) by (cbn in E; congruence).
  assert (E2 : ws = repeat (fst (fst (fst r))) (length p) ++ flat_map (fun rp => repeat (fst (fst (fst (fst rp)))) (length (snd rp))) (combine data ps)) by (cbn in E; congruence).
  subst pts ws. rewrite zmoment_app by (rewrite repeat_length; reflexivity). rewrite (IH _ _ eq_refl C2), zmoment_repeat.
  pose proof (row_entry r p n a b Er C1 L) as RE. destruct r as [[[w x] y] t]. cbn [data_moment fst]. rewrite RE. reflexivity.
Qed.
Lemma entry_sym w t px py a b : entry w t px py (a, b) = entry w t px py (b, a).
Proof.
  unfold entry. f_equal. rewrite (Nat.add_comm b a). destruct (t =? 1)%Z; [reflexivity|]. destruct (t =? 2)%Z; [destruct a, b; reflexivity|]. destruct (t =? 3)%Z; [reflexivity|]. destruct (t =? 4)%Z; [|reflexivity]. ring.
Qed.
Lemma data_moment_sym a b n data : data_moment a b n data = data_moment b a n data.
Proof. induction data as [|[[[w x] y] t] data IH]; [reflexivity|]. cbn [data_moment]. rewrite IH, entry_sym. reflexivity. Qed.

(** The check: exponents 2a >= 2b up to degree 2n *)
Definition evens (n : nat) : list (nat * nat) := flat_map (fun a => map (fun b => (a, b)) (seq 0 (S (Nat.min a (n - a))))) (seq 0 (S n)).
Definition close1 (tol : Q) (ab : nat * nat) (z : Z) : bool :=
  let i := (2 * fst ab)%nat in let j := (2 * snd ab)%nat in
  let m := (z # scale i j)%Q in
  let c := moment_coef i j in
  Qle_bool (Qabs (m - pi_lo * c)) tol && Qle_bool (Qabs (m - pi_hi * c)) tol && Qeq_bool c (moment_coef j i).
Definition close_even (tol : Q) (n : nat) (data : list row) : bool :=
  let ms := evens n in forallb (fun mz => close1 tol (fst mz) (snd mz)) (combine ms (table_vec ms n data)).
Lemma in_evens n a b : (a + b <= n)%nat -> (b <= a)%nat -> In (a, b) (evens n).
Proof. intros H L. apply in_flat_map. exists a. split; [apply in_seq; lia|]. apply in_map, in_seq. lia. Qed.
Lemma close_even_at tol n data a b : close_even tol n data = true -> (a + b <= n)%nat -> (b <= a)%nat -> close1 tol (a, b) (data_moment a b n data) = true.
Proof.
  unfold close_even. rewrite table_vec_map. intros H L1 L2. pose proof (in_evens n a b L1 L2) as HI. rewrite forallb_forall in H.
  apply (H ((a, b), data_moment a b n data)). clear H. induction (evens n) as [|[a' b'] ms IH]; [destruct HI|]. cbn [map combine]. destruct HI as [E|HI]; [left; injection E as -> ->; reflexivity|right; auto].
Qed.
Lemma odd_moment_coef i j : odd_nat i \/ odd_nat j -> Q2R (moment_coef i j) = 0.
Proof.
  intros O. unfold moment_coef. rewrite (Qeq_eqR _ _ (Qred_correct _)), Q2R_mult. enough (Q2R (trig_coef j i) = 0) as -> by ring.
  assert (SJ : odd_nat j -> Q2R (sin_coef j) = 0).
  { clear O. intros [k ->]. induction k as [|k IH]; [unfold Q2R; cbn; ring|]. replace (2 * S k + 1)%nat with (S (S (2 * k + 1))) by lia. cbn [sin_coef]. rewrite Q2R_coef, IH by lia. ring. }
  destruct O as [[k ->]|O].
  - clear SJ. induction k as [|k IH]; [unfold Q2R; cbn; ring|]. replace (2 * S k + 1)%nat with (S (S (2 * k + 1))) by lia. cbn [trig_coef]. rewrite Q2R_coef, IH by lia. ring.
  - specialize (SJ O). revert i. apply nat_ind2; [assumption|unfold Q2R; cbn; ring|]. intros i IH. cbn [trig_coef]. rewrite Q2R_coef, IH by lia. ring.
Qed.
Lemma tol_pos tol n data : close_even tol n data = true -> 0 <= Q2R tol.
Proof.
  intros H. pose proof (close_even_at _ _ _ 0 0 H ltac:(lia) ltac:(lia)) as C. unfold close1 in C. apply andb_prop in C. destruct C as [C _]. apply andb_prop in C. destruct C as [C _].
  apply Qle_bool_iff, Qle_Rle in C. rewrite Q2R_abs in C. eapply Rle_trans; [apply Rabs_pos|exact C].
Qed.
Lemma close_even_R tol n data pts ws i j m : from_template data = Ok (pts, ws) -> forallb centred data = true -> close_even tol n data = true ->
  (i + j <= 2 * n + 1)%nat -> disk_moment i j m -> Rabs (moment_of i j pts ws - m) <= Q2R tol.
Proof.
  intros E C H L M. destruct (parity i) as [PI0|PI0]; [|destruct (parity j) as [PJ|PJ]].
  1,2: rewrite (from_template_odd data) by auto; apply disk_moment_value in M; subst m; rewrite odd_moment_coef by auto; rewrite Rmult_0_r, Rminus_0_r, Rabs_R0; apply (tol_pos _ _ _ H).
  destruct PI0 as [a ->]. destruct PJ as [b ->].
  assert (K : close1 tol (if (b <=? a)%nat then (a, b) else (b, a)) (data_moment a b n data) = true).
  { destruct (Nat.leb_spec b a); [|rewrite data_moment_sym]; apply close_even_at; (assumption || lia). }
  rewrite <- (from_template_even data pts ws a b n) in K by (assumption || lia).
  apply (close_R tol); [|assumption]. cbn beta iota delta [close]. unfold close1 in K. apply andb_prop in K. destruct K as [K K3]. apply andb_prop in K. destruct K as [K1 K2].
  apply Qeq_bool_iff in K3. destruct (b <=? a)%nat; cbn [fst snd] in *; [rewrite K1, K2; reflexivity|].
  assert (S0 : scale (2 * b) (2 * a) = scale (2 * a) (2 * b)) by (unfold scale; f_equal; lia). rewrite S0 in K1, K2.
  apply andb_true_intro. split; apply Qle_bool_iff; [apply Qle_bool_iff in K1; rewrite <- K3; exact K1|apply Qle_bool_iff in K2; rewrite <- K3; exact K2].
Qed.
