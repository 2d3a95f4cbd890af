(** The theorem of Gauss on the square whose left side is replaced by half a circle *)
From Coq Require Import Reals Lra.
From Verif Require Import GaussProofs.
Local Open Scope R_scope.

(** The left end of the line of height y in the domain *)
Definition arc_x (y : R) : R := - sqrt (1/4 - (y - 1/2) * (y - 1/2)).
(** The iterated integral over the domain, and the integral over the arc by its length: the point at angle a
    from (0, 0) on, the length being a/2 *)
Definition integral_domain (f : R -> R -> R) (I : R) : Prop := exists J, (forall y, 0 <= y <= 1 -> integral (fun x => f x y) (arc_x y) 1 (J y)) /\ integral J 0 1 I.
Definition arc_point (a : R) : R * R := (- (1/2) * sin a, (1 - cos a) / 2).
Definition integral_arc (f : R -> R -> R) (L : R) : Prop := integral (fun a => f (fst (arc_point a)) (snd (arc_point a)) * (1/2)) 0 PI L.

(** ** Change of variables *)
Lemma primitive_of H a b : a <= b -> continuity H -> exists A, (forall x, a <= x <= b -> derivable_pt_lim A x (H x)) /\ integral H a b (A b - A a).
Proof.
  intros L C. assert (C0 : forall x, a <= x <= b -> continuity_pt H x) by (intros; apply C).
  exists (primitive L (FTC_P1 L C0)). split; [intros x Hx; apply RiemannInt_P28, Hx |].
  exists (continuity_implies_RiemannInt L C0). apply RiemannInt_P20.
Qed.
Lemma integral_deriv_on F f a b : a <= b -> (forall x, a <= x <= b -> derivable_pt_lim F x (f x)) -> continuity f -> integral f a b (F b - F a).
Proof.
  intros L D C. destruct (primitive_of f a b L C) as (A & DA & IA). destruct (Rle_lt_or_eq_dec a b L) as [Lt | <-].
  - destruct (MVT_cor2 (fun x => F x - A x) (fun x => f x - f x) a b Lt) as (c & E & _); [intros c Hc; apply derivable_pt_lim_minus; [apply D | apply DA]; exact Hc |].
    replace (F b - F a) with (A b - A a) by (replace (f c - f c) with 0 in E by ring; lra). exact IA.
  - replace (F a - F a) with (A a - A a) by ring. exact IA.
Qed.
Lemma substitution H phi dphi a b : a <= b -> continuity H -> (forall t, derivable_pt_lim phi t (dphi t)) -> continuity dphi -> (forall t, a <= t <= b -> phi a <= phi t <= phi b) ->
  exists I, integral H (phi a) (phi b) I /\ integral (fun t => H (phi t) * dphi t) a b I.
Proof.
  intros L C D CD R. assert (Lp : phi a <= phi b) by (apply (R b); lra). destruct (primitive_of H (phi a) (phi b) Lp C) as (A & DA & IA).
  exists (A (phi b) - A (phi a)). split; [exact IA |]. apply (integral_deriv_on (fun t => A (phi t)) (fun t => H (phi t) * dphi t)); [exact L | |].
  - intros t Ht. apply (derivable_pt_lim_comp phi A t (dphi t) (H (phi t))); [apply D | apply DA, R, Ht].
  - intros t. apply (continuity_pt_mult (fun t => H (phi t)) dphi); [| apply CD]. apply (continuity_pt_comp phi H); [| apply C]. apply derivable_continuous_pt. exists (dphi t). apply D.
Qed.

(** ** The chain rule *)
Lemma cont2_comp2 F A B : cont2 F -> cont2 A -> cont2 B -> cont2 (fun s t => F (A s t) (B s t)).
Proof.
  intros CF CA CB s t eps He. destruct (CF (A s t) (B s t) eps He) as (d & P & H). destruct (CA s t d P) as (d1' & P1 & H1). destruct (CB s t d P) as (d2' & P2 & H2).
  exists (Rmin d1' d2'). split; [apply Rmin_glb_lt; assumption |]. intros s' t' Hs Ht. pose proof (Rmin_l d1' d2'). pose proof (Rmin_r d1' d2'). apply H; [apply H1; lra | apply H2; lra].
Qed.
Lemma between G g x y : (forall t, derivable_pt_lim G t (g t)) -> exists c, G y - G x = g c * (y - x) /\ Rabs (c - x) <= Rabs (y - x).
Proof.
  intros D. destruct (Rtotal_order x y) as [L | [-> | L]].
  - destruct (MVT_cor2 G g x y L) as (c & E & Hc); [intros; apply D |]. exists c. split; [exact E |]. rewrite !Rabs_pos_eq by lra. lra.
  - exists y. split; [ring |]. rewrite !Rminus_diag_eq by reflexivity. lra.
  - destruct (MVT_cor2 G g y x L) as (c & E & Hc); [intros; apply D |]. exists c. split; [lra |]. rewrite !Rabs_left1 by lra. lra.
Qed.
Lemma chain G Gx Gy p q dp dq t : d1 G Gx -> d2 G Gy -> cont2 Gx -> derivable_pt_lim p t dp -> derivable_pt_lim q t dq ->
  derivable_pt_lim (fun t => G (p t) (q t)) t (Gx (p t) (q t) * dp + Gy (p t) (q t) * dq).
Proof.
  intros D1 D2 C Dp Dq.
  assert (K : derivable_pt_lim (fun u => G (p u) (q u) - G (p t) (q u)) t (Gx (p t) (q t) * dp)).
  { apply lim_eps. intros eps He. set (g := Gx (p t) (q t)).
    assert (Cp : continuity_pt p t) by (apply derivable_continuous_pt; exists dp; exact Dp). assert (Cq : continuity_pt q t) by (apply derivable_continuous_pt; exists dq; exact Dq).
    set (e1 := eps / (2 * (Rabs dp + 1))). set (e2 := Rmin 1 (eps / (2 * (Rabs g + 1)))). pose proof (Rabs_pos dp) as Pd. pose proof (Rabs_pos g) as Pg.
    assert (P1 : 0 < e1) by (apply Rdiv_lt_0_compat; lra). assert (P2 : 0 < e2) by (apply Rmin_glb_lt; [lra | apply Rdiv_lt_0_compat; lra]).
    destruct (C (p t) (q t) e1 P1) as (d & Pd' & HC). destruct (proj1 (cont_eps p t) Cp d Pd') as (da & Pa & Ha). destruct (proj1 (cont_eps q t) Cq d Pd') as (db & Pb & Hb). destruct (proj1 (lim_eps p t dp) Dp e2 P2) as (dc & Pc & Hc).
    exists (Rmin da (Rmin db dc)). split; [repeat apply Rmin_glb_lt; assumption |]. intros h N Hh.
    assert (Rabs h < da) as L1 by (eapply Rlt_le_trans; [exact Hh | apply Rmin_l]). assert (Rabs h < Rmin db dc) as L' by (eapply Rlt_le_trans; [exact Hh | apply Rmin_r]).
    assert (Rabs h < db) as L2 by (eapply Rlt_le_trans; [exact L' | apply Rmin_l]). assert (Rabs h < dc) as L3 by (eapply Rlt_le_trans; [exact L' | apply Rmin_r]).
    specialize (Ha (t + h)). specialize (Hb (t + h)). replace (t + h - t) with h in Ha, Hb by ring. specialize (Ha L1). specialize (Hb L2). specialize (Hc h N L3).
    destruct (between (fun x => G x (q (t + h))) (fun x => Gx x (q (t + h))) (p t) (p (t + h))) as (c & E & Hx); [intros x; apply D1 |].
    assert (Q : Rabs (Gx c (q (t + h)) - g) < e1) by (apply HC; [eapply Rle_lt_trans; [exact Hx | exact Ha] | exact Hb]).
    set (D := (p (t + h) - p t) / h) in *. set (k := Gx c (q (t + h))) in *.
    replace ((G (p (t + h)) (q (t + h)) - G (p t) (q (t + h)) - (G (p t) (q t) - G (p t) (q t))) / h - g * dp) with ((k - g) * D + g * (D - dp)) by (unfold D; rewrite E; fold k; field; exact N).
    assert (BD : Rabs D < Rabs dp + 1). { replace D with (dp + (D - dp)) by ring. eapply Rle_lt_trans; [apply Rabs_triang |]. pose proof (Rmin_l 1 (eps / (2 * (Rabs g + 1)))). fold e2 in H. lra. }
    eapply Rle_lt_trans; [apply Rabs_triang |]. rewrite !Rabs_mult.
    assert (T1 : Rabs (k - g) * Rabs D <= e1 * (Rabs dp + 1)) by (apply Rmult_le_compat; try apply Rabs_pos; lra).
    assert (T2 : Rabs g * Rabs (D - dp) <= Rabs g * (eps / (2 * (Rabs g + 1)))). { apply Rmult_le_compat_l; [exact Pg |]. pose proof (Rmin_r 1 (eps / (2 * (Rabs g + 1)))). fold e2 in H. lra. }
    assert (E1 : e1 * (Rabs dp + 1) = eps / 2) by (unfold e1; field; lra).
    assert (T3 : Rabs g * (eps / (2 * (Rabs g + 1))) < eps / 2). { apply (Rmult_lt_reg_r (2 * (Rabs g + 1))); [lra |]. replace (Rabs g * (eps / (2 * (Rabs g + 1))) * (2 * (Rabs g + 1))) with (Rabs g * eps) by (field; lra). replace (eps / 2 * (2 * (Rabs g + 1))) with (eps * Rabs g + eps) by field. lra. }
    lra. }
  assert (S : derivable_pt_lim (fun u => G (p t) (q u)) t (Gy (p t) (q t) * dq)) by (apply (derivable_pt_lim_comp q (fun y => G (p t) y) t dq (Gy (p t) (q t))); [exact Dq | apply D2]).
  pose proof (derivable_pt_lim_plus _ _ _ _ _ K S) as T. apply lim_eps. intros eps He. destruct (proj1 (lim_eps _ _ _) T eps He) as (d & P & H). exists d. split; [exact P |]. intros h N Hh. specialize (H h N Hh). unfold plus_fct in H.
  replace (G (p (t + h)) (q (t + h)) - G (p t) (q (t + h)) + G (p t) (q (t + h)) - (G (p t) (q t) - G (p t) (q t) + G (p t) (q t))) with (G (p (t + h)) (q (t + h)) - G (p t) (q t)) in H by ring. exact H.
Qed.

(** ** The left end is continuous *)
Lemma sqrt_dist a b : Rabs (sqrt a - sqrt b) <= sqrt (Rabs (a - b)).
Proof.
  assert (K : forall a b, b <= a -> Rabs (sqrt a - sqrt b) <= sqrt (Rabs (a - b))).
  { clear. intros a b L. rewrite (Rabs_pos_eq (a - b)) by lra. destruct (Rle_dec 0 b) as [B | B].
    - pose proof (sqrt_le_1_alt _ _ L). rewrite Rabs_pos_eq by lra. apply Rsqr_incr_0_var; [| apply sqrt_pos]. rewrite Rsqr_sqrt by lra. unfold Rsqr. pose proof (sqrt_sqrt a ltac:(lra)). pose proof (sqrt_sqrt b B). pose proof (sqrt_pos b). nra.
    - rewrite (sqrt_neg_0 b) by lra. rewrite Rminus_0_r, Rabs_pos_eq by apply sqrt_pos. apply sqrt_le_1_alt. lra. }
  destruct (Rle_dec b a); [apply K; assumption |]. rewrite Rabs_minus_sym, (Rabs_minus_sym a b). apply K. lra.
Qed.
Lemma sqrt_continuity : continuity sqrt.
Proof.
  intros x. apply cont_eps. intros eps He. exists (eps * eps). split; [nra |]. intros x' H. eapply Rle_lt_trans; [apply sqrt_dist |]. rewrite <- (sqrt_square eps) by lra. apply sqrt_lt_1_alt. split; [apply Rabs_pos | exact H].
Qed.
Lemma arc_x_cont2 : cont2 (fun _ y => arc_x y).
Proof.
  apply (cont2_ext (fun _ y => -1 * sqrt (1/4 + -1 * ((y + - (1/2)) * (y + - (1/2)))))); [intros _ y; unfold arc_x; replace (1/4 + -1 * ((y + - (1/2)) * (y + - (1/2)))) with (1/4 - (y - 1/2) * (y - 1/2)) by ring; ring |].
  apply cont2_scal, (cont2_comp sqrt); [exact sqrt_continuity |]. apply cont2_plus; [apply cont2_const |]. apply cont2_scal, cont2_sqr, cont2_plus; [apply cont2_snd | apply cont2_const].
Qed.
Lemma arc_x_neg y : arc_x y <= 0.
Proof. unfold arc_x. pose proof (sqrt_pos (1/4 - (y - 1/2) * (y - 1/2))). lra. Qed.
Lemma arc_x_at a : 0 <= a <= PI -> arc_x ((1 - cos a) / 2) = - (1/2) * sin a.
Proof.
  intros H. pose proof (sin_ge_0 a (proj1 H) (proj2 H)) as S. unfold arc_x. replace (1/4 - ((1 - cos a) / 2 - 1/2) * ((1 - cos a) / 2 - 1/2)) with ((1/2 * sin a) * (1/2 * sin a)).
  - rewrite sqrt_square by lra. ring.
  - pose proof (sin2_cos2 a) as E. unfold Rsqr in E. nra.
Qed.

(** ** Coordinates of the domain: s from the arc to the right side, t the angle on the arc *)
Definition Xc (s t : R) : R := - (1/2) * sin t + s * (1 + 1/2 * sin t).
Definition Yc (t : R) : R := (1 - cos t) / 2.
Lemma cont2_sin : cont2 (fun _ t => sin t). Proof. apply (cont2_comp sin); [exact continuity_sin | apply cont2_snd]. Qed.
Lemma cont2_cos : cont2 (fun _ t => cos t). Proof. apply (cont2_comp cos); [exact continuity_cos | apply cont2_snd]. Qed.
Lemma cont2_Xc : cont2 Xc.
Proof. apply cont2_plus; [apply cont2_scal, cont2_sin |]. apply cont2_mult; [apply cont2_fst |]. apply cont2_plus; [apply cont2_const | apply cont2_scal, cont2_sin]. Qed.
Lemma cont2_Yc : cont2 (fun _ t => Yc t).
Proof. apply (cont2_ext (fun _ t => 1/2 + - (1/2) * cos t)); [intros _ t; unfold Yc; field |]. apply cont2_plus; [apply cont2_const | apply cont2_scal, cont2_cos]. Qed.
Lemma dval f x l l' : l = l' -> derivable_pt_lim f x l -> derivable_pt_lim f x l'. Proof. intros <-. auto. Qed.
Lemma Xc_s s t : derivable_pt_lim (fun s => Xc s t) s (1 + 1/2 * sin t).
Proof. unfold Xc. apply (dval _ _ (0 + (1 * (1 + 1/2 * sin t) + s * 0))); [ring |]. apply (derivable_pt_lim_plus (fun _ => - (1/2) * sin t) (fun s => s * (1 + 1/2 * sin t))); [apply derivable_pt_lim_const |]. apply (derivable_pt_lim_mult (fun s => s) (fun _ => 1 + 1/2 * sin t)); [apply derivable_pt_lim_id | apply derivable_pt_lim_const]. Qed.
Lemma half_sin c t : derivable_pt_lim (fun t => c * sin t) t (c * cos t).
Proof. apply derivable_pt_lim_scal, derivable_pt_lim_sin. Qed.
Lemma xs_t t : derivable_pt_lim (fun t => 1 + 1/2 * sin t) t (1/2 * cos t).
Proof. replace (1/2 * cos t) with (0 + 1/2 * cos t) by ring. apply (derivable_pt_lim_plus (fun _ => 1) (fun t => 1/2 * sin t)); [apply derivable_pt_lim_const | apply half_sin]. Qed.
Lemma Xc_t s t : derivable_pt_lim (fun t => Xc s t) t (- (1/2) * cos t + s * (1/2 * cos t)).
Proof. unfold Xc. apply (derivable_pt_lim_plus (fun t => - (1/2) * sin t) (fun t => s * (1 + 1/2 * sin t))); [apply half_sin | apply (derivable_pt_lim_scal (fun t => 1 + 1/2 * sin t)), xs_t]. Qed.
Lemma Yc_t t : derivable_pt_lim Yc t (1/2 * sin t).
Proof.
  apply (derivable_pt_lim_ext (fun t => 1/2 + - (1/2) * cos t) Yc); [intros z; unfold Yc; field |]. replace (1/2 * sin t) with (0 + - (1/2) * (- sin t)) by ring.
  apply (derivable_pt_lim_plus (fun _ => 1/2) (fun t => - (1/2) * cos t)); [apply derivable_pt_lim_const | apply derivable_pt_lim_scal, derivable_pt_lim_cos].
Qed.
Lemma Yc_range t : 0 <= Yc t <= 1. Proof. unfold Yc. pose proof (COS_bound t). lra. Qed.
Lemma Yc_0 : Yc 0 = 0. Proof. unfold Yc. rewrite cos_0. lra. Qed.
Lemma Yc_PI : Yc PI = 1. Proof. unfold Yc. rewrite cos_PI. lra. Qed.
Lemma Yc_subst H : continuity H -> exists I, integral H 0 1 I /\ integral (fun t => H (Yc t) * (1/2 * sin t)) 0 PI I.
Proof.
  intros C. pose proof PI_RGT_0. destruct (substitution H Yc (fun t => 1/2 * sin t) 0 PI) as (I & I1 & I2); [lra | exact C | exact Yc_t | | | ].
  - intros t. apply (continuity_pt_scal sin), continuity_sin.
  - intros t _. rewrite Yc_0, Yc_PI. apply Yc_range.
  - rewrite Yc_0, Yc_PI in I1. exists I. split; assumption.
Qed.

(** The integral over the domain in these coordinates *)
Lemma domain_coordinates f I : cont2 f -> integral2 (fun s t => f (Xc s t) (Yc t) * ((1 + 1/2 * sin t) * (1/2 * sin t))) 0 1 0 PI I -> integral_domain f I.
Proof.
  intros C (J & HJ & HI). pose proof PI_RGT_0 as PP.
  pose (K := fun s y => f (arc_x y + s * (1 - arc_x y)) y).
  assert (CK : cont2 K). { apply (cont2_comp2 f (fun s y => arc_x y + s * (1 - arc_x y)) (fun _ y => y)); [exact C | | apply cont2_snd]. apply cont2_plus; [apply arc_x_cont2 |]. apply cont2_mult; [apply cont2_fst |]. apply (cont2_ext (fun _ y => 1 + -1 * arc_x y)); [intros; ring |]. apply cont2_plus; [apply cont2_const | apply cont2_scal, arc_x_cont2]. }
  destruct (integral_function K 0 1 ltac:(lra) CK) as (k & Hk & Ck).
  pose (H := fun y => k y * (1 - arc_x y)).
  assert (CH : continuity H). { intros y. apply (continuity_pt_mult k (fun y => 1 - arc_x y)); [apply Ck |]. apply (continuity_pt_minus (fun _ => 1) arc_x); [apply continuity_pt_const; intros u v; reflexivity |]. apply (cont2_y (fun _ y => arc_x y) 0 arc_x_cont2). }
  assert (HK : forall y, integral (fun x => f x y) (arc_x y) 1 (H y)).
  { intros y. pose proof (arc_x_neg y) as N. destruct (substitution (fun x => f x y) (fun s => arc_x y + s * (1 - arc_x y)) (fun _ => 1 - arc_x y) 0 1) as (I0 & I1 & I2); [lra | apply (cont2_x f y C) | | | |].
    - intros t. apply (dval _ _ (0 + (1 * (1 - arc_x y) + t * 0))); [ring |]. apply (derivable_pt_lim_plus (fun _ => arc_x y) (fun s => s * (1 - arc_x y))); [apply derivable_pt_lim_const |]. apply (derivable_pt_lim_mult (fun s => s) (fun _ => 1 - arc_x y)); [apply derivable_pt_lim_id | apply derivable_pt_lim_const].
    - intros t. apply continuity_pt_const. intros u v. reflexivity.
    - intros t Ht. split; nra.
    - replace (arc_x y + 0 * (1 - arc_x y)) with (arc_x y) in I1 by ring. replace (arc_x y + 1 * (1 - arc_x y)) with 1 in I1 by ring.
      replace (H y) with I0; [exact I1 |]. apply (integral_unique (fun t => f (arc_x y + t * (1 - arc_x y)) y * (1 - arc_x y)) 0 1); [exact I2 |].
      apply (integral_ext (fun s => 0 + (1 - arc_x y) * K s y)); [lra | intros; unfold K; ring |]. unfold H. replace (k y * (1 - arc_x y)) with (0 + (1 - arc_x y) * k y) by ring. apply (integral_lin (fun _ => 0) (fun s => K s y)); [| apply Hk].
      pose proof (integral_deriv_on (fun _ => 0) (fun _ => 0) 0 1 ltac:(lra) (fun x _ => derivable_pt_lim_const 0 x)) as Z. cbn beta in Z. replace (0 - 0) with 0 in Z by ring. apply Z. intros x. apply continuity_pt_const. intros u v. reflexivity. }
  exists H. split; [intros y _; apply HK |]. destruct (Yc_subst H CH) as (I' & I1 & I2). replace I with I'; [exact I1 |].
  apply (integral_unique (fun t => H (Yc t) * (1/2 * sin t)) 0 PI); [exact I2 |]. apply (integral_ext J); [lra | | exact HI]. intros t Ht.
  apply (integral_unique (fun s => f (Xc s t) (Yc t) * ((1 + 1/2 * sin t) * (1/2 * sin t))) 0 1); [apply HJ, Ht |].
  assert (AX : arc_x (Yc t) = - (1/2) * sin t) by (apply arc_x_at, Ht).
  apply (integral_ext (fun s => 0 + ((1 + 1/2 * sin t) * (1/2 * sin t)) * K s (Yc t))); [lra | |].
  - intros s _. unfold K. rewrite AX. unfold Xc. replace (1 - - (1/2) * sin t) with (1 + 1/2 * sin t) by ring. ring.
  - unfold H. rewrite AX. replace (k (Yc t) * (1 - - (1/2) * sin t) * (1/2 * sin t)) with (0 + ((1 + 1/2 * sin t) * (1/2 * sin t)) * k (Yc t)) by ring. apply (integral_lin (fun _ => 0) (fun s => K s (Yc t))); [| apply Hk].
    pose proof (integral_deriv_on (fun _ => 0) (fun _ => 0) 0 1 ltac:(lra) (fun x _ => derivable_pt_lim_const 0 x)) as Z. cbn beta in Z. replace (0 - 0) with 0 in Z by ring. apply Z. intros x. apply continuity_pt_const. intros u v. reflexivity.
Qed.

(** The theorem of Gauss: the normal of the arc at (x, y) is (2 x, 2 (y - 1/2)) *)
Theorem gauss_arc F G Fx Gx Gy : d1 F Fx -> d1 G Gx -> d2 G Gy -> cont2 F -> cont2 G -> cont2 Fx -> cont2 Gx -> cont2 Gy ->
  exists I arc right bottom top, integral_domain (fun x y => Fx x y + Gy x y) I /\
    integral_arc (fun x y => F x y * (2 * x) + G x y * (2 * (y - 1/2))) arc /\ integral (fun y => F 1 y) 0 1 right /\
    integral (fun x => G x 0) 0 1 bottom /\ integral (fun x => G x 1) 0 1 top /\ I = arc + right + top - bottom.
Proof.
  intros DF D1 D2 CF CG CFx CGx CGy. pose proof PI_RGT_0 as PP.
  pose (P := fun s t => F (Xc s t) (Yc t) * (1/2 * sin t) + -1 * (G (Xc s t) (Yc t) * (- (1/2) * cos t + s * (1/2 * cos t)))).
  pose (dP := fun s t => (Fx (Xc s t) (Yc t) * (1 + 1/2 * sin t)) * (1/2 * sin t) + -1 * (Gx (Xc s t) (Yc t) * (1 + 1/2 * sin t) * (- (1/2) * cos t + s * (1/2 * cos t)) + G (Xc s t) (Yc t) * (1/2 * cos t))).
  pose (Q := fun s t => G (Xc s t) (Yc t) * (1 + 1/2 * sin t)).
  pose (dQ := fun s t => (Gx (Xc s t) (Yc t) * (- (1/2) * cos t + s * (1/2 * cos t)) + Gy (Xc s t) (Yc t) * (1/2 * sin t)) * (1 + 1/2 * sin t) + G (Xc s t) (Yc t) * (1/2 * cos t)).
  assert (comp : forall H, cont2 H -> cont2 (fun s t => H (Xc s t) (Yc t))) by (intros H C; apply (cont2_comp2 H Xc (fun _ t => Yc t)); [exact C | apply cont2_Xc | apply cont2_Yc]).
  assert (cx : cont2 (fun s t => - (1/2) * cos t + s * (1/2 * cos t))) by (apply cont2_plus; [apply cont2_scal, cont2_cos | apply cont2_mult; [apply cont2_fst | apply cont2_scal, cont2_cos]]).
  assert (cs : cont2 (fun _ t => 1 + 1/2 * sin t)) by (apply cont2_plus; [apply cont2_const | apply cont2_scal, cont2_sin]).
  assert (cy : cont2 (fun _ t => 1/2 * sin t)) by apply cont2_scal, cont2_sin. assert (cc : cont2 (fun _ t => 1/2 * cos t)) by apply cont2_scal, cont2_cos.
  assert (DP : d1 P dP).
  { intros s t. unfold P, dP. apply (derivable_pt_lim_plus (fun s => F (Xc s t) (Yc t) * (1/2 * sin t)) (fun s => -1 * (G (Xc s t) (Yc t) * (- (1/2) * cos t + s * (1/2 * cos t))))).
    - replace (Fx (Xc s t) (Yc t) * (1 + 1/2 * sin t) * (1/2 * sin t)) with ((Fx (Xc s t) (Yc t) * (1 + 1/2 * sin t)) * (1/2 * sin t) + F (Xc s t) (Yc t) * 0) by ring.
      apply (derivable_pt_lim_mult (fun s => F (Xc s t) (Yc t)) (fun _ => 1/2 * sin t)); [| apply derivable_pt_lim_const]. apply (derivable_pt_lim_comp (fun s => Xc s t) (fun x => F x (Yc t)) s (1 + 1/2 * sin t)); [apply Xc_s | apply DF].
    - apply derivable_pt_lim_scal. apply (derivable_pt_lim_mult (fun s => G (Xc s t) (Yc t)) (fun s => - (1/2) * cos t + s * (1/2 * cos t))).
      + apply (derivable_pt_lim_comp (fun s => Xc s t) (fun x => G x (Yc t)) s (1 + 1/2 * sin t)); [apply Xc_s | apply D1].
      + apply (dval _ _ (0 + (1 * (1/2 * cos t) + s * 0))); [ring |]. apply (derivable_pt_lim_plus (fun _ => - (1/2) * cos t) (fun s => s * (1/2 * cos t))); [apply derivable_pt_lim_const |]. apply (derivable_pt_lim_mult (fun s => s) (fun _ => 1/2 * cos t)); [apply derivable_pt_lim_id | apply derivable_pt_lim_const]. }
  assert (DQ : d2 Q dQ).
  { intros s t. unfold Q, dQ. apply (derivable_pt_lim_mult (fun t => G (Xc s t) (Yc t)) (fun t => 1 + 1/2 * sin t)); [| apply xs_t].
    apply (chain G Gx Gy (fun t => Xc s t) Yc); [exact D1 | exact D2 | exact CGx | apply Xc_t | apply Yc_t]. }
  assert (CP : cont2 P) by (apply cont2_plus; [apply cont2_mult; [apply comp, CF | exact cy] | apply cont2_scal, cont2_mult; [apply comp, CG | exact cx]]).
  assert (CQ : cont2 Q) by (apply cont2_mult; [apply comp, CG | exact cs]).
  assert (CdP : cont2 dP). { apply cont2_plus; [apply cont2_mult; [apply cont2_mult; [apply comp, CFx | exact cs] | exact cy] |]. apply cont2_scal, cont2_plus; [apply cont2_mult; [apply cont2_mult; [apply comp, CGx | exact cs] | exact cx] | apply cont2_mult; [apply comp, CG | exact cc]]. }
  assert (CdQ : cont2 dQ). { apply cont2_plus; [| apply cont2_mult; [apply comp, CG | exact cc]]. apply cont2_mult; [| exact cs]. apply cont2_plus; apply cont2_mult; [apply comp, CGx | exact cx | apply comp, CGy | exact cy]. }
  destruct (gauss P Q dP dQ 0 1 0 PI ltac:(lra) ltac:(lra) DP DQ CP CQ CdP CdQ) as (I & l & r & b & t & H2 & Hl & Hr & Hb & Ht & E).
  destruct (Yc_subst (fun y => F 1 y) (cont2_y F 1 CF)) as (right & R1 & R2).
  exists I, (-1 * l), right, b, t. split; [| split; [| split; [| split; [| split]]]].
  - apply domain_coordinates; [apply cont2_plus; assumption |]. apply (integral2_ext (fun s t => dP s t + dQ s t)); [lra | lra | | exact H2]. intros s u _ _. unfold dP, dQ. ring.
  - unfold integral_arc, arc_point. cbn [fst snd]. replace (-1 * l) with (l + -2 * l) by ring. apply (integral_ext (fun a => P 0 a + -2 * P 0 a)); [lra | | apply (integral_lin (fun a => P 0 a) (fun a => P 0 a)); exact Hl].
    intros a _. unfold P, Xc, Yc. replace (- (1/2) * sin a + 0 * (1 + 1/2 * sin a)) with (- (1/2) * sin a) by ring. field.
  - exact R1.
  - apply (integral_ext (fun x => Q x 0)); [lra | | exact Hb]. intros x _. unfold Q, Xc. rewrite Yc_0, sin_0. replace (- (1/2) * 0 + x * (1 + 1/2 * 0)) with x by ring. ring.
  - apply (integral_ext (fun x => Q x PI)); [lra | | exact Ht]. intros x _. unfold Q, Xc. rewrite Yc_PI, sin_PI. replace (- (1/2) * 0 + x * (1 + 1/2 * 0)) with x by ring. ring.
  - assert (r = right). { apply (integral_unique (fun u => P 1 u) 0 PI); [exact Hr |]. apply (integral_ext (fun u => F 1 (Yc u) * (1/2 * sin u))); [lra | | exact R2]. intros u _. unfold P, Xc. replace (- (1/2) * sin u + 1 * (1 + 1/2 * sin u)) with 1 by ring. ring. }
    lra.
Qed.
