(** Specification and proofs for MmsModel.v *)
From Coq Require Import Reals Lra Qreals.
From Verif Require Import Base BaseProofs MmsModel.
From Verif Require Export GaussProofs.
Local Open Scope R_scope.

(** A continuously differentiable field with its derivatives *)
Definition smooth (v : R -> R -> jet) : Prop := d1 (fun x y => va (v x y)) (fun x y => da (v x y)) /\ d2 (fun x y => va (v x y)) (fun x y => db (v x y)) /\
  cont2 (fun x y => va (v x y)) /\ cont2 (fun x y => da (v x y)) /\ cont2 (fun x y => db (v x y)).
Definition smooth_v (v : R -> R -> jet * jet) : Prop := smooth (fun x y => fst (v x y)) /\ smooth (fun x y => snd (v x y)).
(** The field is differentiable and has the values of the expression *)
Definition solution (par : list R) (e : expr) (u : R -> R -> jet) : Prop := smooth u /\ forall x y, va (u x y) = at_ par e x y.
Definition solution_v (par : list R) (e : expr * expr) (u : R -> R -> jet * jet) : Prop :=
  solution par (fst e) (fun x y => fst (u x y)) /\ solution par (snd e) (fun x y => snd (u x y)).

(** The unit square, its sides and their outer normals: 1 left, 2 right, 3 bottom, 4 top *)
Definition in_square (x y : R) : Prop := 0 <= x <= 1 /\ 0 <= y <= 1.
Definition on_side (t : nat) (x y : R) : Prop :=
  in_square x y /\ match t with 1%nat => x = 0 | 2%nat => x = 1 | 3%nat => y = 0 | 4%nat => y = 1 | _ => False end.
Definition normal (t : nat) : R * R := match t with 1%nat => (-1, 0) | 2%nat => (1, 0) | 3%nat => (0, -1) | _ => (0, 1) end.
(** The integral over the square and those over the four sides exist and add up to zero *)
Definition balanced (interior : R -> R -> R) (sides : nat -> R -> R -> R) : Prop :=
  exists I left right bottom top, integral2 interior 0 1 0 1 I /\
    integral (fun y => sides 1%nat 0 y) 0 1 left /\ integral (fun y => sides 2%nat 1 y) 0 1 right /\
    integral (fun x => sides 3%nat x 0) 0 1 bottom /\ integral (fun x => sides 4%nat x 1) 0 1 top /\
    I + left + right + bottom + top = 0.

Lemma balanced_by F G dF dG interior sides : d1 F dF -> d2 G dG -> cont2 F -> cont2 G -> cont2 dF -> cont2 dG ->
  (forall x y, in_square x y -> interior x y = dF x y + dG x y) ->
  (forall t x y, on_side t x y -> sides t x y + (F x y * fst (normal t) + G x y * snd (normal t)) = 0) -> balanced interior sides.
Proof.
  intros DF DG CF CG CdF CdG HI HS. destruct (gauss F G dF dG 0 1 0 1) as (I & l & r & b & t & H2 & Hl & Hr & Hb & Ht & E); try assumption; try lra.
  assert (sq : forall z, 0 <= z <= 1 -> in_square 0 z /\ in_square 1 z /\ in_square z 0 /\ in_square z 1) by (intros z Hz; unfold in_square; lra).
  exists I, l, (-1 * r), b, (-1 * t). split; [| split; [| split; [| split; [| split]]]].
  - apply (integral2_ext (fun x y => dF x y + dG x y)); [lra | lra | | exact H2]. intros x y Hx Hy. symmetry. apply HI. split; assumption.
  - apply (integral_ext (fun y => F 0 y)); [lra | | exact Hl]. intros y Hy. specialize (HS 1%nat 0 y). cbn in HS. assert (on_side 1 0 y) as S by (split; [apply sq, Hy | reflexivity]). specialize (HS S). lra.
  - apply (integral_ext (fun y => F 1 y + -2 * F 1 y)); [lra | | replace (-1 * r) with (r + -2 * r) by ring; apply (integral_lin (fun y => F 1 y) (fun y => F 1 y)); exact Hr].
    intros y Hy. specialize (HS 2%nat 1 y). cbn in HS. assert (on_side 2 1 y) as S by (split; [apply sq, Hy | reflexivity]). specialize (HS S). lra.
  - apply (integral_ext (fun x => G x 0)); [lra | | exact Hb]. intros x Hx. specialize (HS 3%nat x 0). cbn in HS. assert (on_side 3 x 0) as S by (split; [apply sq, Hx | reflexivity]). specialize (HS S). lra.
  - apply (integral_ext (fun x => G x 1 + -2 * G x 1)); [lra | | replace (-1 * t) with (t + -2 * t) by ring; apply (integral_lin (fun x => G x 1) (fun x => G x 1)); exact Ht].
    intros x Hx. specialize (HS 4%nat x 1). cbn in HS. assert (on_side 4 x 1) as S by (split; [apply sq, Hx | reflexivity]). specialize (HS S). lra.
  - lra.
Qed.

Lemma curve_derivative (g : R -> nat -> R) x k : (forall s, derivable_pt_lim (fun t => g t s) x (if (s =? k)%nat then 1 else 0)) ->
  forall e, derivable_pt_lim (fun t => value (g t) e) x (value (g x) (diff e k)).
Proof.
  intros H. induction e as [q | s | a IHa b IHb | a IHa b IHb | a IHa n | a IHa | a IHa | a IHa]; cbn [value diff].
  - replace (Q2R 0) with 0 by (unfold Q2R; cbn; lra). apply derivable_pt_lim_const.
  - specialize (H s). destruct (s =? k)%nat; cbn [value]; [replace (Q2R 1) with 1 by (unfold Q2R; cbn; lra) | replace (Q2R 0) with 0 by (unfold Q2R; cbn; lra)]; exact H.
  - apply (derivable_pt_lim_plus (fun t => value (g t) a) (fun t => value (g t) b)); assumption.
  - apply (derivable_pt_lim_mult (fun t => value (g t) a) (fun t => value (g t) b)); assumption.
  - replace (Q2R (inject_Z (Z.of_nat n))) with (INR n) by (unfold Q2R, inject_Z; cbn [Qnum Qden]; rewrite INR_IZR_INZ; field).
    apply (derivable_pt_lim_comp (fun t => value (g t) a) (fun y => y ^ n)); [exact IHa | apply derivable_pt_lim_pow].
  - apply (derivable_pt_lim_comp (fun t => value (g t) a) sin); [exact IHa | apply derivable_pt_lim_sin].
  - replace (Q2R (-1)) with (-1) by (unfold Q2R; cbn; lra). replace (-1 * sin (value (g x) a)) with (- sin (value (g x) a)) by ring.
    apply (derivable_pt_lim_comp (fun t => value (g t) a) cos); [exact IHa | apply derivable_pt_lim_cos].
  - apply (derivable_pt_lim_comp (fun t => value (g t) a) exp); [exact IHa | apply derivable_pt_lim_exp].
Qed.
Lemma d1_at par e : d1 (at_ par e) (at_ par (diff e 0)).
Proof.
  intros x y. apply (curve_derivative (fun t => env par t y)). intros s. destruct s as [| [| [| s]]]; cbn [env Nat.eqb]; [apply derivable_pt_lim_id | apply (derivable_pt_lim_const)..].
Qed.
Lemma d2_at par e : d2 (at_ par e) (at_ par (diff e 1)).
Proof.
  intros x y. apply (curve_derivative (fun t => env par x t)). intros s. destruct s as [| [| [| s]]]; cbn [env Nat.eqb]; [apply (derivable_pt_lim_const) | apply derivable_pt_lim_id | apply (derivable_pt_lim_const)..].
Qed.
Lemma cont2_at par e : cont2 (at_ par e).
Proof.
  unfold at_. induction e as [q | s | a IHa b IHb | a IHa b IHb | a IHa n | a IHa | a IHa | a IHa]; cbn [value].
  - apply cont2_const.
  - destruct s as [| [| [| s]]]; cbn [env]; [apply cont2_fst | apply cont2_snd | apply cont2_const..].
  - apply cont2_plus; assumption.
  - apply cont2_mult; assumption.
  - apply (cont2_comp (fun t => t ^ n)); [| exact IHa]. apply derivable_continuous, derivable_pow.
  - apply (cont2_comp sin); [apply continuity_sin | exact IHa].
  - apply (cont2_comp cos); [apply continuity_cos | exact IHa].
  - apply (cont2_comp exp); [apply derivable_continuous, derivable_exp | exact IHa].
Qed.
Lemma d1_mult F G dF dG : d1 F dF -> d1 G dG -> d1 (fun x y => F x y * G x y) (fun x y => dF x y * G x y + F x y * dG x y).
Proof. intros HF HG x y. apply (derivable_pt_lim_mult (fun t => F t y) (fun t => G t y)); [apply HF | apply HG]. Qed.
Lemma d2_mult F G dF dG : d2 F dF -> d2 G dG -> d2 (fun x y => F x y * G x y) (fun x y => dF x y * G x y + F x y * dG x y).
Proof. intros HF HG x y. apply (derivable_pt_lim_mult (fun t => F x t) (fun t => G x t)); [apply HF | apply HG]. Qed.
Lemma d1_plus F G dF dG : d1 F dF -> d1 G dG -> d1 (fun x y => F x y + G x y) (fun x y => dF x y + dG x y).
Proof. intros HF HG x y. apply (derivable_pt_lim_plus (fun t => F t y) (fun t => G t y)); [apply HF | apply HG]. Qed.
Lemma d2_plus F G dF dG : d2 F dF -> d2 G dG -> d2 (fun x y => F x y + G x y) (fun x y => dF x y + dG x y).
Proof. intros HF HG x y. apply (derivable_pt_lim_plus (fun t => F x t) (fun t => G x t)); [apply HF | apply HG]. Qed.
Lemma d1_const c : d1 (fun _ _ => c) (fun _ _ => 0). Proof. intros x y. apply derivable_pt_lim_const. Qed.
Lemma d2_const c : d2 (fun _ _ => c) (fun _ _ => 0). Proof. intros x y. apply derivable_pt_lim_const. Qed.

Lemma solution_jet par e u : solution par e u -> forall x y, u x y = jet_of par e x y.
Proof.
  intros [(H1 & H2 & _) V] x y. unfold jet_of. rewrite <- V.
  assert (A : da (u x y) = at_ par (diff e 0) x y). { apply (uniqueness_limite (fun t => va (u t y)) x); [apply H1 |]. intros eps He. destruct (d1_at par e x y eps He) as [d Hd]. exists d. intros h H0 Hh. rewrite !V. apply Hd; assumption. }
  assert (B : db (u x y) = at_ par (diff e 1) x y). { apply (uniqueness_limite (fun t => va (u x t)) y); [apply H2 |]. intros eps He. destruct (d2_at par e x y eps He) as [d Hd]. exists d. intros h H0 Hh. rewrite !V. apply Hd; assumption. }
  rewrite <- A, <- B. destruct (u x y); reflexivity.
Qed.
Lemma solution_v_jet par e u : solution_v par e u -> forall x y, u x y = jet_v par e x y.
Proof. intros [A B] x y. unfold jet_v. rewrite <- (solution_jet _ _ _ A), <- (solution_jet _ _ _ B). destruct (u x y); reflexivity. Qed.
(** There is such a field for every expression *)
Lemma solution_of par e : solution par e (jet_of par e).
Proof. split; [| reflexivity]. split; [apply d1_at |]. split; [apply d2_at |]. split; [| split]; apply cont2_at. Qed.
Lemma solution_v_of par e : solution_v par e (jet_v par e).
Proof. split; apply solution_of. Qed.

Lemma at_Plus par a b x y : at_ par (Plus a b) x y = at_ par a x y + at_ par b x y. Proof. reflexivity. Qed.
Lemma at_Times par a b x y : at_ par (Times a b) x y = at_ par a x y * at_ par b x y. Proof. reflexivity. Qed.
Lemma at_Num par q x y : at_ par (Num q) x y = Q2R q. Proof. reflexivity. Qed.
Lemma q0 : Q2R 0 = 0. Proof. unfold Q2R; cbn; lra. Qed.
Lemma q1 : Q2R 1 = 1. Proof. unfold Q2R; cbn; lra. Qed.
Lemma q2 : Q2R 2 = 2. Proof. unfold Q2R; cbn; lra. Qed.
Lemma qm1 : Q2R (-1) = -1. Proof. unfold Q2R; cbn; lra. Qed.
Lemma qhalf : Q2R (1 # 2) = / 2. Proof. unfold Q2R; cbn; lra. Qed.
Global Hint Rewrite at_Plus at_Times at_Num q0 q1 q2 qm1 qhalf : at_.

(** Values of the forms at a point *)
Ltac forms := unfold jval, jgrad, jdiv, jcurl, jsym, inner2, MmsModel.dot, at_v, rot, jet_v, jet_of, div_t, grad_v, curl_v, curl_s, sym, neg_v, add_v, dot_t in *; unfold div, grad, dot_e, Minus in *; unfold Neg, Half in *; cbn [fst snd va da db diff] in *.
Ltac derive := solve [repeat first [apply d1_at | apply d2_at | eassumption | apply d1_const | apply d2_const | eapply d1_plus | eapply d2_plus | eapply d1_mult | eapply d2_mult]].
Ltac continuous := solve [repeat first [assumption | apply cont2_at | apply cont2_const | apply cont2_plus | apply cont2_mult]].
Ltac each_side := let t := fresh "t" in let S := fresh "S" in let Sq := fresh "Sq" in let E := fresh "E" in
  intros t x y S; destruct t as [| [| [| [| [| t]]]]]; destruct S as [Sq E]; try contradiction E; cbn [n_ normal fst snd].
