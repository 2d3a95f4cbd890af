(** Specification and proofs for Mms5Model.v *)
From Coq Require Import Reals Lra Qreals.
From Verif Require Import Base BaseProofs MmsModel MmsProofs Mms5Model.
From Verif Require Export Gauss3Proofs.
Local Open Scope R_scope.

(** A continuously differentiable field with its derivatives *)
Definition smooth3 (v : R -> R -> R -> jet3) : Prop :=
  D1 (fun x y z => wa (v x y z)) (fun x y z => w1 (v x y z)) /\ D2 (fun x y z => wa (v x y z)) (fun x y z => w2 (v x y z)) /\ D3 (fun x y z => wa (v x y z)) (fun x y z => w3 (v x y z)) /\
  cont3 (fun x y z => wa (v x y z)) /\ cont3 (fun x y z => w1 (v x y z)) /\ cont3 (fun x y z => w2 (v x y z)) /\ cont3 (fun x y z => w3 (v x y z)).
(** The field is differentiable and has the values of a function *)
Definition solution3 (g : R -> R -> R -> R) (u : R -> R -> R -> jet3) : Prop := smooth3 u /\ forall x y z, wa (u x y z) = g x y z.
(** The unit cube, its sides and their outer normals *)
Definition in_cube (x y z : R) : Prop := 0 <= x <= 1 /\ 0 <= y <= 1 /\ 0 <= z <= 1.
Definition on_face (t : nat) (x y z : R) : Prop := in_cube x y z /\
  match t with 1%nat => x = 0 | 2%nat => x = 1 | 3%nat => y = 0 | 4%nat => y = 1 | 5%nat => z = 0 | 6%nat => z = 1 | _ => False end.
Definition face_flux (t : nat) (f g h : R) : R := match t with 1%nat => - f | 2%nat => f | 3%nat => - g | 4%nat => g | 5%nat => - h | _ => h end.
(** The integral over the cube and those over the six sides exist and add up to zero *)
Definition balanced3 (interior : R -> R -> R -> R) (sides : nat -> R -> R -> R -> R) : Prop :=
  exists I s1 s2 s3 s4 s5 s6, integral3 interior 0 1 0 1 0 1 I /\
    integral2 (fun y z => sides 1%nat 0 y z) 0 1 0 1 s1 /\ integral2 (fun y z => sides 2%nat 1 y z) 0 1 0 1 s2 /\
    integral2 (fun x z => sides 3%nat x 0 z) 0 1 0 1 s3 /\ integral2 (fun x z => sides 4%nat x 1 z) 0 1 0 1 s4 /\
    integral2 (fun x y => sides 5%nat x y 0) 0 1 0 1 s5 /\ integral2 (fun x y => sides 6%nat x y 1) 0 1 0 1 s6 /\ I + s1 + s2 + s3 + s4 + s5 + s6 = 0.

Lemma side_integral h g I l : integral2 h 0 1 0 1 I -> (forall s t, 0 <= s <= 1 -> 0 <= t <= 1 -> g s t = l * h s t) -> integral2 g 0 1 0 1 (l * I).
Proof. intros H E. apply (integral2_ext (fun s t => l * h s t)); [lra | lra | intros s t Hs Ht; symmetry; apply E; assumption | apply integral2_scal; [lra | lra | exact H]]. Qed.
Lemma balanced3_by F G H dF dG dH interior sides : D1 F dF -> D2 G dG -> D3 H dH -> cont3 F -> cont3 G -> cont3 H -> cont3 dF -> cont3 dG -> cont3 dH ->
  (forall x y z, in_cube x y z -> interior x y z = dF x y z + dG x y z + dH x y z) ->
  (forall t x y z, on_face t x y z -> sides t x y z + face_flux t (F x y z) (G x y z) (H x y z) = 0) -> balanced3 interior sides.
Proof.
  intros DF DG DH CF CG CH CdF CdG CdH HI HS. destruct (gauss3 F G H dF dG dH 0 1 0 1 0 1) as (I & F0 & F1 & G0 & G1 & H0 & H1 & H2 & A1 & A2 & A3 & A4 & A5 & A6 & E); try assumption; try lra.
  exists I, (1 * F0), (-1 * F1), (1 * G0), (-1 * G1), (1 * H0), (-1 * H1). split; [| split; [| split; [| split; [| split; [| split; [| split]]]]]].
  - apply (integral3_ext (fun x y z => dF x y z + dG x y z + dH x y z)); [lra | lra | lra | | exact H2]. intros x y z Hx Hy Hz. symmetry. apply HI. split; [exact Hx | split; assumption].
  - eapply side_integral; [exact A1 |]. intros s t Hs Ht. specialize (HS 1%nat 0 s t). cbn in HS. assert (S : on_face 1 0 s t) by (unfold on_face, in_cube; lra). specialize (HS S). lra.
  - eapply side_integral; [exact A2 |]. intros s t Hs Ht. specialize (HS 2%nat 1 s t). cbn in HS. assert (S : on_face 2 1 s t) by (unfold on_face, in_cube; lra). specialize (HS S). lra.
  - eapply side_integral; [exact A3 |]. intros s t Hs Ht. specialize (HS 3%nat s 0 t). cbn in HS. assert (S : on_face 3 s 0 t) by (unfold on_face, in_cube; lra). specialize (HS S). lra.
  - eapply side_integral; [exact A4 |]. intros s t Hs Ht. specialize (HS 4%nat s 1 t). cbn in HS. assert (S : on_face 4 s 1 t) by (unfold on_face, in_cube; lra). specialize (HS S). lra.
  - eapply side_integral; [exact A5 |]. intros s t Hs Ht. specialize (HS 5%nat s t 0). cbn in HS. assert (S : on_face 5 s t 0) by (unfold on_face, in_cube; lra). specialize (HS S). lra.
  - eapply side_integral; [exact A6 |]. intros s t Hs Ht. specialize (HS 6%nat s t 1). cbn in HS. assert (S : on_face 6 s t 1) by (unfold on_face, in_cube; lra). specialize (HS S). lra.
  - lra.
Qed.
Lemma D1_at e : D1 (at3 e) (at3 (diff e 0)). Proof. intros x y z. apply d1_at. Qed.
Lemma D2_at e : D2 (at3 e) (at3 (diff e 1)). Proof. intros x y z. apply d2_at. Qed.
Lemma D3_at e : D3 (at3 e) (at3 (diff e 3)).
Proof.
  intros x y z. apply (curve_derivative (fun t => env [t] x y)). intros s. destruct s as [| [| [| [| s]]]]; cbn [env Nat.eqb nth]; [apply (derivable_pt_lim_const).. | apply derivable_pt_lim_id | destruct s; apply (derivable_pt_lim_const)].
Qed.
Lemma cont3_at e : cont3 (at3 e).
Proof.
  unfold at3, at_. induction e as [q | s | a IHa b IHb | a IHa b IHb | a IHa n | a IHa | a IHa | a IHa]; cbn [value].
  - apply cont3_const.
  - destruct s as [| [| [| [| s]]]]; cbn [env nth]; [apply (cont3_proj 0) | apply (cont3_proj 1) | apply cont3_const | apply (cont3_proj 2) | destruct s; apply cont3_const].
  - apply cont3_plus; assumption.
  - apply cont3_mult; assumption.
  - apply (cont3_comp (fun t => t ^ n)); [| exact IHa]. apply derivable_continuous, derivable_pow.
  - apply (cont3_comp sin); [apply continuity_sin | exact IHa].
  - apply (cont3_comp cos); [apply continuity_cos | exact IHa].
  - apply (cont3_comp exp); [apply derivable_continuous, derivable_exp | exact IHa].
Qed.
Lemma D1_mult F G dF dG : D1 F dF -> D1 G dG -> D1 (fun x y z => F x y z * G x y z) (fun x y z => dF x y z * G x y z + F x y z * dG x y z).
Proof. intros HF HG x y z. apply (derivable_pt_lim_mult (fun t => F t y z) (fun t => G t y z)); [apply HF | apply HG]. Qed.
Lemma D2_mult F G dF dG : D2 F dF -> D2 G dG -> D2 (fun x y z => F x y z * G x y z) (fun x y z => dF x y z * G x y z + F x y z * dG x y z).
Proof. intros HF HG x y z. apply (derivable_pt_lim_mult (fun t => F x t z) (fun t => G x t z)); [apply HF | apply HG]. Qed.
Lemma D3_mult F G dF dG : D3 F dF -> D3 G dG -> D3 (fun x y z => F x y z * G x y z) (fun x y z => dF x y z * G x y z + F x y z * dG x y z).
Proof. intros HF HG x y z. apply (derivable_pt_lim_mult (fun t => F x y t) (fun t => G x y t)); [apply HF | apply HG]. Qed.
Lemma solution3_at g h u : solution3 g u -> (forall x y z, g x y z = at3 h x y z) -> forall x y z, u x y z = jet3_of h x y z.
Proof.
  intros [(H1 & H2 & H3 & _) V] E x y z. assert (V' : forall x y z, wa (u x y z) = at3 h x y z) by (intros; rewrite V; apply E). unfold jet3_of. rewrite <- V'.
  assert (A : w1 (u x y z) = at3 (diff h 0) x y z). { apply (uniqueness_limite (fun t => wa (u t y z)) x); [apply H1 |]. intros eps He. destruct (D1_at h x y z eps He) as [d Hd]. exists d. intros s H0 Hh. rewrite !V'. apply Hd; assumption. }
  assert (B : w2 (u x y z) = at3 (diff h 1) x y z). { apply (uniqueness_limite (fun t => wa (u x t z)) y); [apply H2 |]. intros eps He. destruct (D2_at h x y z eps He) as [d Hd]. exists d. intros s H0 Hh. rewrite !V'. apply Hd; assumption. }
  assert (C : w3 (u x y z) = at3 (diff h 3) x y z). { apply (uniqueness_limite (fun t => wa (u x y t)) z); [apply H3 |]. intros eps He. destruct (D3_at h x y z eps He) as [d Hd]. exists d. intros s H0 Hh. rewrite !V'. apply Hd; assumption. }
  rewrite <- A, <- B, <- C. destruct (u x y z); reflexivity.
Qed.
Lemma solution3_of e : solution3 (at3 e) (jet3_of e).
Proof. split; [| reflexivity]. split; [apply D1_at |]. split; [apply D2_at |]. split; [apply D3_at |]. split; [| split; [| split]]; apply cont3_at. Qed.
Ltac continuous3 := solve [repeat first [assumption | apply cont3_at | apply cont3_const | apply cont3_plus | apply cont3_mult]].
(** The function of the demo and its values *)
Definition demo_u (x y z : R) : R := cos (PI * x * (1 - x) * y * (1 - y) * z * (1 - z)).
Lemma demo_u_at x y z : demo_u x y z = at3 P3_u x y z.
Proof.
  unfold demo_u, at3, at_, P3_u, X, Y, Z, Pi, Minus, Neg. cbn [value env nth]. rewrite q1, qm1. f_equal. ring.
Qed.
Lemma demo_flux t x y z : on_face t x y z -> at3 (diff P3_u 0) x y z = 0 /\ at3 (diff P3_u 1) x y z = 0 /\ at3 (diff P3_u 3) x y z = 0.
Proof.
  intros [_ E]. unfold at3, at_, P3_u, X, Y, Z, Pi, Minus, Neg. cbn [diff Nat.eqb value env nth]. rewrite ?q0, ?q1, ?qm1.
  assert (S : sin (PI * x * (1 + -1 * x) * y * (1 + -1 * y) * z * (1 + -1 * z)) = 0).
  { replace (PI * x * (1 + -1 * x) * y * (1 + -1 * y) * z * (1 + -1 * z)) with 0; [apply sin_0 |]. destruct t as [| [| [| [| [| [| [| t]]]]]]]; try contradiction E; subst; ring. }
  rewrite !S. split; [| split]; ring.
Qed.
