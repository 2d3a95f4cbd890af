(** C122: the manufactured solution of demo/poisson_babuska_3d.py *)
From Coq Require Import Reals Lra Qreals.
From Verif Require Import Base BaseProofs MmsModel MmsProofs Mms5Model Mms5Proofs.
Local Open Scope R_scope.

(** Both equations hold, for all smooth test functions, with the function of the demo and the multiplier 0 *)
Theorem C122_balanced u p v q : solution3 demo_u u -> solution3 (fun _ _ _ => 0) p -> smooth3 v ->
  balanced3 (fun x y z => P3_row0_dx (u x y z) (v x y z) (at3 P3_f x y z)) (fun t x y z => P3_row0_side t (v x y z) (p x y z)) /\
  forall t x y z, on_face t x y z -> P3_row1_side t (u x y z) (q x y z) (at3 P3_g x y z) = 0.
Proof.
  intros U P (V1 & V2 & V3 & C0 & C1 & C2 & C3). pose proof (solution3_at _ P3_u _ U demo_u_at) as JU. split.
  - eapply (balanced3_by (fun x y z => at3 (diff P3_u 0) x y z * wa (v x y z)) (fun x y z => at3 (diff P3_u 1) x y z * wa (v x y z)) (fun x y z => at3 (diff P3_u 3) x y z * wa (v x y z)));
      [apply D1_mult; [apply D1_at | exact V1] | apply D2_mult; [apply D2_at | exact V2] | apply D3_mult; [apply D3_at | exact V3] | continuous3 | continuous3 | continuous3 | continuous3 | continuous3 | continuous3 | |].
    + intros x y z _. rewrite JU. unfold P3_row0_dx, P3_a00, P3_L0, P3_f, div3, grad3, jet3_of, at3, Neg. cbn [wa w1 w2 w3]. autorewrite with at_. ring.
    + intros t x y z S. destruct (demo_flux t x y z S) as (Z1 & Z2 & Z3). rewrite Z1, Z2, Z3. destruct P as [_ P]. unfold P3_row0_side, P3_a01. rewrite P. destruct (_ =? _)%nat; unfold face_flux; destruct t as [| [| [| [| [| [| t]]]]]]; ring.
  - intros t x y z _. rewrite JU. unfold P3_row1_side, P3_a10, P3_L1, P3_g, jet3_of. cbn [wa]. destruct (_ =? _)%nat; [ring | reflexivity].
Qed.
Print Assumptions C122_balanced.

(** The second equation, for all q, says that u has the values of the data on the side x = 0 and says nothing of the other sides *)
Theorem C122_sides u : (forall t x y z q, on_face t x y z -> P3_row1_side t (u x y z) q (at3 P3_g x y z) = 0) <-> (forall x y z, on_face 1 x y z -> wa (u x y z) = demo_u x y z).
Proof.
  split.
  - intros H x y z S. specialize (H 1%nat x y z (Jet3 1 0 0 0) S). unfold P3_row1_side, P3_tag, P3_multiplier_tag in H. cbn [Nat.eqb] in H. unfold P3_a10, P3_L1, P3_g in H. cbn [wa] in H. rewrite demo_u_at. lra.
  - intros H t x y z q S. unfold P3_row1_side, P3_tag, P3_multiplier_tag. destruct t as [| [| t]]; cbn [Nat.eqb]; [reflexivity | | reflexivity]. specialize (H x y z S). unfold P3_a10, P3_L1, P3_g. rewrite <- demo_u_at, <- H. ring.
Qed.
Print Assumptions C122_sides.

(** The first equation holds for every solution of -Laplace u + u = f, with the multiplier minus the normal derivative
    on the side x = 0, and test functions that vanish where there are conditions *)
Theorem C122_general u a b c p v : smooth3 u -> smooth3 v ->
  D1 (fun x y z => w1 (u x y z)) a -> D2 (fun x y z => w2 (u x y z)) b -> D3 (fun x y z => w3 (u x y z)) c -> cont3 a -> cont3 b -> cont3 c ->
  (forall y z, in_cube 0 y z -> wa (p 0 y z) = - face_flux 1 (w1 (u 0 y z)) (w2 (u 0 y z)) (w3 (u 0 y z))) ->
  (forall t x y z, on_face t x y z -> P3_tag t = P3_bc_tag -> wa (v x y z) = 0) ->
  balanced3 (fun x y z => P3_row0_dx (u x y z) (v x y z) (- (a x y z + b x y z + c x y z) + wa (u x y z))) (fun t x y z => P3_row0_side t (v x y z) (p x y z)).
Proof.
  intros (U1 & U2 & U3 & CU & CU1 & CU2 & CU3) (V1 & V2 & V3 & C0 & C1 & C2 & C3) A B C CA CB CC P VZ.
  eapply (balanced3_by (fun x y z => w1 (u x y z) * wa (v x y z)) (fun x y z => w2 (u x y z) * wa (v x y z)) (fun x y z => w3 (u x y z) * wa (v x y z)));
    [apply (D1_mult _ _ _ _ A V1) | apply (D2_mult _ _ _ _ B V2) | apply (D3_mult _ _ _ _ C V3) | continuous3 | continuous3 | continuous3 | continuous3 | continuous3 | continuous3 | |].
  - intros x y z _. unfold P3_row0_dx, P3_a00, P3_L0. ring.
  - intros t x y z S. specialize (VZ t x y z S). unfold P3_row0_side, P3_tag, P3_multiplier_tag, P3_bc_tag, P3_a01 in *. destruct t as [| [| t]]; cbn [Nat.eqb] in *.
    + destruct S as [_ []].
    + destruct S as [Sq ->]. rewrite (P y z Sq). unfold face_flux. ring.
    + rewrite VZ by reflexivity. unfold face_flux. destruct t as [| [| [| [| t]]]]; ring.
Qed.
Print Assumptions C122_general.

(** The conditions: every side has either the multiplier or the condition; the values prescribed are those of the solution, those of the multiplier too *)
Theorem C122_conditions : (forall t, (1 <= t <= 6)%nat -> (P3_tag t = P3_multiplier_tag <-> t = 1%nat) /\ (P3_tag t = P3_bc_tag <-> t <> 1%nat)) /\
  (forall x y z, at3 P3_bc_V x y z = demo_u x y z) /\ (forall x y z, at3 P3_bc_Q x y z = 0 /\ at3 P3_p x y z = 0).
Proof.
  split; [| split].
  - intros t H. unfold P3_tag, P3_multiplier_tag, P3_bc_tag. destruct (Nat.eqb_spec t 1); split; split; intros; try reflexivity; try contradiction; try discriminate; try assumption.
  - intros x y z. symmetry. apply demo_u_at.
  - intros x y z. unfold at3, P3_bc_Q, P3_p. autorewrite with at_. split; reflexivity.
Qed.
Print Assumptions C122_conditions.

(** The multiplier is minus the normal derivative of the solution on every side *)
Theorem C122_multiplier t u x y z : solution3 demo_u u -> on_face t x y z -> at3 P3_p x y z = - face_flux t (w1 (u x y z)) (w2 (u x y z)) (w3 (u x y z)).
Proof.
  intros U S. rewrite (solution3_at _ P3_u _ U demo_u_at). destruct (demo_flux t x y z S) as (Z1 & Z2 & Z3). unfold jet3_of. cbn [w1 w2 w3]. rewrite Z1, Z2, Z3. unfold at3, P3_p. autorewrite with at_.
  unfold face_flux. destruct t as [| [| [| [| [| [| t]]]]]]; ring.
Qed.
Print Assumptions C122_multiplier.

(** There is such a solution and it is no constant *)
Example C122_some : exists u p v, solution3 demo_u u /\ solution3 (fun _ _ _ => 0) p /\ smooth3 v /\ demo_u (/ 2) (/ 2) (/ 2) <> demo_u 0 0 0.
Proof.
  exists (jet3_of P3_u), (jet3_of P3_p), (jet3_of Z). split; [| split; [| split]].
  - split; [apply (solution3_of P3_u) |]. intros x y z. symmetry. apply demo_u_at.
  - split; [apply (solution3_of P3_p) |]. intros x y z. apply q0.
  - apply (solution3_of Z).
  - unfold demo_u. replace (PI * 0 * (1 - 0) * 0 * (1 - 0) * 0 * (1 - 0)) with 0 by ring. rewrite cos_0. replace (PI * / 2 * (1 - / 2) * / 2 * (1 - / 2) * / 2 * (1 - / 2)) with (PI / 64) by field.
    pose proof PI_RGT_0. intros E. assert (L : cos (PI / 64) < cos 0) by (apply cos_decreasing_1; lra). rewrite cos_0 in L. lra.
Qed.
