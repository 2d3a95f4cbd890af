(** Coupled 3d-1d problems: specification and lemmas (property C118) *)
From Coq Require Import Lra.
From Verif Require Export VesselModel.
Local Open Scope R_scope.

(** ** Specification *)
Definition symmetric (n : nat) (F : nat -> nat -> R) : Prop := forall x y, form n n F x y = form n n F y x.
Definition nonneg (n : nat) (F : nat -> nat -> R) : Prop := forall x, 0 <= form n n F x x.
Definition null (n : nat) (x : fvec) : Prop := forall i, (i < n)%nat -> x i = 0.
Definition same (n : nat) (x y : fvec) : Prop := forall i, (i < n)%nat -> x i = y i.
Definition minus (x y : fvec) : fvec := fun i => x i - y i.
(** Integrals: symmetric, of squares nonnegative; those over the curve are of one function, the average
    of u3 less u; a function on the domain without gradient is constant and then zero if it is on the
    boundary; a function on the curve is zero if its square has integral zero *)
Record integrals (n3 n nT : nat) (g3 m3 s3 g1 m1 s1 mT mTV : nat -> nat -> R) : Prop := {
  i_g3 : symmetric n3 g3 /\ nonneg n3 g3; i_m3 : symmetric n3 m3 /\ nonneg n3 m3; i_s3 : symmetric n3 s3 /\ nonneg n3 s3;
  i_g1 : symmetric n g1 /\ nonneg n g1; i_m1 : symmetric n m1 /\ nonneg n m1; i_s1 : symmetric n s1 /\ nonneg n s1; i_mT : symmetric nT mT;
  i_curve : forall t x, 0 <= form nT nT mT t t - 2 * form nT n mTV t x + form n n m1 x x;
  i_3 : forall x, form n3 n3 g3 x x = 0 -> form n3 n3 s3 x x = 0 -> null n3 x;
  i_1 : forall x, form n n m1 x x = 0 -> null n x }.

(** ** Lemmas *)
Lemma form_lin_l n m F a x b y z : form n m F (fun i => a * x i + b * y i) z = a * form n m F x z + b * form n m F y z.
Proof.
  unfold form. rewrite <- !rsum_scal, <- rsum_plus. apply rsum_ext. intros i _. rewrite <- !rsum_scal, <- rsum_plus. apply rsum_ext. intros j _. ring.
Qed.
Lemma form_lin_r n m F a x b y z : form n m F z (fun i => a * x i + b * y i) = a * form n m F z x + b * form n m F z y.
Proof.
  unfold form. rewrite <- !rsum_scal, <- rsum_plus. apply rsum_ext. intros i _. rewrite <- !rsum_scal, <- rsum_plus. apply rsum_ext. intros j _. ring.
Qed.
Lemma form_minus_l n m F x y z : form n m F (minus x y) z = form n m F x z - form n m F y z.
Proof. transitivity (form n m F (fun i => 1 * x i + -1 * y i) z); [unfold form, minus; apply rsum_ext; intros i _; apply rsum_ext; intros j _; ring | rewrite form_lin_l; ring]. Qed.
Lemma form_minus_r n m F x y z : form n m F z (minus x y) = form n m F z x - form n m F z y.
Proof. transitivity (form n m F z (fun i => 1 * x i + -1 * y i)); [unfold form, minus; apply rsum_ext; intros i _; apply rsum_ext; intros j _; ring | rewrite form_lin_r; ring]. Qed.
Lemma form_scale_l n m F a x z : form n m F (fun i => a * x i) z = a * form n m F x z.
Proof. transitivity (form n m F (fun i => a * x i + 0 * x i) z); [unfold form; apply rsum_ext; intros i _; apply rsum_ext; intros j _; ring | rewrite form_lin_l; ring]. Qed.
Lemma form_scale_r n m F a x z : form n m F z (fun i => a * x i) = a * form n m F z x.
Proof. transitivity (form n m F z (fun i => a * x i + 0 * x i)); [unfold form; apply rsum_ext; intros i _; apply rsum_ext; intros j _; ring | rewrite form_lin_r; ring]. Qed.
Lemma lin_minus n f x y : lin n f (minus x y) = lin n f x - lin n f y.
Proof. unfold lin, minus. rewrite <- rsum_minus. apply rsum_ext. intros i _. ring. Qed.
Lemma form_null n m F x z : null n x -> form n m F x z = 0.
Proof. intros H. unfold form. apply rsum_zero. intros i Hi. apply rsum_zero. intros j _. rewrite (H i Hi). ring. Qed.
Lemma form_null_r n m F x z : null m x -> form n m F z x = 0.
Proof. intros H. unfold form. apply rsum_zero. intros i Hi. apply rsum_zero. intros j Hj. rewrite (H j Hj). ring. Qed.
Lemma form_same n m F x y z : same n x y -> form n m F x z = form n m F y z.
Proof. intros H. unfold form. apply rsum_ext. intros i Hi. apply rsum_ext. intros j _. rewrite (H i Hi). reflexivity. Qed.
Lemma form_same_r n m F x y z : same m x y -> form n m F z x = form n m F z y.
Proof. intros H. unfold form. apply rsum_ext. intros i Hi. apply rsum_ext. intros j Hj. rewrite (H j Hj). reflexivity. Qed.
Lemma null_same n x y : null n (minus x y) -> same n x y.
Proof. intros H i Hi. specialize (H i Hi). unfold minus in H. lra. Qed.
Lemma Pi_minus n3 avg x y t : Pi n3 avg (minus x y) t = minus (Pi n3 avg x) (Pi n3 avg y) t.
Proof. unfold Pi, minus. rewrite <- rsum_minus. apply rsum_ext. intros i _. ring. Qed.
Lemma Pi_same n3 n avg x y : same n (Pi n3 avg (minus x y)) (minus (Pi n3 avg x) (Pi n3 avg y)).
Proof. intros t _. apply Pi_minus. Qed.
Lemma Pi_null n3 n avg x : null n3 x -> null n (Pi n3 avg x).
Proof. intros H t _. unfold Pi. apply rsum_zero. intros j Hj. rewrite (H j Hj). ring. Qed.
(** Cauchy and Schwarz, for what is needed: the null space of a nonnegative form *)
Lemma null_form n F x : symmetric n F -> nonneg n F -> form n n F x x = 0 -> forall z, form n n F x z = 0.
Proof.
  intros S N E z. destruct (Req_dec (form n n F x z) 0) as [H | H]; [exact H | exfalso].
  assert (P : forall a, 0 <= form n n F z z + 2 * a * form n n F x z).
  { intros a. pose proof (N (fun i => 1 * z i + a * x i)) as K. rewrite form_lin_l, !form_lin_r, E, (S z x) in K. lra. }
  specialize (P (- (form n n F z z + 1) / (2 * form n n F x z))). replace (2 * (- (form n n F z z + 1) / (2 * form n n F x z)) * form n n F x z) with (- (form n n F z z + 1)) in P by (field; exact H). lra.
Qed.
