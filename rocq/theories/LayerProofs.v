(** Problems coupled with multipliers: specification and lemmas (property C119) *)
From Coq Require Import Lra Lia.
From Verif Require Export LayerModel VesselProofs.
Local Open Scope R_scope.

(** ** Specification *)
Definition energy (n : nat) (F : nat -> nat -> R) (x : fvec) : R := 1 / 2 * form n n F x x.
(** Squares *)
Definition square (n : nat) (F : nat -> nat -> R) : Prop := symmetric n F /\ nonneg n F.
Definition norm (n : nat) (F : nat -> nat -> R) : Prop := square n F /\ forall x, form n n F x x = 0 -> null n x.

(** ** Lemmas *)
(** The energy at y is that at x plus the slope along y - x plus the energy of y - x *)
Lemma energy_along n F x y : symmetric n F -> energy n F y = energy n F x + (form n n F x y - form n n F x x) + energy n F (minus y x).
Proof. intros S. unfold energy. rewrite form_minus_l, !form_minus_r, (S y x). field. Qed.
Lemma energy_pos n F x : nonneg n F -> 0 <= energy n F x.
Proof. intros N. unfold energy. pose proof (N x). lra. Qed.
(** A norm sees every coefficient *)
Lemma norm_test n F x : norm n F -> (forall y, form n n F x y = 0) -> null n x.
Proof. intros [_ D] H. apply D, H. Qed.
Lemma norm_test_r n F x : norm n F -> (forall y, form n n F y x = 0) -> null n x.
Proof. intros [_ D] H. apply D, H. Qed.
