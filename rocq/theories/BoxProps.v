(** Property C111: segments and boxes *)
From Coq Require Import Reals Lra.
From Verif Require Import Base BoxModel BoxProofs.
Local Open Scope R_scope.

(** The algorithm says yes exactly if the segment and the box have a common point; also for segments that
    are points or parallel to a side, for boxes that are points or empty *)
Theorem C111_collides : forall A B low high, collides A B low high = true <-> meets A B low high.
Proof. exact collides_meets. Qed.
Print Assumptions C111_collides.

(** The answer does not depend on the direction of the segment, and a larger box is met as well *)
Theorem C111_direction : forall A B low high, collides B A low high = collides A B low high.
Proof.
  intros A B low high. apply Bool.eq_true_iff_eq. rewrite !collides_meets.
  assert (S : forall P Q, meets P Q low high -> meets Q P low high).
  { intros P Q [X [[u [Hu [E1 E2]]] H]]. exists X. split; auto. exists (1 - u). split; [lra |]. lra. }
  split; apply S.
Qed.
Print Assumptions C111_direction.
Theorem C111_ends : forall A B low high, in_box low high A \/ in_box low high B -> collides A B low high = true.
Proof.
  intros A B low high H. apply collides_meets. destruct H as [H | H].
  - exists A. split; auto. exists 0. split; lra.
  - exists B. split; auto. exists 1. split; lra.
Qed.
Print Assumptions C111_ends.

(** bbox is the smallest box that has the points *)
Theorem C111_bbox : bbox [] = Err ValueError /\ forall shape, shape <> [] -> exists low high, bbox shape = Ok (low, high) /\
  (forall X, In X shape -> in_box low high X) /\
  (forall low' high', (forall X, In X shape -> in_box low' high' X) -> forall X, in_box low high X -> in_box low' high' X).
Proof. split; [reflexivity | exact bbox_smallest]. Qed.
Print Assumptions C111_bbox.
(** A segment that misses the box of a set of points has none of their convex combinations of two: a
    collision of cells is a collision with the box *)
Theorem C111_bbox_test : forall shape low high A B P Q X, bbox shape = Ok (low, high) ->
  In P shape -> In Q shape -> on_segment P Q X -> on_segment A B X -> collides A B low high = true.
Proof.
  intros shape low high A B P Q X E HP HQ HX HAB. apply collides_meets. exists X. split; auto.
  destruct (bbox_smallest shape) as [l [h [E' [H _]]]]; [intros ->; destruct HP |]. rewrite E in E'. injection E' as <- <-.
  pose proof (H P HP) as [H1 H2]. pose proof (H Q HQ) as [H3 H4]. destruct HX as [u [Hu [EX EY]]].
  unfold in_box. rewrite EX, EY. repeat split; nra.
Qed.
Print Assumptions C111_bbox_test.

(** The Python version never gives an answer *)
Theorem C111_box_collides_refuted : forall n box line tol, box_collides n box line tol = Err NameError.
Proof. intros n box line tol. unfold box_collides, box_collides_2d. destruct (Nat.eqb n 2); reflexivity. Qed.
Print Assumptions C111_box_collides_refuted.

(** A diagonal through the unit square, from outside to outside; and one that misses a corner *)
Example case_through : collides (-1, 1 / 2) (2, 1 / 2) (0, 0) (1, 1) = true.
Proof. apply collides_meets. exists (1 / 2, 1 / 2). split; [exists (1 / 2); cbn; lra | unfold in_box; cbn; lra]. Qed.
Example case_misses : collides (0, 5 / 2) (5 / 2, 0) (0, 0) (1, 1) = false.
Proof.
  apply Bool.not_true_iff_false. rewrite collides_meets. intros [X [[u [Hu [E1 E2]]] [H1 H2]]]. cbn [fst snd] in *. lra.
Qed.
