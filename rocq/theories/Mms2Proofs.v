(** Specification and proofs for Mms2Model.v *)
From Coq Require Import Reals Lra Qreals.
From Verif Require Import Base BaseProofs Mms2Model.
From Verif Require Export MmsProofs.
Local Open Scope R_scope.

(** The inner square, its sides (1, .., 4) as those of MmsProofs.v *)
Definition inner_side (t : nat) (x y : R) : Prop := 1/4 <= x <= 3/4 /\ 1/4 <= y <= 3/4 /\
  match t with 1%nat => x = 1/4 | 2%nat => x = 3/4 | 3%nat => y = 1/4 | 4%nat => y = 3/4 | _ => False end.
(** The sides of the outer domain, as the picture of immersed_geometry shows them, and their normals out of the domain *)
Definition outer_side (t : nat) (x y : R) : Prop :=
  match t with
  | 5%nat => on_side 1 x y | 6%nat => on_side 2 x y | 7%nat => on_side 3 x y | 8%nat => on_side 4 x y
  | _ => inner_side t x y
  end.
Definition outer_normal (t : nat) : R * R :=
  match t with
  | 5%nat => normal 1 | 6%nat => normal 2 | 7%nat => normal 3 | 8%nat => normal 4
  | _ => (- fst (normal t), - snd (normal t))
  end.
(** The integral over the inner square and those over its sides add up to zero *)
Definition balanced_inner (interior : R -> R -> R) (sides : nat -> R -> R -> R) : Prop :=
  exists I left right bottom top, integral2 interior (1/4) (3/4) (1/4) (3/4) I /\
    integral (fun y => sides 1%nat (1/4) y) (1/4) (3/4) left /\ integral (fun y => sides 2%nat (3/4) y) (1/4) (3/4) right /\
    integral (fun x => sides 3%nat x (1/4)) (1/4) (3/4) bottom /\ integral (fun x => sides 4%nat x (3/4)) (1/4) (3/4) top /\
    I + left + right + bottom + top = 0.
(** The integral over the outer domain, which is that over the unit square without that over the inner one, and those
    over its eight sides add up to zero *)
Definition balanced_outer (interior : R -> R -> R) (sides : nat -> R -> R -> R) : Prop :=
  exists I hole s1 s2 s3 s4 s5 s6 s7 s8, integral2 interior 0 1 0 1 I /\ integral2 interior (1/4) (3/4) (1/4) (3/4) hole /\
    integral (fun y => sides 1%nat (1/4) y) (1/4) (3/4) s1 /\ integral (fun y => sides 2%nat (3/4) y) (1/4) (3/4) s2 /\
    integral (fun x => sides 3%nat x (1/4)) (1/4) (3/4) s3 /\ integral (fun x => sides 4%nat x (3/4)) (1/4) (3/4) s4 /\
    integral (fun y => sides 5%nat 0 y) 0 1 s5 /\ integral (fun y => sides 6%nat 1 y) 0 1 s6 /\
    integral (fun x => sides 7%nat x 0) 0 1 s7 /\ integral (fun x => sides 8%nat x 1) 0 1 s8 /\
    (I - hole) + (s1 + s2 + s3 + s4) + (s5 + s6 + s7 + s8) = 0.

Lemma integral_neg f a b I : a <= b -> integral f a b I -> integral (fun x => - f x) a b (- I).
Proof. intros L H. apply (integral_ext (fun x => f x + -2 * f x)); [exact L | intros; ring |]. replace (- I) with (I + -2 * I) by ring. apply (integral_lin f f); exact H. Qed.
Lemma balanced_inner_by F G dF dG interior sides : d1 F dF -> d2 G dG -> cont2 F -> cont2 G -> cont2 dF -> cont2 dG ->
  (forall x y, interior x y = dF x y + dG x y) ->
  (forall t x y, inner_side t x y -> sides t x y + (F x y * fst (normal t) + G x y * snd (normal t)) = 0) -> balanced_inner interior sides.
Proof.
  intros DF DG CF CG CdF CdG HI HS. destruct (gauss F G dF dG (1/4) (3/4) (1/4) (3/4)) as (I & l & r & b & t & H2 & Hl & Hr & Hb & Ht & E); try assumption; try lra.
  exists I, l, (- r), b, (- t). split; [| split; [| split; [| split; [| split]]]].
  - apply (integral2_ext (fun x y => dF x y + dG x y)); [lra | lra | | exact H2]. intros. symmetry. apply HI.
  - apply (integral_ext (fun y => F (1/4) y)); [lra | | exact Hl]. intros y Hy. specialize (HS 1%nat (1/4) y). unfold inner_side in HS. cbn [normal fst snd] in HS. lra.
  - apply (integral_ext (fun y => - F (3/4) y)); [lra | | apply integral_neg; [lra | exact Hr]]. intros y Hy. specialize (HS 2%nat (3/4) y). unfold inner_side in HS. cbn [normal fst snd] in HS. lra.
  - apply (integral_ext (fun x => G x (1/4))); [lra | | exact Hb]. intros x Hx. specialize (HS 3%nat x (1/4)). unfold inner_side in HS. cbn [normal fst snd] in HS. lra.
  - apply (integral_ext (fun x => - G x (3/4))); [lra | | apply integral_neg; [lra | exact Ht]]. intros x Hx. specialize (HS 4%nat x (3/4)). unfold inner_side in HS. cbn [normal fst snd] in HS. lra.
  - lra.
Qed.
Lemma balanced_outer_by F G dF dG interior sides : d1 F dF -> d2 G dG -> cont2 F -> cont2 G -> cont2 dF -> cont2 dG ->
  (forall x y, interior x y = dF x y + dG x y) ->
  (forall t x y, outer_side t x y -> sides t x y + (F x y * fst (outer_normal t) + G x y * snd (outer_normal t)) = 0) -> balanced_outer interior sides.
Proof.
  intros DF DG CF CG CdF CdG HI HS.
  destruct (gauss F G dF dG (1/4) (3/4) (1/4) (3/4)) as (I & l & r & b & t & H2 & Hl & Hr & Hb & Ht & E); try assumption; try lra.
  destruct (gauss F G dF dG 0 1 0 1) as (I' & l' & r' & b' & t' & H2' & Hl' & Hr' & Hb' & Ht' & E'); try assumption; try lra.
  exists I', I, (- l), r, (- b), t, l', (- r'), b', (- t').
  split; [apply (integral2_ext (fun x y => dF x y + dG x y)); [lra | lra | intros; symmetry; apply HI | exact H2'] |].
  split; [apply (integral2_ext (fun x y => dF x y + dG x y)); [lra | lra | intros; symmetry; apply HI | exact H2] |].
  unfold outer_side, inner_side, on_side, in_square, outer_normal in HS.
  repeat split.
  - apply (integral_ext (fun y => - F (1/4) y)); [lra | | apply integral_neg; [lra | exact Hl]]. intros y Hy. specialize (HS 1%nat (1/4) y). cbn [normal fst snd] in HS. lra.
  - apply (integral_ext (fun y => F (3/4) y)); [lra | | exact Hr]. intros y Hy. specialize (HS 2%nat (3/4) y). cbn [normal fst snd] in HS. lra.
  - apply (integral_ext (fun x => - G x (1/4))); [lra | | apply integral_neg; [lra | exact Hb]]. intros x Hx. specialize (HS 3%nat x (1/4)). cbn [normal fst snd] in HS. lra.
  - apply (integral_ext (fun x => G x (3/4))); [lra | | exact Ht]. intros x Hx. specialize (HS 4%nat x (3/4)). cbn [normal fst snd] in HS. lra.
  - apply (integral_ext (fun y => F 0 y)); [lra | | exact Hl']. intros y Hy. specialize (HS 5%nat 0 y). cbn [normal fst snd] in HS. lra.
  - apply (integral_ext (fun y => - F 1 y)); [lra | | apply integral_neg; [lra | exact Hr']]. intros y Hy. specialize (HS 6%nat 1 y). cbn [normal fst snd] in HS. lra.
  - apply (integral_ext (fun x => G x 0)); [lra | | exact Hb']. intros x Hx. specialize (HS 7%nat x 0). cbn [normal fst snd] in HS. lra.
  - apply (integral_ext (fun x => - G x 1)); [lra | | apply integral_neg; [lra | exact Ht']]. intros x Hx. specialize (HS 8%nat x 1). cbn [normal fst snd] in HS. lra.
  - lra.
Qed.

Lemma q3 : Q2R 3 = 3. Proof. unfold Q2R; cbn; lra. Qed.
Lemma q14 : Q2R (1 # 4) = 1 / 4. Proof. unfold Q2R; cbn; lra. Qed.
Lemma q34 : Q2R (3 # 4) = 3 / 4. Proof. unfold Q2R; cbn; lra. Qed.
Lemma q100 : Q2R (1 # 100) = / 100. Proof. unfold Q2R; cbn; lra. Qed.
Lemma qm100 : Q2R (-1 # 100) = - / 100. Proof. unfold Q2R; cbn; lra. Qed.
Global Hint Rewrite q3 q14 q34 q100 qm100 : at_.
Lemma at_par par k x y : at_ par (Sym (S (S (S k)))) x y = nth k par 0. Proof. reflexivity. Qed.
Ltac outer_sides := let t := fresh "t" in let S := fresh "S" in
  intros t x y S; destruct t as [| [| [| [| [| [| [| [| [| t]]]]]]]]]; try (destruct S as (_ & _ & []); fail); cbn [nS n_ normal outer_normal fst snd].
Ltac inner_sides := let t := fresh "t" in let S := fresh "S" in
  intros t x y S; destruct t as [| [| [| [| [| t]]]]]; try (destruct S as (_ & _ & []); fail); cbn [nS n_ normal fst snd].
