(** Specification vocabulary and proofs for CalcModel.v *)
From Verif Require Import Base BaseProofs CalcModel.
From Coq Require Import Reals Qreals.
Local Open Scope nat_scope.

(** Values of expressions at a point *)
Fixpoint eval (x : nat -> R) (e : expr) : R :=
  match e with
  | Num q => Q2R q
  | Sym s => x s
  | Plus a b => eval x a + eval x b
  | Times a b => eval x a * eval x b
  | Power a n => eval x a ^ n
  | Sin a => sin (eval x a)
  | Cos a => cos (eval x a)
  | Exp a => exp (eval x a)
  end.
Definition moved (x : nat -> R) (s : nat) (t : R) : nat -> R := fun r => if r =? s then t else x r.
(** [d] is the partial derivative of [e] by [s], at all points *)
Definition partial (e : expr) (s : nat) (d : expr) : Prop :=
  forall x, derivable_pt_lim (fun t => eval (moved x s t) e) (x s) (eval x d).
Definition entry (M : smat) (i j : nat) : option expr := if j <? cols M then nth_error (entries M) (i * cols M + j) else None.
(** What SymPy knows is true, and it knows the number 0 *)
Definition honest (known_zero : expr -> bool) : Prop :=
  known_zero (Num 0) = true /\ forall e, known_zero e = true -> forall x, eval x e = 0%R.

Lemma moved_same x s : forall e, eval (moved x s (x s)) e = eval x e.
Proof.
  assert (M : forall r, moved x s (x s) r = x r) by (intros r; unfold moved; destruct (Nat.eqb_spec r s) as [-> | _]; reflexivity).
  induction e; cbn [eval]; congruence.
Qed.
Lemma diff_partial s : forall e, partial e s (diff e s).
Proof.
  unfold partial. intros e x. induction e; cbn [diff eval].
  - replace (Q2R 0) with 0%R by (unfold Q2R; cbn; field). apply derivable_pt_lim_const.
  - unfold moved. destruct (Nat.eqb_spec s0 s) as [-> | N]; cbn [eval].
    + replace (Q2R 1) with 1%R by (unfold Q2R; cbn; field). apply derivable_pt_lim_id.
    + replace (Q2R 0) with 0%R by (unfold Q2R; cbn; field). apply derivable_pt_lim_const.
  - exact (derivable_pt_lim_plus _ _ _ _ _ IHe1 IHe2).
  - pose proof (derivable_pt_lim_mult _ _ _ _ _ IHe1 IHe2) as D. cbn beta in D. rewrite !moved_same in D. exact D.
  - pose proof (derivable_pt_lim_comp (fun t => eval (moved x s t) e) (fun y => y ^ n)%R (x s) _ _ IHe (derivable_pt_lim_pow _ n)) as D. cbn beta in D. rewrite moved_same in D.
    replace (Q2R (inject_Z (Z.of_nat n))) with (INR n) by (unfold Q2R; cbn; rewrite INR_IZR_INZ; field). exact D.
  - pose proof (derivable_pt_lim_comp (fun t => eval (moved x s t) e) sin (x s) _ _ IHe (derivable_pt_lim_sin _)) as D. cbn beta in D. rewrite moved_same in D. exact D.
  - pose proof (derivable_pt_lim_comp (fun t => eval (moved x s t) e) cos (x s) _ _ IHe (derivable_pt_lim_cos _)) as D. cbn beta in D. rewrite moved_same in D.
    replace (Q2R (-1) * sin (eval x e))%R with (- sin (eval x e))%R by (unfold Q2R; cbn; field). exact D.
  - pose proof (derivable_pt_lim_comp (fun t => eval (moved x s t) e) exp (x s) _ _ IHe (derivable_pt_lim_exp _)) as D. cbn beta in D. rewrite moved_same in D. exact D.
Qed.
Lemma filter_all {A} (p : A -> bool) l : (forall x, In x l -> p x = true) -> filter p l = l.
Proof. induction l as [| a l IH]; intros H; [reflexivity |]. cbn [filter]. rewrite (H a (or_introl eq_refl)), IH; [reflexivity |]. intros x Hx. apply H. right. exact Hx. Qed.
Lemma nth_concat n : forall (l : list (list expr)) i j, (forall r, In r l -> length r = n) -> j < n -> nth_error (concat l) (i * n + j) = match nth_error l i with Some r => nth_error r j | None => None end.
Proof.
  induction l as [| r l IH]; intros i j H Hj; cbn [concat].
  - destruct i; cbn [nth_error]; destruct (_ * _ + _); reflexivity.
  - assert (L : length r = n) by (apply H; left; reflexivity). destruct i as [| i]; cbn [nth_error].
    + apply nth_error_app1. lia.
    + rewrite nth_error_app2 by (cbn; lia). replace (S i * n + j - length r) with (i * n + j) by (cbn; lia). apply IH; [| exact Hj]. intros r' Hr. apply H. right. exact Hr.
Qed.
Lemma fold_plus x : forall l s, eval x (fold_left (fun s p => Plus s (diff (fst p) (snd p))) l s) = (eval x s + fold_right (fun p t => eval x (diff (fst p) (snd p)) + t) 0 l)%R.
Proof. induction l as [| p l IH]; intros s; cbn [fold_left fold_right]; [ring |]. rewrite IH. cbn [eval]. ring. Qed.
