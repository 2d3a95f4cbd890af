(** Lemmas about the shared vocabulary of Base.v. *)
From Verif Require Import Base.

Lemma mapM_cons {X Y} (f : X -> res Y) x l :
  mapM f (x :: l) = do y <- f x; do ys <- mapM f l; Ok (y :: ys).
Proof. reflexivity. Qed.

Lemma mapM_map {X Y} (f : X -> res Y) (g : X -> Y) (l : list X) :
  Forall (fun x => f x = Ok (g x)) l -> mapM f l = Ok (map g l).
Proof.
  induction 1 as [|x l Hx Hl IH]; [reflexivity|].
  rewrite mapM_cons, Hx. cbn [bind]. rewrite IH. reflexivity.
Qed.

Lemma mapM_first_err {X Y} (f : X -> res Y) (g : X -> Y) pre x post e :
  Forall (fun x => f x = Ok (g x)) pre -> f x = Err e ->
  mapM f (pre ++ x :: post) = Err e.
Proof.
  intros Hpre Hx. induction Hpre as [|y pre Hy Hpre IH].
  - cbn [app]. rewrite mapM_cons, Hx. reflexivity.
  - cbn [app]. rewrite mapM_cons, Hy. cbn [bind]. rewrite IH. reflexivity.
Qed.

Lemma mapM_ok_forall {X Y} (f : X -> res Y) l ys :
  mapM f l = Ok ys -> Forall2 (fun x y => f x = Ok y) l ys.
Proof.
  revert ys. induction l as [|x l IH]; intros ys H.
  - inversion H. constructor.
  - rewrite mapM_cons in H. destruct (f x) as [y|e] eqn:Hx; cbn [bind] in H; [|discriminate].
    destruct (mapM f l) as [ys'|e] eqn:Hl; cbn [bind] in H; [|discriminate].
    inversion H; subst. constructor; auto.
Qed.

Lemma mapM_err_in {X Y} (f : X -> res Y) l e :
  mapM f l = Err e -> exists x, In x l /\ f x = Err e.
Proof.
  induction l as [|x l IH]; [discriminate|].
  rewrite mapM_cons. destruct (f x) as [y|e'] eqn:Hx; cbn [bind].
  - destruct (mapM f l) as [ys|e''] eqn:Hl; cbn [bind]; [discriminate|].
    intros H. inversion H; subst. destruct IH as [z [Hz Hfz]]; [reflexivity|].
    exists z. split; [right|]; assumption.
  - intros H. inversion H; subst. exists x. split; [left; reflexivity|assumption].
Qed.

Lemma mapM_err_from {X Y} (f : X -> res Y) l x e :
  In x l -> f x = Err e -> exists e', mapM f l = Err e'.
Proof.
  intros Hin Hx. destruct (mapM f l) as [ys|e'] eqn:H; [|eauto].
  apply mapM_ok_forall in H. exfalso.
  induction H as [|a b l ys Hab H IH]; [inversion Hin|].
  destruct Hin as [->|Hin]; [congruence|auto].
Qed.

