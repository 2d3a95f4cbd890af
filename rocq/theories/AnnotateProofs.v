(** Specification vocabulary for marking functions, and lemmas. *)
From Verif Require Import Base ElementModel ElementProofs AnnotateModel.
From Coq Require Import Sorting.Sorted.

(** ** Vocabulary *)

(** everything that was there is there as it was *)
Definition kept (st st' : state) : Prop :=
  meshes st' = meshes st /\ forall i o, nth_error (heap st) i = Some o -> nth_error (heap st') i = Some o.

(** [r] is a new object, the function [v] once more (the same argument or a
    Function on the same vector) with the single mark [m] *)
Definition copied (st : state) (v : nat) (m : mark) (st' : state) (r : nat) : Prop :=
  kept st st' /\ nth_error (heap st) r = None /\
  exists o, nth_error (heap st) v = Some o /\ nth_error (heap st') r = Some (Obj (o_sort o) [m]).

(** test functions, trial functions and Functions, over one kind of cells *)
Definition reducible (st : state) (v : nat) (c : cell) (V : space) : Prop :=
  exists o, nth_error (heap st) v = Some o /\ on c (s_elem V) /\
    (o_sort o = Argument 0 V \/ o_sort o = Argument 1 V \/ exists x, o_sort o = Function V x).

(** ** Lemmas *)
Lemma opt_res_ok {A} x (o : option A) a : opt_res x o = Ok a -> o = Some a.
Proof. destruct o; cbn; intros E; inversion E; reflexivity. Qed.

Lemma copy_ok st v o m st' r :
  nth_error (heap st) v = Some o -> copy_and_mark st o m = Ok (st', r) -> copied st v m st' r.
Proof.
  intros Ho. unfold copy_and_mark.
  assert (G : forall x, x = Obj (o_sort o) [m] -> new st x = (st', r) -> copied st v m st' r).
  { intros x -> E. unfold new in E. inversion E; subst st' r. split; [split; [reflexivity |] |]; cbn [heap].
    - intros i a Hi. rewrite nth_error_app1; [exact Hi |]. apply nth_error_Some. rewrite Hi. discriminate.
    - split; [apply nth_error_None; lia |]. exists o. split; [exact Ho |].
      rewrite nth_error_app2, Nat.sub_diag; [reflexivity | lia]. }
  destruct (o_sort o) as [n V | V x | |]; try discriminate.
  - destruct (n <? 2); [| discriminate]. intros E. injection E as E1 E2. apply (G (Obj (Argument n V) [m])); [reflexivity |].
    unfold new. rewrite E1, E2. reflexivity.
  - intros E. injection E as E1 E2. apply (G (Obj (Function V x) [m])); [reflexivity |].
    unfold new. rewrite E1, E2. reflexivity.
Qed.

Lemma copy_total st v c V m o :
  reducible st v c V -> nth_error (heap st) v = Some o -> exists st' r, copy_and_mark st o m = Ok (st', r).
Proof.
  intros (o' & Ho' & _ & Hs) Ho. rewrite Ho in Ho'. injection Ho' as <-. unfold copy_and_mark.
  destruct Hs as [-> | [-> | [x ->]]]; cbn; eexists; eexists; reflexivity.
Qed.

(** what the accesses give for reducible functions *)
Lemma reducible_get st v c V : reducible st v c V ->
  exists o, get st v = Ok o /\ nth_error (heap st) v = Some o /\ is_terminal o = true /\ space_of o = Ok V /\ obj_cell o = Ok c.
Proof.
  intros (o & Ho & Hc & Hs). exists o. unfold get. rewrite Ho. split; [reflexivity |]. split; [reflexivity |].
  unfold is_terminal, obj_cell, space_of. rewrite <- (on_cell c (s_elem V) Hc).
  destruct Hs as [-> | [-> | [x ->]]]; repeat split.
Qed.

Lemma mem_In x l : mem x l = true <-> In x l.
Proof.
  unfold mem. rewrite existsb_exists. split.
  - intros (y & Hy & E). apply Nat.eqb_eq in E. subst y. exact Hy.
  - intros H. exists x. split; [exact H | apply Nat.eqb_refl].
Qed.

Lemma insert_In x y l : In y (insert x l) <-> y = x \/ In y l.
Proof.
  induction l as [| a l IH]; cbn [insert].
  - split; [intros [E | []]; left; symmetry; exact E | intros [E | []]; left; symmetry; exact E].
  - destruct (x <? a) eqn:E1.
    + split; [intros [E | H]; [left; symmetry; exact E | right; exact H] | intros [E | H]; [left; symmetry; exact E | right; exact H]].
    + destruct (x =? a) eqn:E2.
      * apply Nat.eqb_eq in E2. split; [intros H; right; exact H | intros [E | H]; [left; congruence | exact H]].
      * split.
        -- intros [E | H]; [right; left; exact E |]. apply IH in H. destruct H as [E | H]; [left; exact E | right; right; exact H].
        -- intros [E | [E | H]]; [right; apply IH; left; exact E | left; exact E | right; apply IH; right; exact H].
Qed.

Lemma unique_In x l : In x (unique l) <-> In x l.
Proof.
  unfold unique. induction l as [| a l IH]; [reflexivity |]. cbn [fold_right]. rewrite insert_In, IH.
  split; [intros [E | H]; [left; symmetry; exact E | right; exact H] | intros [E | H]; [left; symmetry; exact E | right; exact H]].
Qed.

Lemma insert_NoDup x l : StronglySorted lt l -> StronglySorted lt (insert x l).
Proof.
  induction l as [| a l IH]; intros Hs; cbn [insert].
  - constructor; constructor.
  - inversion Hs as [| ? ? Hs1 Hs2]; subst. destruct (x <? a) eqn:E1.
    + apply Nat.ltb_lt in E1. constructor; [exact Hs |]. constructor; [exact E1 |].
      eapply Forall_impl; [| exact Hs2]. intros b Hb. cbn in Hb. lia.
    + apply Nat.ltb_ge in E1. destruct (x =? a) eqn:E2; [exact Hs |]. apply Nat.eqb_neq in E2.
      constructor; [exact (IH Hs1) |]. apply Forall_forall. intros b Hb. apply insert_In in Hb.
      destruct Hb as [-> | Hb]; [lia |]. rewrite Forall_forall in Hs2. exact (Hs2 b Hb).
Qed.

Lemma unique_sorted l : StronglySorted lt (unique l).
Proof. unfold unique. induction l as [| a l IH]; cbn; [constructor | apply insert_NoDup; exact IH]. Qed.

Lemma set_mesh_nth l i m j : i < length l -> nth_error (set_mesh l i m) j = if j =? i then Some m else nth_error l j.
Proof.
  revert i j. induction l as [| x l IH]; intros i j Hi; cbn in Hi; [lia |].
  destruct i as [| i], j as [| j]; cbn; try reflexivity. apply IH. lia.
Qed.
