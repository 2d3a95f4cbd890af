(** Specification vocabulary and proofs for Trace31Model.v *)
From Coq Require Import Lia.
From Verif Require Import Base BaseProofs Mat MatProofs FillModel FillProofs AverageProofs EmbedModel Trace31Model.
Local Open Scope nat_scope.

Section Spec.
Context {X : Type}.
(** [contains t x]: the point is in the cell.  [phi j x k]: component [k] at [x] of the
    basis function [j] of the space *)
Variable contains : nat -> X -> Prop.
Variable phi : nat -> X -> nat -> Qc.
(** On a cell, functions of the space are combinations of the basis functions of its dofs;
    the values of these at its points are given by [basis] *)
Definition continuous_space (basis : nat -> X -> list Qc) (V_dofs : nat -> list nat) (size : nat) : Prop :=
  forall t x, contains t x -> NoDup (V_dofs t) /\
    (forall l j k, nth_error (V_dofs t) l = Some j -> k < size -> nth (l * size + k) (basis t x) q0 = phi j x k) /\
    (forall j k, ~ In j (V_dofs t) -> k < size -> phi j x k = q0).
(** The dofs of the components of a node follow one another; a dof has one point *)
Definition blocked (size : nat) (cells : list (nat * list (nat * X))) : Prop :=
  forall c c' r r' x x' s s', In c cells -> In c' cells -> In (r, x) (snd c) -> In (r', x') (snd c') -> s < size -> s' < size -> r + s = r' + s' -> r = r' /\ x = x'.
End Spec.

Section Proofs.
Context {X : Type}.
Variable parents : option (nat -> option nat).
Variable edge_cells : nat -> list nat.
Variable collision : nat -> nat.
Variable limit : nat.
Variable basis : nat -> X -> list Qc.
Variable V_dofs : nat -> list nat.
Variable size : nat.
Variable contains : nat -> X -> Prop.
Variable phi : nat -> X -> nat -> Qc.
Hypothesis conf : continuous_space contains phi basis V_dofs size.

Notation get := (get_cell3d parents edge_cells collision limit).
Notation dof_step := (trace_dof basis V_dofs size).

Lemma rows_other (vals : nat -> list Qc) cols r ss E i j : (forall s, In s ss -> i <> r + s) ->
  fold_left (fun E' s => set_row E' (r + s) cols (vals s)) ss E i j = E i j.
Proof.
  revert E. induction ss as [| s ss IH]; intros E H; cbn [fold_left]; auto. rewrite IH by (intros; apply H; right; auto).
  apply set_row_other. apply H. left. auto.
Qed.
Lemma dof_other t rx E i j : (forall s, s < size -> i <> fst rx + s) -> dof_step t E rx i j = E i j.
Proof. intros H. unfold trace_dof. apply rows_other. intros s Hs. apply in_seq in Hs. apply H. lia. Qed.

Lemma rows_hit (vals : nat -> list Qc) cols r ss E s j v : NoDup cols -> NoDup ss -> In s ss ->
  (forall l, nth_error cols l = Some j -> nth_error (vals s) l = Some v) -> (~ In j cols -> E (r + s) j = v) ->
  fold_left (fun E' s => set_row E' (r + s) cols (vals s)) ss E (r + s) j = v.
Proof.
  intros Hc. revert E. induction ss as [| s0 ss IH]; intros E Hn Hs Hv H0; [destruct Hs |]. cbn [fold_left]. inversion Hn as [| a b Hni Hn' Eab]; subst.
  destruct Hs as [-> | Hs].
  - rewrite rows_other by (intros s' Hs' Es; apply Hni; replace s with s' by lia; auto).
    destruct (in_dec Nat.eq_dec j cols) as [Hj | Hj].
    + destruct (In_nth_error _ _ Hj) as [l Hl]. apply (set_row_nth _ _ _ _ l); auto.
    + rewrite set_row_notin; auto.
  - apply IH; auto. intros Hj. rewrite set_row_other; auto. intros Es. apply Hni. replace s0 with s by lia. auto.
Qed.
Lemma dof_hit t r x E s j : contains t x -> s < size -> (E (r + s) j = phi j x s \/ E (r + s) j = q0) ->
  dof_step t E (r, x) (r + s) j = phi j x s.
Proof.
  intros Hx Hs HE. destruct (conf t x Hx) as [Hn [Hin Hout]]. unfold trace_dof. cbn [fst snd].
  apply (rows_hit (fun s => map (fun v => vnth v s) (reshape size (length (V_dofs t)) (basis t x)))); auto.
  - apply seq_NoDup.
  - apply in_seq. lia.
  - intros l Hl. assert (Hlt : l < length (V_dofs t)) by (apply nth_error_Some; congruence).
    rewrite nth_error_map. rewrite (nth_error_nth' _ []) by (rewrite reshape_length; auto). cbn [option_map]. f_equal.
    unfold vnth. rewrite reshape_nth by auto. apply Hin; auto.
  - intros Hj. destruct HE as [-> | ->]; auto. symmetry. apply Hout; auto.
Qed.

Variable cells : list (nat * list (nat * X)).
Hypothesis block : blocked size cells.
(** rows of the dofs in [D] are right, those of others empty *)
Definition state_ok (D : nat -> Prop) (E : nat -> nat -> Qc) : Prop :=
  forall c r x s j, In c cells -> In (r, x) (snd c) -> s < size ->
    (D r -> E (r + s) j = phi j x s) /\ (~ D r -> E (r + s) j = q0).
Lemma dofs_ok t c rxs D E : (forall r, D r \/ ~ D r) -> In c cells -> incl rxs (snd c) -> (forall r x, In (r, x) rxs -> contains t x) -> state_ok D E ->
  state_ok (fun r => D r \/ In r (map fst rxs)) (fold_left (dof_step t) rxs E).
Proof.
  intros HD Hc. revert D E HD. induction rxs as [| [r0 x0] rxs IH]; intros D E HD Hi Hx HE; cbn [fold_left map fst].
  - intros c' r x s j Hc' Hr Hs. destruct (HE c' r x s j Hc' Hr Hs) as [H1 H2]. split; [intros [H | []]; auto | intros H; apply H2; tauto].
  - assert (H0 : state_ok (fun r => D r \/ r = r0) (dof_step t E (r0, x0))).
    { intros c' r x s j Hc' Hr Hs. destruct (HE c' r x s j Hc' Hr Hs) as [H1 H2].
      assert (Hr0 : In (r0, x0) (snd c)) by (apply Hi; left; auto).
      destruct (Nat.eq_dec r r0) as [-> | Hne].
      - destruct (block c c' r0 r0 x0 x s s Hc Hc' Hr0 Hr Hs Hs eq_refl) as [_ <-].
        split; [intros _ | tauto]. apply dof_hit; auto. { apply (Hx r0). left. auto. } destruct (HD r0) as [d | d]; [left | right]; auto.
      - rewrite dof_other. { split; [intros [H | H]; [auto | congruence] | intros H; apply H2; tauto]. }
        intros s' Hs' Es. cbn [fst] in Es. destruct (block c' c r r0 x x0 s s' Hc' Hc Hr Hr0 Hs Hs' Es). congruence. }
    assert (HD' : forall r, (D r \/ r = r0) \/ ~ (D r \/ r = r0)) by (intros r; destruct (HD r), (Nat.eq_dec r r0); tauto).
    specialize (IH (fun r => D r \/ r = r0) _ HD' (fun z Hz => Hi z (or_intror Hz)) (fun r x Hr => Hx r x (or_intror Hr)) H0).
    intros c' r x s j Hc' Hr Hs. destruct (IH c' r x s j Hc' Hr Hs) as [H1 H2]. split.
    + intros [H | [H | H]]; apply H1; [left; left; exact H | left; right; congruence | right; exact H].
    + intros H. apply H2. intros [[H' | H'] | H']; apply H; [left; exact H' | right; left; congruence | right; right; exact H'].
Qed.
(** What a line cell belongs to: a cell at its edge, or the cell the search finds for it; the
    search answers with a number that is no cell if there is none *)
Inductive located (c : nat) : option nat -> Prop :=
| at_edge mapping e t ts : parents = Some mapping -> mapping c = Some e -> edge_cells e = t :: ts -> located c (Some t)
| in_cell : parents = None -> collision c < limit -> located c (Some (collision c))
| nowhere : parents = None -> limit <= collision c -> located c None.
Lemma located_get c o : located c o <-> get c = Ok o.
Proof.
  unfold get_cell3d. split.
  - intros [mapping e t ts -> Hm He | -> H | -> H].
    + rewrite Hm. cbn [opt_res bind]. rewrite He. reflexivity.
    + destruct (Nat.ltb_spec (collision c) limit); [reflexivity | lia].
    + destruct (Nat.ltb_spec (collision c) limit); [lia | reflexivity].
  - destruct parents as [mapping |] eqn:Ep.
    + destruct (mapping c) as [e |] eqn:Em; [| discriminate]. cbn [opt_res bind]. destruct (edge_cells e) as [| t ts] eqn:Ee; [discriminate |].
      cbn [hd_error opt_res bind]. intros H. injection H as <-. apply (at_edge c mapping e t ts); auto.
    + destruct (Nat.ltb_spec (collision c) limit); intros H'; injection H' as <-; [apply in_cell | apply nowhere]; auto.
Qed.
(** What is looked up for a line cell is a cell that contains its points, or nothing *)
Definition found_inside (c : nat * list (nat * X)) : Prop :=
  located (fst c) None \/ exists t, located (fst c) (Some t) /\ forall r x, In (r, x) (snd c) -> contains t x.
Definition found (c : nat * list (nat * X)) : Prop := exists t, located (fst c) (Some t).
Lemma cells_ok cs D E : (forall r, D r \/ ~ D r) -> incl cs cells -> Forall found_inside cs -> state_ok D E ->
  exists E', foldM (trace_cell parents edge_cells collision limit basis V_dofs size) cs E = Ok E' /\
    state_ok (fun r => D r \/ exists c x, In c cs /\ found c /\ In (r, x) (snd c)) E'.
Proof.
  revert D E. induction cs as [| c cs IH]; intros D E HD Hi Hf HE; cbn [foldM].
  - exists E. split; [reflexivity |]. intros c' r x s j Hc' Hr Hs. destruct (HE c' r x s j Hc' Hr Hs) as [H1 H2].
    split; [intros [H | [c0 [x0 [[] _]]]]; auto | intros H; apply H2; tauto].
  - inversion Hf as [| a b Hc Hf' Eab]; subst. assert (Hin : In c cells) by (apply Hi; left; auto).
    assert (Hi' : incl cs cells) by (intros z Hz; apply Hi; right; auto).
    unfold trace_cell at 1. destruct Hc as [Hc | [t [Hc Hx]]]; apply located_get in Hc; rewrite Hc; cbn [bind].
    + destruct (IH D E HD Hi' Hf' HE) as [E' [-> HE']]. exists E'. split; [reflexivity |].
      intros c' r x s j Hc' Hr Hs. destruct (HE' c' r x s j Hc' Hr Hs) as [H1 H2]. split.
      * intros [H | [c0 [x0 [[<- | Hc0] [Hf0 Hx0]]]]]; apply H1; auto.
        { destruct Hf0 as [t Ht]. apply located_get in Ht. congruence. } right. exists c0, x0. auto.
      * intros H. apply H2. intros [H' | [c0 [x0 [H' H'']]]]; apply H; auto. right. exists c0, x0. split; auto. right. auto.
    + pose proof (dofs_ok t c (snd c) D E HD Hin (fun z Hz => Hz) Hx HE) as H0.
      destruct (IH (fun r => D r \/ In r (map fst (snd c))) (fold_left (dof_step t) (snd c) E)) as [E' [-> HE']]; auto.
      { intros r. destruct (HD r); [left; left; auto |]. destruct (in_dec Nat.eq_dec r (map fst (snd c))); [left; right; auto | right; tauto]. }
      exists E'. split; [reflexivity |].
      intros c' r x s j Hc' Hr Hs. destruct (HE' c' r x s j Hc' Hr Hs) as [H1 H2]. split.
      * intros [H | [c0 [x0 [[<- | Hc0] [Hf0 Hx0]]]]]; apply H1; auto.
        { left. right. apply in_map_iff. exists (r, x0). auto. } right. exists c0, x0. auto.
      * intros H. apply H2. intros [[H' | H'] | [c0 [x0 [H' H'']]]]; apply H; auto.
        { apply in_map_iff in H'. destruct H' as [[r' x'] [Er Hr']]. cbn in Er. subst r'. right. exists c, x'. split; [left; auto |]. split; [exists t; apply located_get; auto | auto]. }
        right. exists c0, x0. split; auto. right. auto.
Qed.
End Proofs.
