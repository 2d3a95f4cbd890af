(** Specification vocabulary and proofs for MeasureModel.v *)
From Coq Require Import Lia Reals.
From Verif Require Import Base BaseProofs FillModel FillProofs EmbedModel ShapeModel ShapeProofs MeasureModel.
Local Open Scope nat_scope.

(** [c] is the first of the cells that has the dof *)
Definition first_with (cells : list line_cell) (dof : nat) (c : line_cell) : Prop :=
  exists before after, cells = before ++ c :: after /\ In dof (l_dofs c) /\ forall c', In c' before -> ~ In dof (l_dofs c').
(** What the value should be: the sum of the weights of the shape with centre at the dof and
    the direction of the cell *)
Definition measure_on (quadrature : v3 -> v3 -> res (list v3 * list R)) (coordinates : nat -> v3) (c : line_cell) (dof : nat) (v : R) : Prop :=
  exists points weights, quadrature (coordinates dof) (vminus (l_v0 c) (l_v1 c)) = Ok (points, weights) /\ v = rlsum weights.

Section Proofs.
Variable quadrature : v3 -> v3 -> res (list v3 * list R).
Variable dim : nat.
Variable coordinates : nat -> v3.
Definition st_ok (D : nat -> Prop) (V : nat -> R -> Prop) (st : mstate) : Prop :=
  length (fst st) = dim /\ length (snd st) = dim /\
  forall i, i < dim -> (D i -> nth i (fst st) false = true /\ exists v, nth i (snd st) None = Some v /\ V i v) /\ (~ D i -> nth i (fst st) false = false).

Lemma rlsum_fold l a : fold_left Rplus l a = (a + rlsum l)%R.
Proof. revert a. induction l as [| x l IH]; intros a; cbn [fold_left rlsum]; [ring |]. rewrite IH. ring. Qed.

Lemma dof_ok D V st n dof : (forall i, D i \/ ~ D i) -> st_ok D V st -> dof < dim ->
  (forall x, exists q, quadrature x n = Ok q) ->
  exists st', measure_dof quadrature coordinates n st dof = Ok st' /\
    st_ok (fun i => D i \/ i = dof) (fun i v => (D i /\ V i v) \/ (~ D i /\ exists p w, quadrature (coordinates i) n = Ok (p, w) /\ v = rlsum w)) st'.
Proof.
  intros HD [L1 [L2 H]] Hlt Hq. unfold measure_dof. rewrite (nth_error_nth' _ false) by lia. cbn [opt_res bind].
  destruct (H dof Hlt) as [H1 H2]. destruct (HD dof) as [Hd | Hd].
  - rewrite (proj1 (H1 Hd)). exists st. split; [reflexivity |]. split; auto. split; auto. intros i Hi. destruct (H i Hi) as [A B]. split.
    + intros Hor. assert (Di : D i) by (destruct Hor as [Hor | ->]; auto). destruct (A Di) as [A1 [v [A2 A3]]]. split; auto. exists v. split; auto.
    + intros Hn. apply B. tauto.
  - rewrite (H2 Hd). destruct (Hq (coordinates dof)) as [[p w] E]. rewrite E. cbn [bind snd]. eexists. split; [reflexivity |].
    split. { cbn [fst]. rewrite set_nth_length. auto. } split. { cbn [snd]. rewrite set_nth_length. auto. }
    intros i Hi. cbn [fst snd]. rewrite !nth_set_nth, L1, L2. assert (Hlt' : dof <? dim = true) by (apply Nat.ltb_lt; auto). rewrite Hlt', !andb_true_r.
    destruct (Nat.eqb_spec i dof) as [-> | Hne].
    + split; [intros _ | intros Hn; exfalso; apply Hn; right; reflexivity]. split; auto. eexists. split; [reflexivity |]. right. split; auto.
      exists p, w. split; auto. rewrite rlsum_fold. ring.
    + destruct (H i Hi) as [A B]. split.
      * intros [Di | Di]; [| congruence]. destruct (A Di) as [A1 [v [A2 A3]]]. split; auto. exists v. auto.
      * intros Hn. apply B. tauto.
Qed.
Lemma dofs_ok n ds : forall D V st, (forall i, D i \/ ~ D i) -> st_ok D V st -> (forall d, In d ds -> d < dim) ->
  (forall x, exists q, quadrature x n = Ok q) ->
  exists st', foldM (measure_dof quadrature coordinates n) ds st = Ok st' /\
    st_ok (fun i => D i \/ In i ds) (fun i v => (D i /\ V i v) \/ (~ D i /\ exists p w, quadrature (coordinates i) n = Ok (p, w) /\ v = rlsum w)) st'.
Proof.
  induction ds as [| d ds IH]; intros D V st HD Hst Hlt Hq; cbn [foldM].
  - exists st. split; [reflexivity |]. destruct Hst as [L1 [L2 H]]. split; auto. split; auto. intros i Hi. destruct (H i Hi) as [A B]. split.
    + intros [Di | []]. destruct (A Di) as [A1 [v [A2 A3]]]. split; auto. exists v. auto.
    + intros Hn. apply B. tauto.
  - destruct (dof_ok D V st n d HD Hst) as [st1 [-> H1]]; auto. { apply Hlt. left. auto. } cbn [bind].
    assert (HD1 : forall i, (D i \/ i = d) \/ ~ (D i \/ i = d)) by (intros i; destruct (HD i), (Nat.eq_dec i d); tauto).
    destruct (IH (fun i => D i \/ i = d) _ st1 HD1 H1) as [st2 [-> [L1 [L2 H2]]]]; auto. { intros d' Hd'. apply Hlt. right. auto. }
    exists st2. split; [reflexivity |]. split; auto. split; auto. intros i Hi. destruct (H2 i Hi) as [A B]. split.
    + intros Hor. assert (Hor' : (D i \/ i = d) \/ In i ds) by (cbn [In] in Hor; intuition). destruct (A Hor') as [A1 [v [A2 A3]]]. split; auto. exists v. split; auto. tauto.
    + intros Hn. apply B. cbn [In] in Hn. intros Hor. apply Hn. intuition.
Qed.

(** cells [done] have been visited *)
Definition D_of (done : list line_cell) (i : nat) : Prop := exists c, In c done /\ In i (l_dofs c).
Definition V_of (done : list line_cell) (i : nat) (v : R) : Prop := exists c, first_with done i c /\ measure_on quadrature coordinates c i v.
Lemma D_of_dec done i : D_of done i \/ ~ D_of done i.
Proof.
  induction done as [| c done IH]. { right. intros [c [[] _]]. }
  destruct IH as [[c' [H1 H2]] | H]. { left. exists c'. split; [right; auto | auto]. }
  destruct (in_dec Nat.eq_dec i (l_dofs c)) as [Hi | Hi]. { left. exists c. split; [left; auto | auto]. }
  right. intros [c' [[<- | H1] H2]]; auto. apply H. exists c'. auto.
Qed.
Lemma cells_ok cells : forall done st, st_ok (D_of done) (V_of done) st ->
  (forall c d, In c cells -> In d (l_dofs c) -> d < dim) ->
  (forall c x, In c cells -> exists q, quadrature x (vminus (l_v0 c) (l_v1 c)) = Ok q) ->
  exists st', foldM (measure_cell quadrature coordinates) cells st = Ok st' /\ st_ok (D_of (done ++ cells)) (V_of (done ++ cells)) st'.
Proof.
  induction cells as [| c cells IH]; intros done st Hst Hlt Hq; cbn [foldM].
  - exists st. rewrite app_nil_r. auto.
  - unfold measure_cell at 1. destruct (dofs_ok (vminus (l_v0 c) (l_v1 c)) (l_dofs c) _ _ st (D_of_dec done) Hst) as [st1 [-> [L1 [L2 H1]]]].
    { intros d Hd. apply (Hlt c); auto. left. auto. } { intros x. apply Hq. left. auto. } cbn [bind].
    destruct (IH (done ++ [c]) st1) as [st2 [-> H2]].
    { split; auto. split; auto. intros i Hi. destruct (H1 i Hi) as [A B]. split.
      - intros [c' [Hc' Hi']]. assert (Hor : D_of done i \/ In i (l_dofs c)).
        { apply in_app_or in Hc'. destruct Hc' as [Hc' | [<- | []]]; [left; exists c'; auto | right; auto]. }
        destruct (A Hor) as [A1 [v [A2 A3]]]. split; auto. exists v. split; auto. destruct A3 as [[Hd [c0 [[b [a [Eb [Hin Hno]]]] Hm]]] | [Hd Hm]].
        + exists c0. split; auto. exists b, (a ++ [c]). split; auto. rewrite Eb, <- app_assoc. reflexivity.
        + exists c. split; [| exact Hm]. exists done, []. split; auto. split. { destruct Hor; [contradiction | auto]. } intros c'' Hc'' Hi''. apply Hd. exists c''. auto.
      - intros Hn. apply B. intros [[c' [Hc' Hi']] | Hor]; apply Hn; [exists c' | exists c]; (split; [apply in_or_app | auto]); [left; auto | right; left; auto]. }
    { intros c' d Hc'. apply Hlt. right. auto. } { intros c' x Hc'. apply Hq. right. auto. }
    exists st2. rewrite <- app_assoc in H2. auto.
Qed.
Lemma measure_ok cells : (forall c d, In c cells -> In d (l_dofs c) -> d < dim) ->
  (forall c x, In c cells -> exists q, quadrature x (vminus (l_v0 c) (l_v1 c)) = Ok q) ->
  (forall i, i < dim -> exists c, In c cells /\ In i (l_dofs c)) ->
  exists values, MeasureFunction quadrature dim coordinates cells = Ok values /\ length values = dim /\
    forall i, i < dim -> exists c v, first_with cells i c /\ measure_on quadrature coordinates c i v /\ nth_error values i = Some (Some v).
Proof.
  intros Hlt Hq Hcov. unfold MeasureFunction. destruct (cells_ok cells [] (repeat false dim, repeat None dim)) as [st [-> [L1 [L2 H]]]]; auto.
  { split; [apply repeat_length |]. split; [apply repeat_length |]. intros i Hi. split. { intros [c [[] _]]. } intros _. cbn [fst]. apply nth_repeat. }
  cbn [bind app] in *. replace (forallb (fun b => b) (fst st)) with true.
  - cbn. exists (snd st). split; [reflexivity |]. split; auto. intros i Hi. destruct (H i Hi) as [A _]. destruct (A (Hcov i Hi)) as [_ [v [Hv [c [Hc Hm]]]]].
    exists c, v. split; auto. split; auto. rewrite (nth_error_nth' _ None) by lia. congruence.
  - symmetry. apply forallb_forall. intros b Hb. apply (In_nth _ _ false) in Hb. destruct Hb as [i [Hi <-]]. rewrite L1 in Hi. destruct (H i Hi) as [A _]. apply A, Hcov, Hi.
Qed.
End Proofs.
