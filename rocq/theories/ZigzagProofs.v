(** Spec vocabulary and lemmas for the curve on the cube. *)
From Coq Require Import List QArith Qabs Bool Lia Lqa.
From Verif Require Import Base ZigzagModel.
Local Open Scope Q_scope.

(** * Spec *)
Definition same_point (p q : point) : Prop := x0 p == x0 q /\ x1 p == x1 q /\ x2 p == x2 q.
Definition on_segment (s : point * point) (p : point) : Prop :=
  exists r, 0 <= r <= 1 /\ x0 p == x0 (fst s) + r * (x0 (snd s) - x0 (fst s)) /\ x1 p == x1 (fst s) + r * (x1 (snd s) - x1 (fst s)) /\ x2 p == x2 (fst s) + r * (x2 (snd s) - x2 (fst s)).
(** the corners of the closed curve in their order *)
Definition corners (A : Q) : list point :=
  [((-A, -A), A); ((-A, -A), -A); ((-A, A), -A); ((-A, A), A); ((A, A), A); ((A, -A), -A)].
(** the sides of a closed polygon *)
Fixpoint sides_from (first : point) (l : list point) : list (point * point) :=
  match l with [] => [] | [p] => [(p, first)] | p :: ((q :: _) as l') => (p, q) :: sides_from first l' end.
Definition polygon (l : list point) : list (point * point) := match l with [] => [] | p :: _ => sides_from p l end.
Definition zigzag (A : Q) : list (point * point) := polygon (corners A).
(** the sides of the curve in the face with a tag *)
Definition piece (A : Q) (tag : nat) : list (point * point) :=
  match tag, zigzag A with
  | 1%nat, [a; b; c; d; e; f] => [a; b; c]
  | 4%nat, [a; b; c; d; e; f] => [d]
  | 2%nat, [a; b; c; d; e; f] => [e]
  | 3%nat, [a; b; c; d; e; f] => [f]
  | _, _ => []
  end.
Definition within (tol : Q) (p q : point) : Prop := Qabs (x0 p - x0 q) <= tol /\ Qabs (x1 p - x1 q) <= tol /\ Qabs (x2 p - x2 q) <= tol.
(** the vertices of the edges of a cell are in its face *)
Definition on_cube (m : surface) (A : Q) : Prop :=
  forall t js j e, In (t, js) (cells m) -> In j js -> nth_error (edges m) j = Some e -> on_face A t (fst e) /\ on_face A t (snd e).
(** an edge lies in a side of the curve *)
Definition lies_on (s e : point * point) : Prop := on_segment s (fst e) /\ on_segment s (snd e).
(** no edge crosses the diagonals: it is on one side *)
Definition fitted (m : surface) : Prop :=
  forall t js j e, In (t, js) (cells m) -> In j js -> nth_error (edges m) j = Some e ->
  (t = 2%nat -> (x2 (fst e) <= x1 (fst e) /\ x2 (snd e) <= x1 (snd e)) \/ (x1 (fst e) <= x2 (fst e) /\ x1 (snd e) <= x2 (snd e))) /\
  (t = 3%nat -> (x2 (fst e) <= - x0 (fst e) /\ x2 (snd e) <= - x0 (snd e)) \/ (- x0 (fst e) <= x2 (fst e) /\ - x0 (snd e) <= x2 (snd e))).
(** the tolerance is below the size of the mesh: what is zero up to it is zero *)
Definition resolved (m : surface) (A tol : Q) : Prop :=
  forall t js j e, In (t, js) (cells m) -> In j js -> nth_error (edges m) j = Some e ->
  let p := midpoint e in
  forall v, In v [x0 p + A; x1 p - A; x1 p + A; x2 p + A; x2 p - A; x2 p + x0 p; x2 p - x1 p] -> Qabs v <= tol -> v == 0.

(** * Conditions *)
Lemma near_spec A tol a b p : cond_val A tol (Near a b) p = true <-> Qabs (term_val A a p - term_val A b p) <= tol.
Proof.
  cbn [cond_val]. rewrite andb_true_iff, !Qle_bool_iff, Qabs_Qle_condition. split; intros [H K]; split; lra.
Qed.
Lemma and_spec A tol c d p : cond_val A tol (And c d) p = true <-> cond_val A tol c p = true /\ cond_val A tol d p = true.
Proof. cbn. apply andb_true_iff. Qed.
(** what is asked of a point for a tag *)
Definition holds (A tol : Q) (t : nat) (p : point) : Prop :=
  match t with
  | 1%nat => (Qabs (x0 p - - A) <= tol /\ Qabs (x2 p - - A) <= tol) \/ (Qabs (x1 p - A) <= tol /\ Qabs (x0 p - - A) <= tol) \/ (Qabs (x1 p - - A) <= tol /\ Qabs (x0 p - - A) <= tol)
  | 2%nat => Qabs (x2 p - x1 p) <= tol
  | 3%nat => Qabs (x2 p - - x0 p) <= tol
  | 4%nat => Qabs (x1 p - A) <= tol /\ Qabs (x2 p - A) <= tol
  | _ => False
  end.
Definition compiled : list (nat * list cond) :=
  [(4, [And (Near (X 1) PlusA) (Near (X 2) PlusA)]); (3, [Near (X 2) (MinusX 0)]); (2, [Near (X 2) (X 1)]);
   (1, [And (Near (X 0) MinusA) (Near (X 2) MinusA); And (Near (X 1) PlusA) (Near (X 0) MinusA); And (Near (X 1) MinusA) (Near (X 0) MinusA)])]%nat.
Lemma lines_compile : mapM (fun td => do cs <- union (snd td); Ok (fst td, cs)) lines = Ok compiled.
Proof. reflexivity. Qed.
Lemma compiled_holds A tol t p : (exists cs, In (t, cs) compiled /\ inside A tol cs p = true) <-> holds A tol t p.
Proof.
  unfold inside. split.
  - intros [cs [I H]]. apply existsb_exists in H. destruct H as [c [J H]].
    cbn [In compiled] in I. destruct I as [I | [I | [I | [I | []]]]]; injection I as <- <-; cbn [In] in J; unfold holds.
    + destruct J as [<- | []]. rewrite and_spec, !near_spec in H. exact H.
    + destruct J as [<- | []]. rewrite near_spec in H. exact H.
    + destruct J as [<- | []]. rewrite near_spec in H. exact H.
    + destruct J as [<- | [<- | [<- | []]]]; rewrite and_spec, !near_spec in H; cbn [term_val coord] in H; tauto.
  - intros H. destruct t as [| [| [| [| [| t]]]]]; cbn [holds] in H; try tauto.
    + eexists. split; [cbn; do 3 right; left; reflexivity |]. cbn [existsb]. rewrite !orb_true_iff, !and_spec, !near_spec. cbn [term_val coord]. tauto.
    + eexists. split; [cbn; do 2 right; left; reflexivity |]. cbn [existsb]. rewrite orb_true_iff, near_spec. cbn [term_val coord]. tauto.
    + eexists. split; [cbn; right; left; reflexivity |]. cbn [existsb]. rewrite orb_true_iff, near_spec. cbn [term_val coord]. tauto.
    + eexists. split; [cbn; left; reflexivity |]. cbn [existsb]. rewrite orb_true_iff, and_spec, !near_spec. cbn [term_val coord]. tauto.
Qed.

(** * Marks *)
Lemma set_nth_length l : forall i v, length (set_nth l i v) = length l.
Proof. induction l; intros [| i] v; cbn; auto. Qed.
Lemma set_nth_get l : forall i v j, nth_error (set_nth l i v) j = if Nat.eqb i j then (match nth_error l j with Some _ => Some v | None => None end) else nth_error l j.
Proof.
  induction l as [| a l IH]; intros [| i] v [| j]; cbn; try reflexivity; [now destruct (Nat.eqb i j) | apply IH].
Qed.
Lemma mark_line_spec m A tol cs fs : forall f, length f = length (edges m) ->
  length (mark_line m A tol cs f fs) = length (edges m) /\
  forall j, nth_error (mark_line m A tol cs f fs) j = Some 1%nat <->
    nth_error f j = Some 1%nat \/ (In j fs /\ exists e, nth_error (edges m) j = Some e /\ inside A tol cs (midpoint e) = true).
Proof.
  unfold mark_line. induction fs as [| k fs IH]; intros f L; cbn [fold_left].
  - split; [exact L |]. intros j. cbn. tauto.
  - set (f1 := match nth_error (edges m) k with Some e => if inside A tol cs (midpoint e) then set_nth f k 1%nat else f | None => f end).
    assert (length f1 = length (edges m)) as L1. { unfold f1. destruct (nth_error (edges m) k); [| exact L]. destruct (inside _ _ _ _); [now rewrite set_nth_length | exact L]. }
    destruct (IH f1 L1) as [L2 H]. split; [exact L2 |]. intros j. rewrite H. cbn [In].
    assert (nth_error f1 j = Some 1%nat <-> nth_error f j = Some 1%nat \/ (k = j /\ exists e, nth_error (edges m) j = Some e /\ inside A tol cs (midpoint e) = true)) as E.
    { unfold f1. destruct (nth_error (edges m) k) as [e |] eqn:K.
      - destruct (inside A tol cs (midpoint e)) eqn:I.
        + rewrite set_nth_get. destruct (Nat.eqb_spec k j) as [<- | N].
          * assert (exists v, nth_error f k = Some v) as [v V].
            { destruct (nth_error f k) eqn:Z; [eauto |]. apply nth_error_None in Z. assert (k < length (edges m))%nat by (apply nth_error_Some; congruence). lia. }
            rewrite V. split; [intros _; right; eauto | reflexivity].
          * split; [now left |]. intros [Z | [-> _]]; [exact Z | congruence].
        + split; [now left |]. intros [Z | [-> [e' [E' I']]]]; [exact Z |]. congruence.
      - split; [now left |]. intros [Z | [-> [e' [E' I']]]]; [exact Z |]. congruence. }
    rewrite E. intuition.
Qed.
Lemma mark_lines_spec m A tol ls : forall f, length f = length (edges m) ->
  let g := fold_left (fun f tl => mark_line m A tol (snd tl) f (candidates m (fst tl))) ls f in
  forall j, nth_error g j = Some 1%nat <->
    nth_error f j = Some 1%nat \/ exists t cs, In (t, cs) ls /\ In j (candidates m t) /\ exists e, nth_error (edges m) j = Some e /\ inside A tol cs (midpoint e) = true.
Proof.
  induction ls as [| [t cs] ls IH]; intros f L; cbn [fold_left fst snd].
  - cbv zeta. intros j. split; [now left |]. intros [H | [t [cs [[] _]]]]. exact H.
  - destruct (mark_line_spec m A tol cs (candidates m t) f L) as [L1 H1]. specialize (IH _ L1). cbv zeta in *. intros j. rewrite IH, H1. split.
    + intros [[H | [H K]] | [t' [cs' [I H]]]]; [now left | |].
      * right. exists t, cs. split; [now left |]. auto.
      * right. exists t', cs'. split; [now right |]. auto.
    + intros [H | [t' [cs' [[E | I] H]]]]; [tauto | |].
      * injection E as -> ->. left. right. exact H.
      * right. eauto.
Qed.
Lemma candidates_spec m t j : In j (candidates m t) <-> exists js, In (t, js) (cells m) /\ In j js.
Proof.
  unfold candidates. rewrite in_flat_map. split.
  - intros [[t' js] [I J]]. apply filter_In in I. destruct I as [I E]. apply Nat.eqb_eq in E. cbn in *. subst. eauto.
  - intros [js [I J]]. exists (t, js). split; [| exact J]. apply filter_In. split; [exact I | apply Nat.eqb_refl].
Qed.
Lemma boring_spec m A tol : exists f, boring m A tol = Ok f /\ forall j, nth_error f j = Some 1%nat <->
  exists t js e, In (t, js) (cells m) /\ In j js /\ nth_error (edges m) j = Some e /\ holds A tol t (midpoint e).
Proof.
  unfold boring. rewrite lines_compile. cbn [bind]. eexists. split; [reflexivity |]. intros j.
  rewrite (mark_lines_spec m A tol compiled (repeat 0%nat (length (edges m)))) by apply repeat_length. split.
  - intros [H | [t [cs [I [C [e [E H]]]]]]].
    + apply nth_error_In in H. apply repeat_spec in H. discriminate.
    + apply candidates_spec in C. destruct C as [js [C J]]. exists t, js, e. repeat split; auto. apply compiled_holds. eauto.
  - intros [t [js [e [C [J [E H]]]]]]. apply compiled_holds in H. destruct H as [cs [I H]]. right. exists t, cs. split; [exact I |]. split; [apply candidates_spec; eauto |]. eauto.
Qed.

(** * The sides *)
Lemma par A v : 0 < A -> - A <= v <= A -> exists r, 0 <= r <= 1 /\ v == - A + r * (A - - A).
Proof.
  intros P [L U]. exists ((v + A) / (2 * A)). assert (0 < 2 * A) as P2 by lra. split; [split |].
  - apply Qle_shift_div_l; [exact P2 | lra].
  - apply Qle_shift_div_r; [exact P2 | lra].
  - field. lra.
Qed.
Lemma bounds r A : 0 < A -> 0 <= r <= 1 -> 0 <= r * A <= A.
Proof. intros P [L U]. split; [apply Qmult_le_0_compat; lra |]. rewrite <- (Qmult_1_l A) at 2. apply Qmult_le_r; assumption. Qed.
Ltac side A P v :=
  split;
  [ let r := fresh "r" in intros [r [R [E0 [E1 E2]]]]; pose proof (bounds r A P R); unfold x0, x1, x2 in *; cbn [fst snd] in *; repeat split; lra
  | intros [F1 [F2 F3]] ].
Definition side_a A p := x0 p == - A /\ x1 p == - A /\ - A <= x2 p <= A.
Definition side_b A p := x0 p == - A /\ x2 p == - A /\ - A <= x1 p <= A.
Definition side_c A p := x0 p == - A /\ x1 p == A /\ - A <= x2 p <= A.
Definition side_d A p := x1 p == A /\ x2 p == A /\ - A <= x0 p <= A.
Definition side_e A p := x0 p == A /\ x2 p == x1 p /\ - A <= x1 p <= A.
Definition side_f A p := x1 p == - A /\ x2 p == - x0 p /\ - A <= x0 p <= A.
Lemma up A p (a b : point) v : 0 < A -> - A <= v <= A ->
  (forall r, 0 <= r <= 1 -> v == - A + r * (A - - A) -> x0 p == x0 a + r * (x0 b - x0 a) /\ x1 p == x1 a + r * (x1 b - x1 a) /\ x2 p == x2 a + r * (x2 b - x2 a)) ->
  on_segment (a, b) p.
Proof. intros P V H. destruct (par A v P V) as [r [R E]]. exists r. split; [exact R |]. now apply H. Qed.
Lemma on_a A p : 0 < A -> on_segment (((-A, -A), A), ((-A, -A), -A)) p <-> side_a A p.
Proof.
  intros P. destruct p as [[u v] w]. unfold side_a. side A P w. apply (up A _ _ _ (- w) P); [unfold x2 in *; cbn in *; lra |].
  intros r R E. unfold x0, x1, x2 in *. cbn [fst snd] in *. repeat split; lra.
Qed.
Lemma on_b A p : 0 < A -> on_segment (((-A, -A), -A), ((-A, A), -A)) p <-> side_b A p.
Proof.
  intros P. destruct p as [[u v] w]. unfold side_b. side A P v. apply (up A _ _ _ v P); [unfold x1 in *; cbn in *; lra |].
  intros r R E. unfold x0, x1, x2 in *. cbn [fst snd] in *. repeat split; lra.
Qed.
Lemma on_c A p : 0 < A -> on_segment (((-A, A), -A), ((-A, A), A)) p <-> side_c A p.
Proof.
  intros P. destruct p as [[u v] w]. unfold side_c. side A P w. apply (up A _ _ _ w P); [unfold x2 in *; cbn in *; lra |].
  intros r R E. unfold x0, x1, x2 in *. cbn [fst snd] in *. repeat split; lra.
Qed.
Lemma on_d A p : 0 < A -> on_segment (((-A, A), A), ((A, A), A)) p <-> side_d A p.
Proof.
  intros P. destruct p as [[u v] w]. unfold side_d. side A P u. apply (up A _ _ _ u P); [unfold x0 in *; cbn in *; lra |].
  intros r R E. unfold x0, x1, x2 in *. cbn [fst snd] in *. repeat split; lra.
Qed.
Lemma on_e A p : 0 < A -> on_segment (((A, A), A), ((A, -A), -A)) p <-> side_e A p.
Proof.
  intros P. destruct p as [[u v] w]. unfold side_e. side A P u. apply (up A _ _ _ (- v) P); [unfold x1 in *; cbn in *; lra |].
  intros r R E. unfold x0, x1, x2 in *. cbn [fst snd] in *. repeat split; lra.
Qed.
Lemma on_f A p : 0 < A -> on_segment (((A, -A), -A), ((-A, -A), A)) p <-> side_f A p.
Proof.
  intros P. destruct p as [[u v] w]. unfold side_f. side A P u. apply (up A _ _ _ (- u) P); [unfold x0 in *; cbn in *; lra |].
  intros r R E. unfold x0, x1, x2 in *. cbn [fst snd] in *. repeat split; lra.
Qed.
Lemma segment_sym a b p : on_segment (a, b) p <-> on_segment (b, a) p.
Proof.
  assert (forall a b, on_segment (a, b) p -> on_segment (b, a) p) as H; [| split; apply H].
  intros c d [r [R [E0 [E1 E2]]]]. exists (1 - r). cbn [fst snd] in *. repeat split; lra.
Qed.
Lemma zigzag_eq A : zigzag A = [(((-A, -A), A), ((-A, -A), -A)); (((-A, -A), -A), ((-A, A), -A)); (((-A, A), -A), ((-A, A), A));
  (((-A, A), A), ((A, A), A)); (((A, A), A), ((A, -A), -A)); (((A, -A), -A), ((-A, -A), A))].
Proof. reflexivity. Qed.
(** on a side of the face with a tag *)
Definition on_piece (A : Q) (t : nat) (p : point) : Prop :=
  match t with 1%nat => side_a A p \/ side_b A p \/ side_c A p | 2%nat => side_e A p | 3%nat => side_f A p | 4%nat => side_d A p | _ => False end.
Lemma on_piece_spec A t p : 0 < A -> (exists s, In s (piece A t) /\ on_segment s p) <-> on_piece A t p.
Proof.
  intros P. unfold piece. rewrite zigzag_eq.
  destruct t as [| [| [| [| [| t]]]]]; cbn [on_piece In]; try (split; [intros [s [[] _]] | tauto]).
  - split.
    + intros [s [[<- | [<- | [<- | []]]] H]]; [apply on_a in H | apply on_b in H | apply on_c in H]; tauto.
    + intros [H | [H | H]]; [apply on_a in H | apply on_b in H | apply on_c in H]; eauto 6.
  - split; [intros [s [[<- | []] H]]; now apply on_e in H | intros H; apply on_e in H; eauto].
  - split; [intros [s [[<- | []] H]]; now apply on_f in H | intros H; apply on_f in H; eauto].
  - split; [intros [s [[<- | []] H]]; now apply on_d in H | intros H; apply on_d in H; eauto].
Qed.
Lemma mid_face A t e : on_face A t (fst e) -> on_face A t (snd e) -> on_face A t (midpoint e).
Proof.
  destruct e as [[[u v] w] [[u' v'] w']]. unfold on_face, midpoint, x0, x1, x2. cbn [fst snd].
  assert (forall a b, (a + b) / 2 == (a + b) * (1 # 2)) as H by (intros; unfold Qdiv; reflexivity).
  generalize ((u + u') / 2) (H u u') ((v + v') / 2) (H v v') ((w + w') / 2) (H w w'). intros a Ea b Eb c Ec.
  intros [F [? [? ?]]] [F' [? [? ?]]]. split; [| repeat split; lra]. destruct t as [| [| [| [| [| [| [| t]]]]]]]; try tauto; lra.
Qed.
Lemma Qabs_0 a tol : 0 <= tol -> a == 0 -> Qabs a <= tol.
Proof. intros T E. now rewrite E. Qed.
(** near the piece *)
Lemma holds_near A tol t p : 0 < A -> 0 <= tol -> on_face A t p -> holds A tol t p -> exists q, on_piece A t q /\ within tol p q.
Proof.
  intros P T F H. destruct p as [[u v] w]. unfold on_face, holds, on_piece, side_a, side_b, side_c, side_d, side_e, side_f, within, x0, x1, x2 in *. cbn [fst snd] in *.
  destruct t as [| [| [| [| [| t]]]]]; try tauto; destruct F as [F [F0 [F1 F2]]].
  - destruct H as [[H H'] | [[H H'] | [H H']]].
    + exists ((- A, v), - A). cbn [fst snd]. split; [right; left; repeat split; lra |]. split; [exact H |]. split; [apply Qabs_0; lra | exact H'].
    + exists ((- A, A), w). cbn [fst snd]. split; [right; right; repeat split; lra |]. split; [exact H' |]. split; [exact H | apply Qabs_0; lra].
    + exists ((- A, - A), w). cbn [fst snd]. split; [left; repeat split; lra |]. split; [exact H' |]. split; [exact H | apply Qabs_0; lra].
  - exists ((A, v), v). cbn [fst snd]. split; [repeat split; lra |]. repeat split; [apply Qabs_0; lra | apply Qabs_0; lra | exact H].
  - exists ((u, - A), - u). cbn [fst snd]. split; [repeat split; lra |]. repeat split; [apply Qabs_0; lra | apply Qabs_0; lra | exact H].
  - destruct H as [H H']. exists ((u, A), A). cbn [fst snd]. split; [repeat split; lra |]. repeat split; [apply Qabs_0; lra | exact H | exact H'].
Qed.
Lemma holds_on A tol t p : 0 <= tol -> on_piece A t p -> holds A tol t p.
Proof.
  intros T. destruct t as [| [| [| [| [| t]]]]]; cbn [on_piece holds]; try tauto; unfold side_a, side_b, side_c, side_d, side_e, side_f.
  - intros [H | [H | H]]; [right; right | left | right; left]; split; apply Qabs_0; lra.
  - intros H. apply Qabs_0; lra.
  - intros H. apply Qabs_0; lra.
  - intros H. split; apply Qabs_0; lra.
Qed.
(** both ends on one side of the curve *)
Definition edge_on (A : Q) (t : nat) (e : point * point) : Prop := exists s, In s (piece A t) /\ lies_on s e.
Lemma edge_mid A t e : 0 < A -> edge_on A t e -> on_piece A t (midpoint e).
Proof.
  intros P [s [I [S1 S2]]]. apply on_piece_spec; [exact P |]. exists s. split; [exact I |].
  destruct S1 as [r1 [R1 [A0 [A1 A2]]]]. destruct S2 as [r2 [R2 [B0 [B1 B2]]]]. exists ((r1 + r2) * (1 # 2)).
  destruct e as [[[u v] w] [[u' v'] w']]. unfold midpoint, x0, x1, x2 in *. cbn [fst snd] in *.
  assert (forall a b, (a + b) / 2 == (a + b) * (1 # 2)) as H by (intros; unfold Qdiv; reflexivity).
  generalize ((u + u') / 2) (H u u') ((v + v') / 2) (H v v') ((w + w') / 2) (H w w'). intros a Ea b Eb c Ec.
  repeat split; lra.
Qed.
Lemma holds_edge A tol t e : 0 < A -> on_face A t (fst e) -> on_face A t (snd e) ->
  (t = 2%nat -> (x2 (fst e) <= x1 (fst e) /\ x2 (snd e) <= x1 (snd e)) \/ (x1 (fst e) <= x2 (fst e) /\ x1 (snd e) <= x2 (snd e))) ->
  (t = 3%nat -> (x2 (fst e) <= - x0 (fst e) /\ x2 (snd e) <= - x0 (snd e)) \/ (- x0 (fst e) <= x2 (fst e) /\ - x0 (snd e) <= x2 (snd e))) ->
  (forall v, In v (let p := midpoint e in [x0 p + A; x1 p - A; x1 p + A; x2 p + A; x2 p - A; x2 p + x0 p; x2 p - x1 p]) -> Qabs v <= tol -> v == 0) ->
  holds A tol t (midpoint e) -> edge_on A t e.
Proof.
  intros P F G D2 D3 Z H. unfold edge_on, lies_on, piece. rewrite zigzag_eq. cbv zeta in Z.
  set (p := midpoint e) in *.
  assert (Z' : forall v w, In v [x0 p + A; x1 p - A; x1 p + A; x2 p + A; x2 p - A; x2 p + x0 p; x2 p - x1 p] -> w == v -> Qabs w <= tol -> w == 0).
  { intros v w I E L. rewrite E in L |- *. now apply Z. }
  clear Z.
  assert (x0 p == (x0 (fst e) + x0 (snd e)) * (1 # 2) /\ x1 p == (x1 (fst e) + x1 (snd e)) * (1 # 2) /\ x2 p == (x2 (fst e) + x2 (snd e)) * (1 # 2)) as [M0 [M1 M2]] by (repeat split; reflexivity).
  clearbody p. unfold on_face in F, G.
  destruct t as [| [| [| [| [| t]]]]]; cbn [holds] in H; try tauto; destruct F as [F [F0 [F1 F2]]]; destruct G as [G [G0 [G1 G2]]].
  - destruct H as [[_ H] | [[H _] | [H _]]].
    + assert (x2 p - - A == 0) as E by (apply (Z' (x2 p + A)); [cbn; tauto | ring | exact H]).
      eexists. split; [cbn; right; left; reflexivity |]. rewrite !on_b by exact P. unfold side_b. repeat split; lra.
    + assert (x1 p - A == 0) as E by (apply (Z' (x1 p - A)); [cbn; tauto | ring | exact H]).
      eexists. split; [cbn; right; right; left; reflexivity |]. rewrite !on_c by exact P. unfold side_c. repeat split; lra.
    + assert (x1 p - - A == 0) as E by (apply (Z' (x1 p + A)); [cbn; tauto | ring | exact H]).
      eexists. split; [cbn; left; reflexivity |]. rewrite !on_a by exact P. unfold side_a. repeat split; lra.
  - assert (x2 p - x1 p == 0) as E by (apply (Z' (x2 p - x1 p)); [cbn; tauto | ring | exact H]).
    eexists. split; [cbn; left; reflexivity |]. rewrite !on_e by exact P. unfold side_e. destruct (D2 eq_refl) as [[? ?] | [? ?]]; repeat split; lra.
  - assert (x2 p - - x0 p == 0) as E by (apply (Z' (x2 p + x0 p)); [cbn; tauto | ring | exact H]).
    eexists. split; [cbn; left; reflexivity |]. rewrite !on_f by exact P. unfold side_f. destruct (D3 eq_refl) as [[? ?] | [? ?]]; repeat split; lra.
  - destruct H as [_ H]. assert (x2 p - A == 0) as E by (apply (Z' (x2 p - A)); [cbn; tauto | ring | exact H]).
    eexists. split; [cbn; left; reflexivity |]. rewrite !on_d by exact P. unfold side_d. repeat split; lra.
Qed.
