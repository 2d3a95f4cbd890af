(** C127: [boring] marks the closed curve of domain.geo on the cube. *)
From Coq Require Import List QArith Qabs Bool Lia Lqa.
From Verif Require Import Base ZigzagModel ZigzagProofs.
Local Open Scope Q_scope.

(** Every marked edge has its midpoint within the tolerance of the curve, in the face of a cell with the edge; edges that
    lie on the curve are marked. *)
Theorem C127_marks m A tol : 0 < A -> 0 <= tol -> on_cube m A -> exists f, boring m A tol = Ok f /\
  (forall j, nth_error f j = Some 1%nat -> exists t js e s q, In (t, js) (cells m) /\ In j js /\ nth_error (edges m) j = Some e /\
     In s (piece A t) /\ on_segment s q /\ within tol (midpoint e) q) /\
  (forall j t js e s, In (t, js) (cells m) -> In j js -> nth_error (edges m) j = Some e -> In s (piece A t) -> lies_on s e -> nth_error f j = Some 1%nat).
Proof.
  intros P T C. destruct (boring_spec m A tol) as [f [B H]]. exists f. split; [exact B |]. split.
  - intros j M. apply H in M. destruct M as [t [js [e [I [J [E M]]]]]]. destruct (C _ _ _ _ I J E) as [F G].
    destruct (holds_near A tol t _ P T (mid_face A t e F G) M) as [q [Q W]]. apply on_piece_spec in Q; [| exact P]. destruct Q as [s [S Q]].
    exists t, js, e, s, q. repeat split; auto; apply W.
  - intros j t js e s I J E S L. apply H. exists t, js, e. repeat split; auto. apply holds_on; [exact T |]. apply edge_mid; [exact P |]. exists s. auto.
Qed.
Print Assumptions C127_marks.

(** On meshes that are fitted to the diagonals, with a tolerance below the size of the mesh, the marked edges are exactly
    those on the curve. *)
Theorem C127_exact_partial m A tol : 0 < A -> 0 <= tol -> on_cube m A -> fitted m -> resolved m A tol -> exists f, boring m A tol = Ok f /\
  forall j, nth_error f j = Some 1%nat <->
    exists t js e s, In (t, js) (cells m) /\ In j js /\ nth_error (edges m) j = Some e /\ In s (piece A t) /\ lies_on s e.
Proof.
  intros P T C F R. destruct (C127_marks m A tol P T C) as [f [B [_ K]]]. exists f. split; [exact B |]. intros j. split.
  - intros M. destruct (boring_spec m A tol) as [f' [B' H]]. assert (f' = f) as -> by congruence. apply H in M. destruct M as [t [js [e [I [J [E M]]]]]].
    destruct (C _ _ _ _ I J E) as [F1 F2]. destruct (F _ _ _ _ I J E) as [D2 D3].
    destruct (holds_edge A tol t e P F1 F2 D2 D3 (R _ _ _ _ I J E) M) as [s [S L]]. exists t, js, e, s. auto.
  - intros [t [js [e [s [I [J [E [S L]]]]]]]]. eapply K; eauto.
Qed.
Print Assumptions C127_exact_partial.

(** The claim is false on a mesh with the other diagonal: its midpoint is on the curve. *)
Definition crossed : surface :=
  {| edges := [(((-1, -1), -1), ((1, -1), -1)); (((1, -1), -1), ((1, -1), 1)); (((-1, -1), -1), ((1, -1), 1)); (((-1, -1), -1), ((-1, -1), 1)); (((-1, -1), 1), ((1, -1), 1))];
     cells := [(3, [0; 1; 2]); (3, [2; 3; 4])]%nat |}.
Lemma crossed_on : on_cube crossed 1.
Proof.
  intros t js j e I J E. cbn in I. destruct I as [I | [I | []]]; injection I as <- <-; cbn in J;
  destruct J as [<- | [<- | [<- | []]]]; cbn in E; injection E as <-; unfold on_face, x0, x1, x2; cbn [fst snd]; repeat split; lra.
Qed.
Theorem C127_exact_refuted : exists m, on_cube m 1 /\ resolved m 1 (1 # 10000000000) /\ exists f j e, boring m 1 (1 # 10000000000) = Ok f /\ nth_error f j = Some 1%nat /\
  nth_error (edges m) j = Some e /\ forall s, In s (zigzag 1) -> ~ lies_on s e.
Proof.
  exists crossed. split; [apply crossed_on |]. split.
  - intros t js j e I J E. cbn in I. destruct I as [I | [I | []]]; injection I as <- <-; cbn in J;
    destruct J as [<- | [<- | [<- | []]]]; cbn in E; injection E as <-; cbv zeta; intros v V L; cbn [In] in V;
    destruct V as [<- | [<- | [<- | [<- | [<- | [<- | [<- | []]]]]]]]; first [reflexivity | exfalso; vm_compute in L; apply L; reflexivity].
  - eexists _, 2%nat, _. split; [reflexivity |]. split; [reflexivity |]. split; [reflexivity |].
    intros s S [_ H]. rewrite zigzag_eq in S. assert (0 < 1) as P by reflexivity. cbn [In snd] in *.
    destruct S as [<- | [<- | [<- | [<- | [<- | [<- | []]]]]]];
      [apply on_a in H | apply on_b in H | apply on_c in H | apply on_d in H | apply on_e in H | apply on_f in H]; try exact P;
      unfold side_a, side_b, side_c, side_d, side_e, side_f, x0, x1, x2 in H; cbn [fst snd] in H; lra.
Qed.
Print Assumptions C127_exact_refuted.

(** The curve: six sides, each in the face of its tag, that meet in the corners only and only the following one. *)
Theorem C127_curve A : 0 < A ->
  (forall s, In s (zigzag A) <-> exists t, In s (piece A t)) /\
  (forall t s p, In s (piece A t) -> on_segment s p -> on_face A t p) /\
  (forall i j s s' p, nth_error (zigzag A) i = Some s -> nth_error (zigzag A) j = Some s' -> (i < j)%nat -> on_segment s p -> on_segment s' p ->
     ((j = S i /\ same_point p (snd s)) \/ (i = 0%nat /\ j = 5%nat /\ same_point p (fst s)))).
Proof.
  intros P. split; [| split].
  - intros s. rewrite zigzag_eq. split.
    + intros [<- | [<- | [<- | [<- | [<- | [<- | []]]]]]]; [exists 1%nat | exists 1%nat | exists 1%nat | exists 4%nat | exists 2%nat | exists 3%nat]; cbn; tauto.
    + intros [t I]. unfold piece in I. rewrite zigzag_eq in I. destruct t as [| [| [| [| [| t]]]]]; cbn [In] in *; tauto.
  - intros t s p I S. assert (on_piece A t p) as H by (apply on_piece_spec; eauto).
    unfold on_face. destruct t as [| [| [| [| [| t]]]]]; cbn [on_piece] in H; try tauto; unfold side_a, side_b, side_c, side_d, side_e, side_f in H.
    + destruct H as [H | [H | H]]; repeat split; lra.
    + repeat split; lra.
    + repeat split; lra.
    + repeat split; lra.
  - intros i j s s' p I J L S S'. rewrite zigzag_eq in I, J. unfold same_point.
    assert (i < 6)%nat as Bi. { match type of I with ?x = _ => assert (x <> None) as NI by (rewrite I; discriminate) end. apply nth_error_Some in NI. exact NI. }
    assert (j < 6)%nat as Bj. { match type of J with ?x = _ => assert (x <> None) as NI by (rewrite J; discriminate) end. apply nth_error_Some in NI. exact NI. }
    destruct i as [| [| [| [| [| [| i]]]]]]; try lia; destruct j as [| [| [| [| [| [| j]]]]]]; try lia;
      cbn in I, J; injection I as <-; injection J as <-;
      repeat match goal with
      | H : on_segment (((-A, -A), A), ((-A, -A), -A)) p |- _ => apply (on_a A p P) in H; unfold side_a in H
      | H : on_segment (((-A, -A), -A), ((-A, A), -A)) p |- _ => apply (on_b A p P) in H; unfold side_b in H
      | H : on_segment (((-A, A), -A), ((-A, A), A)) p |- _ => apply (on_c A p P) in H; unfold side_c in H
      | H : on_segment (((-A, A), A), ((A, A), A)) p |- _ => apply (on_d A p P) in H; unfold side_d in H
      | H : on_segment (((A, A), A), ((A, -A), -A)) p |- _ => apply (on_e A p P) in H; unfold side_e in H
      | H : on_segment (((A, -A), -A), ((-A, -A), A)) p |- _ => apply (on_f A p P) in H; unfold side_f in H
      end; unfold x0, x1, x2 in *; cbn [fst snd] in *;
      first [left; split; [reflexivity |]; repeat split; lra | right; split; [reflexivity |]; split; [reflexivity |]; repeat split; lra | exfalso; lra].
Qed.
Print Assumptions C127_curve.

(** It is the line of domain.geo. *)
Theorem C127_geo A p : 0 < A -> (exists g s, In g physical_line /\ geo_segment A g = Some s /\ on_segment s p) <-> exists s, In s (zigzag A) /\ on_segment s p.
Proof.
  intros P. rewrite zigzag_eq. split.
  - intros [g [s [I [G S]]]]. cbn [In physical_line] in I.
    destruct I as [<- | [<- | [<- | [<- | [<- | [<- | []]]]]]]; cbn in G; injection G as <-; (first [eexists; split; [| exact S]; cbn; tauto | apply segment_sym in S; eexists; split; [| exact S]; cbn; tauto]).
  - intros [s [I S]]. cbn [In] in I. destruct I as [<- | [<- | [<- | [<- | [<- | [<- | []]]]]]].
    + exists (Old 1). eexists. split; [cbn; tauto |]. split; [reflexivity |]. now apply segment_sym.
    + exists (Old 4). eexists. split; [cbn; tauto |]. split; [reflexivity |]. exact S.
    + exists (Old 3). eexists. split; [cbn; tauto |]. split; [reflexivity |]. exact S.
    + exists (Old 12). eexists. split; [cbn; tauto |]. split; [reflexivity |]. exact S.
    + exists (New 7 6). eexists. split; [cbn; tauto |]. split; [reflexivity |]. exact S.
    + exists (New 1 6). eexists. split; [cbn; tauto |]. split; [reflexivity |]. now apply segment_sym.
Qed.
Print Assumptions C127_geo.

(** union: the disjunction of all strings of a nested list, if none of them and no list is empty. *)
Fixpoint leaves (d : dom) : list (option cond) := match d with Str c => [c] | Many l => flat_map leaves l end.
Fixpoint no_empty (d : dom) : Prop :=
  match d with Str c => c <> None | Many l => l <> [] /\ (fix all l := match l with [] => True | d :: l' => no_empty d /\ all l' end) l end.
Fixpoint dom_size (d : dom) : nat := match d with Str _ => 1%nat | Many l => S (list_sum (map dom_size l)) end.
Definition or_of (cs : list cond) : list tok := join (map (fun c => [Brackets c]) cs).
Lemma or_of_app a b : a <> [] -> b <> [] -> or_of (a ++ b) = or_of a ++ Or :: or_of b.
Proof.
  intros NA NB. induction a as [| c a IH]; [congruence |]. destruct a as [| c' a].
  - destruct b; [congruence |]. reflexivity.
  - change (or_of ((c :: c' :: a) ++ b)) with (Brackets c :: Or :: or_of ((c' :: a) ++ b)). rewrite IH by discriminate. reflexivity.
Qed.
Lemma body_leaves n : forall d, (dom_size d < n)%nat -> no_empty d -> exists cs, cs <> [] /\ leaves d = map Some cs /\ body d = or_of cs.
Proof.
  induction n as [| n IH]; intros d L N; [lia |]. destruct d as [[c |] | l].
  - exists [c]. split; [discriminate |]. split; reflexivity.
  - cbn in N. congruence.
  - cbn [no_empty] in N. destruct N as [NE N]. cbn [dom_size] in L. cbn [leaves body].
    assert (forall l, l <> [] -> (list_sum (map dom_size l) < n)%nat -> (fix all l := match l with [] => True | d :: l' => no_empty d /\ all l' end) l ->
      exists cs, cs <> [] /\ flat_map leaves l = map Some cs /\ join (map body l) = or_of cs) as K.
    { clear - IH. induction l as [| d l IHl]; intros NE L N; [congruence |]. cbn [map list_sum fold_right] in L. destruct N as [N1 N2].
      destruct (IH d ltac:(lia) N1) as [cs [C1 [C2 C3]]]. destruct l as [| d' l].
      - exists cs. split; [exact C1 |]. cbn [flat_map map join]. rewrite app_nil_r. auto.
      - destruct (IHl ltac:(discriminate) ltac:(unfold list_sum in *; lia) N2) as [cs' [C1' [C2' C3']]]. exists (cs ++ cs'). split; [destruct cs; [congruence | discriminate] |].
        split; [change (leaves d ++ flat_map leaves (d' :: l) = map Some (cs ++ cs')); rewrite C2, C2', map_app; reflexivity |].
        change (body d ++ Or :: join (map body (d' :: l)) = or_of (cs ++ cs')). rewrite C3, C3'. symmetry. now apply or_of_app. }
    apply K; auto. lia.
Qed.
Lemma compile_or cs : cs <> [] -> compile (or_of cs) = Ok cs.
Proof.
  induction cs as [| c cs IH]; [congruence |]. intros _. destruct cs as [| c' cs]; [reflexivity |].
  change (or_of (c :: c' :: cs)) with (Brackets c :: Or :: or_of (c' :: cs)). cbn [compile]. rewrite IH by discriminate. reflexivity.
Qed.
Theorem C127_union d A tol p : no_empty d -> exists cs, union d = Ok cs /\ (inside A tol cs p = true <-> exists c, In (Some c) (leaves d) /\ cond_val A tol c p = true).
Proof.
  intros N. destruct (body_leaves (S (dom_size d)) d ltac:(lia) N) as [cs [C1 [C2 C3]]]. exists cs. unfold union. rewrite C3. split; [now apply compile_or |].
  unfold inside. rewrite existsb_exists, C2. split; intros [c [I H]]; exists c; split; auto.
  - now apply in_map.
  - apply in_map_iff in I. destruct I as [c' [E I]]. injection E as <-. exact I.
Qed.
Print Assumptions C127_union.
(** An empty string in a list leaves a ' || ' with nothing beside it. *)
Theorem C127_union_refuted c : union (Many [Str (Some c); Str None]) = Err RuntimeError /\ union (Many [Str None; Str (Some c)]) = Err RuntimeError.
Proof. split; reflexivity. Qed.
Print Assumptions C127_union_refuted.

(** Non-vacuity: the face 3 with its diagonal and the face 1 *)
Definition fine : surface :=
  {| edges := [(((-1, -1), -1), ((1, -1), -1)); (((1, -1), -1), ((-1, -1), 1)); (((-1, -1), -1), ((-1, -1), 1)); (((1, -1), -1), ((1, -1), 1)); (((-1, -1), 1), ((1, -1), 1));
               (((-1, -1), -1), ((-1, 1), -1)); (((-1, -1), 1), ((-1, 1), -1))];
     cells := [(3, [0; 1; 2]); (3, [1; 3; 4]); (1, [2; 5; 6])]%nat |}.
Example ex_fine : on_cube fine 1 /\ fitted fine /\ resolved fine 1 (1 # 10000000000) /\ boring fine 1 (1 # 10000000000) = Ok [0; 1; 1; 0; 0; 1; 0]%nat.
Proof.
  split; [| split; [| split; [| reflexivity] ] ]; intros t js j e I J E; cbn in I; destruct I as [I | [I | [I | []]]]; injection I as <- <-; cbn in J;
    destruct J as [<- | [<- | [<- | []]]]; cbn in E; injection E as <-.
  1-9: unfold on_face, x0, x1, x2; cbn [fst snd]; repeat split; lra.
  1-9: unfold x0, x1, x2; cbn [fst snd]; split; intros Z; try discriminate Z; first [left; split; lra | right; split; lra].
  all: cbv zeta; intros v V L; cbn [In] in V;
    destruct V as [<- | [<- | [<- | [<- | [<- | [<- | [<- | []]]]]]]]; first [reflexivity | exfalso; vm_compute in L; apply L; reflexivity].
Qed.
Example ex_union : no_empty (Many [Str (Some (Near (X 0) PlusA)); Many [Str (Some (Near (X 1) PlusA)); Str (Some (Near (X 2) MinusA))]]).
Proof. cbn. repeat split; discriminate. Qed.
