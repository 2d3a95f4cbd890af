(** Specification and proofs for CurveModel.v *)
From Verif Require Import Base BaseProofs CurveModel ShapeModel.
From Coq Require Import Reals Lra.
Local Open Scope nat_scope.

(** The edge between [a] and [b], in any order *)
Definition between (e : nat * nat) (a b : nat) : Prop := e = (a, b) \/ e = (b, a).
Definition adjacent (edges : list (nat * nat)) (a b : nat) : Prop := exists e, In e edges /\ between e a b.
(** An edge is given once, and its ends differ *)
Definition simple (edges : list (nat * nat)) : Prop :=
  (forall e, In e edges -> fst e <> snd e) /\
  forall i j e g a b, nth_error edges i = Some e -> nth_error edges j = Some g -> between e a b -> between g a b -> i = j.
(** [a] and [b] are neighbours in the list *)
Inductive next : list nat -> nat -> nat -> Prop :=
| Next_here a b l : next (a :: b :: l) a b
| Next_later c l a b : next l a b -> next (c :: l) a b.
(** What is known about the shortest path: it is a path *)
Definition is_path (edges : list (nat * nat)) (s t : nat) (l : list nat) : Prop :=
  hd_error l = Some s /\ hd_error (rev l) = Some t /\ forall a b, next l a b -> adjacent edges a b.
(** The curve: the edges with the mark 1 *)
Definition on_curve (edges : list (nat * nat)) (f : list nat) (a b : nat) : Prop :=
  exists i e, nth_error f i = Some 1 /\ nth_error edges i = Some e /\ between e a b.
Definition curve_vertex edges f a : Prop := exists b, on_curve edges f a b.
Inductive linked (E : nat -> nat -> Prop) : nat -> nat -> Prop :=
| Linked_refl a : linked E a a
| Linked_step a b c : linked E a b -> E b c -> linked E a c.

Lemma linked_trans E a b c : linked E a b -> linked E b c -> linked E a c.
Proof. intros H G. revert H. induction G as [b | b c d _ IH S]; intros H; [exact H |]. eapply Linked_step; [apply IH; exact H | exact S]. Qed.
Lemma linked_sym (E : nat -> nat -> Prop) a b : (forall x y, E x y -> E y x) -> linked E a b -> linked E b a.
Proof. intros S. induction 1 as [a | a b c _ IH H]; [constructor |]. eapply linked_trans; [| exact IH]. eapply Linked_step; [constructor | apply S; exact H]. Qed.
Lemma linked_mono (E F : nat -> nat -> Prop) a b : (forall x y, E x y -> F x y) -> linked E a b -> linked F a b.
Proof. intros S. induction 1 as [a | a b c _ IH H]; [constructor |]. eapply Linked_step; [exact IH | apply S; exact H]. Qed.
Lemma between_sym e a b : between e a b -> between e b a. Proof. intros [-> | ->]; [right | left]; reflexivity. Qed.
Lemma adjacent_sym edges a b : adjacent edges a b -> adjacent edges b a. Proof. intros [e [I B]]. exists e. split; [exact I | apply between_sym; exact B]. Qed.
Lemma on_curve_sym edges f a b : on_curve edges f a b -> on_curve edges f b a. Proof. intros (i & e & F & N & B). exists i, e. split; [exact F |]. split; [exact N | apply between_sym; exact B]. Qed.

Lemma same_iff e a b : a < b -> fst e <> snd e -> (same (sorted e) (a, b) = true <-> between e a b).
Proof.
  intros L N. destruct e as [x y]. unfold same, sorted, between. cbn [fst snd] in *. destruct (Nat.ltb_spec y x); cbn [fst snd]; rewrite andb_true_iff, !Nat.eqb_eq; split.
  - intros [-> ->]. right. reflexivity.
  - intros [E | E]; injection E as -> ->; lia.
  - intros [-> ->]. left. reflexivity.
  - intros [E | E]; injection E as -> ->; lia.
Qed.
Lemma edge_index_spec edges a b : a < b -> (forall e, In e edges -> fst e <> snd e) -> forall k found i,
  edge_index edges k (a, b) found = Some i -> (found = Some i /\ forall e, In e edges -> ~ between e a b) \/ exists e, k <= i /\ nth_error edges (i - k) = Some e /\ between e a b.
Proof.
  intros L. induction edges as [| e edges IH]; intros N k found i H; cbn [edge_index] in H; [left; split; [exact H | intros e []] |].
  destruct (IH (fun e He => N e (or_intror He)) (S k) _ _ H) as [[F A] | (g & K & G & B)].
  - destruct (same (sorted e) (a, b)) eqn:S.
    + right. injection F as <-. exists e. split; [lia |]. rewrite Nat.sub_diag. split; [reflexivity |]. apply same_iff in S; [exact S | exact L | apply N; left; reflexivity].
    + left. split; [exact F |]. intros g [<- | Hg]; [| apply A; exact Hg]. intros B. apply same_iff in B; [congruence | exact L | apply N; left; reflexivity].
  - right. exists g. split; [lia |]. split; [| exact B]. replace (i - k) with (S (i - S k)) by lia. exact G.
Qed.
Lemma edge_index_none edges a b : a < b -> (forall e, In e edges -> fst e <> snd e) -> forall k found, edge_index edges k (a, b) found = None -> ~ adjacent edges a b.
Proof.
  intros L. induction edges as [| e edges IH]; intros N k found H [g [I B]]; [destruct I |]. cbn [edge_index] in H. destruct I as [-> | I].
  - replace (same (sorted g) (a, b)) with true in H by (symmetry; apply same_iff; [exact L | apply N; left; reflexivity | exact B]).
    clear - H. assert (X : forall edges k i, edge_index edges k (a, b) (Some i) <> None) by (clear; induction edges as [| e edges IH]; intros k i; cbn [edge_index]; [discriminate | destruct (same _ _); apply IH]). exact (X _ _ _ H).
  - apply (IH (fun e He => N e (or_intror He)) _ _ H). exists g. split; [exact I | exact B].
Qed.
(** The dictionary finds the edge *)
Lemma found edges a b : simple edges -> adjacent edges a b -> exists i e, edge_index edges 0 (if a <? b then (a, b) else (b, a)) None = Some i /\ nth_error edges i = Some e /\ between e a b.
Proof.
  intros [N U] A. assert (D : a <> b) by (destruct A as [e [I [-> | ->]]]; apply N in I; cbn in I; congruence).
  destruct (Nat.ltb_spec a b) as [L | L].
  - destruct (edge_index edges 0 (a, b) None) as [i |] eqn:E; [| exfalso; exact (edge_index_none edges a b L N _ _ E A)].
    destruct (edge_index_spec edges a b L N _ _ _ E) as [[F _] | (e & _ & G & B)]; [discriminate |]. exists i, e. rewrite Nat.sub_0_r in G. auto.
  - assert (L' : b < a) by lia. apply adjacent_sym in A. destruct (edge_index edges 0 (b, a) None) as [i |] eqn:E; [| exfalso; exact (edge_index_none edges b a L' N _ _ E A)].
    destruct (edge_index_spec edges b a L' N _ _ _ E) as [[F _] | (e & _ & G & B)]; [discriminate |]. exists i, e. rewrite Nat.sub_0_r in G. apply between_sym in B. auto.
Qed.
Lemma mark_spec f : forall i, i < length f -> exists g, mark f i = Ok g /\ length g = length f /\ forall j, nth_error g j = if j =? i then Some 1 else nth_error f j.
Proof.
  induction f as [| x f IH]; intros i H; [cbn in H; lia |]. destruct i as [| i]; cbn [mark].
  - eexists. split; [reflexivity |]. split; [reflexivity |]. intros [| j]; reflexivity.
  - destruct (IH i) as [g [E [L F]]]; [cbn in H; lia |]. rewrite E. cbn [bind]. eexists. split; [reflexivity |]. split; [cbn [length]; congruence |]. intros [| j]; [reflexivity |]. cbn [nth_error Nat.eqb]. apply F.
Qed.
Lemma next_nil a b : ~ next [] a b. Proof. intros H. inversion H. Qed.
Lemma next_one c a b : ~ next [c] a b. Proof. intros H. inversion H as [| ? ? ? ? H']. subst. exact (next_nil _ _ H'). Qed.
Lemma mark_path_spec edges : simple edges -> forall path f, length f = length edges -> (forall a b, next path a b -> adjacent edges a b) ->
  exists g, mark_path edges path f = Ok g /\ length g = length edges /\ forall a b, on_curve edges g a b <-> on_curve edges f a b \/ next path a b \/ next path b a.
Proof.
  intros SE. induction path as [| v0 path IH]; intros f L A.
  { exists f. split; [reflexivity |]. split; [exact L |]. intros a b. split; [auto | intros [H | [H | H]]; [exact H | destruct (next_nil _ _ H)..]]. }
  destruct path as [| v1 path]; [exists f; split; [reflexivity |]; split; [exact L |]; intros a b; split; [auto | intros [H | [H | H]]; [exact H | destruct (next_one _ _ _ H)..]] |].
  cbn [mark_path]. destruct (found edges v0 v1 SE) as (i & e & E & Hi & B); [apply A; constructor |]. rewrite E. cbn [opt_res bind].
  destruct (mark_spec f i) as [g [G [LG FG]]]; [rewrite L; apply nth_error_Some; congruence |]. rewrite G. cbn [bind].
  destruct (IH g) as [h [H [LH FH]]]; [congruence | intros a b N; apply A; constructor; exact N |]. exists h. split; [exact H |]. split; [exact LH |].
  assert (FC : forall a b, on_curve edges g a b <-> on_curve edges f a b \/ between (v0, v1) a b).
  { intros a b. split.
    - intros (j & k & Hg & Hk & Bk). rewrite FG in Hg. destruct (Nat.eqb_spec j i) as [-> | _]; [| left; exists j, k; auto].
      right. assert (k = e) by congruence. subst k. destruct B as [-> | ->], Bk as [X | X]; injection X as -> ->; [left | right | right | left]; reflexivity.
    - intros [(j & k & Hf & Hk & Bk) | X].
      + exists j, k. split; [| auto]. rewrite FG. destruct (j =? i); [reflexivity | exact Hf].
      + exists i, e. split; [rewrite FG, Nat.eqb_refl; reflexivity |]. split; [exact Hi |]. destruct X as [X | X]; injection X as -> ->; [exact B | apply between_sym; exact B]. }
  intros a b. rewrite FH, FC. split.
  - intros [[X | [X | X]] | [X | X]].
    + left. exact X.
    + injection X as -> ->. right. left. constructor.
    + injection X as -> ->. right. right. constructor.
    + right. left. constructor. exact X.
    + right. right. constructor. exact X.
  - intros [X | [X | X]]; [auto | |]; inversion X as [? ? ? | ? ? ? ? X']; subst; [left; right; left; reflexivity | right; left; exact X' | left; right; right; reflexivity | right; right; exact X'].
Qed.

(** Lists of neighbours *)
Lemma next_app l c a b : next (l ++ c) a b -> next l a b \/ next c a b \/ (hd_error (rev l) = Some a /\ hd_error c = Some b).
Proof.
  induction l as [| x l IH]; cbn [app]; intros H; [auto |]. destruct l as [| y l]; cbn [app] in *.
  - destruct c as [| z c]; [destruct (next_one _ _ _ H) |]. inversion H as [? ? ? | ? ? ? ? H']; subst; [right; right; split; reflexivity | auto].
  - inversion H as [? ? ? | ? ? ? ? H']; subst; [left; constructor |]. destruct (IH H') as [K | [K | [K1 K2]]]; [left; constructor; exact K | auto |].
    right. right. split; [| exact K2]. cbn [rev] in K1 |- *. destruct (rev l ++ [y]) as [| u t] eqn:E; [destruct (rev l); discriminate | exact K1].
Qed.
Lemma next_rev l a b : next (rev l) a b -> next l b a.
Proof.
  induction l as [| x l IH]; cbn [rev]; intros H; [destruct (next_nil _ _ H) |]. apply next_app in H. destruct H as [H | [H | [H1 H2]]]; [constructor; apply IH; exact H | destruct (next_one _ _ _ H) |].
  cbn in H2. injection H2 as <-. rewrite rev_involutive in H1. destruct l as [| y l]; [discriminate |]. cbn in H1. injection H1 as <-. constructor.
Qed.
Lemma next_In l a b : next l a b -> In a l /\ In b l.
Proof. induction 1 as [a b l | c l a b _ [IA IB]]; [split; [left; reflexivity | right; left; reflexivity] | split; right; assumption]. Qed.
Lemma in_linked (E : nat -> nat -> Prop) s : forall l, (forall a b, next (s :: l) a b -> E a b) -> forall v, In v (s :: l) -> linked E s v.
Proof.
  intros l. revert s. induction l as [| x l IH]; intros s H v [<- | I]; try (constructor; fail); [destruct I |].
  apply linked_trans with x; [eapply Linked_step; [constructor | apply H; constructor] |]. apply IH; [intros a b N; apply H; constructor; exact N | exact I].
Qed.
Lemma in_next l v : In v l -> 2 <= length l -> exists w, next l v w \/ next l w v.
Proof.
  induction l as [| x l IH]; intros I L; [destruct I |]. destruct l as [| y l]; [cbn in L; lia |]. destruct I as [<- | I]; [exists y; left; constructor |].
  destruct l as [| z l]; [destruct I as [<- | []]; exists x; right; constructor |]. destruct (IH I) as [w [H | H]]; [cbn; lia | exists w; left; constructor; exact H | exists w; right; constructor; exact H].
Qed.

Section Loop.
Variables (on_surface : nat -> bool) (sp : nat -> nat -> res (list nat)) (edges : list (nat * nat)).
Hypothesis SE : simple edges.
Hypothesis SP : forall s t l, sp s t = Ok l -> is_path edges s t l.

Lemma walk_back_spec l : let (c, first) := walk_back on_surface l in
  (exists rest, l = c ++ rest) /\ match first with
  | None => c = l /\ forall v, In v l -> on_surface v = false
  | Some p => In p c /\ on_surface p = true /\ forall v, In v c -> on_surface v = true -> v = p
  end.
Proof.
  induction l as [| x l IH]; cbn [walk_back]; [split; [exists []; reflexivity | split; [reflexivity | intros v []]] |]. destruct (on_surface x) eqn:S.
  - split; [exists l; reflexivity |]. split; [left; reflexivity |]. split; [exact S |]. intros v [<- | []] _. reflexivity.
  - destruct (walk_back on_surface l) as [c first]. destruct IH as [[rest ->] H]. split; [exists rest; reflexivity |]. destruct first as [p |].
    + destruct H as [I [P U]]. split; [right; exact I |]. split; [exact P |]. intros v [<- | Hv] HS; [congruence | apply U; assumption].
    + destruct H as [E N]. split; [rewrite <- E; reflexivity |]. intros v [<- | Hv]; [exact S | apply N; exact Hv].
Qed.
Lemma pick_spec start choices stop rest : pick on_surface start choices = Ok (stop, rest) -> start <> stop /\ on_surface stop = false /\ length rest < length choices.
Proof.
  induction choices as [| x choices IH]; cbn [pick]; intros H; [discriminate |]. destruct (start =? x) eqn:E, (on_surface x) eqn:S; cbn [negb andb] in H.
  1, 2, 3: destruct (IH H) as [A [B C]]; cbn [length]; auto with arith.
  injection H as <- <-. apply Nat.eqb_neq in E. split; [exact E |]. split; [exact S |]. cbn [length]. lia.
Qed.

(** The curve so far: from [p] on the surface, inside otherwise, in one piece *)
Definition good (f : list nat) (p : nat) : Prop :=
  length f = length edges /\ on_surface p = true /\ curve_vertex edges f p /\ (forall v, curve_vertex edges f v -> on_surface v = true -> v = p) /\ forall v, curve_vertex edges f v -> linked (on_curve edges f) p v.

Lemma loop_good fuel : forall npoints start p f choices g first, good f p -> linked (on_curve edges f) p start -> loop on_surface sp edges fuel npoints start (Some p) f choices = Ok (g, first) -> first = Some p /\ good g p.
Proof.
  induction fuel as [| fuel IH]; intros npoints start p f choices g first G S H; (destruct npoints as [| npoints]; cbn [loop] in H; [assert (f = g /\ Some p = first) as [<- <-] by (split; congruence); auto |]); [discriminate |].
  destruct (pick on_surface start choices) as [[stop rest] | e] eqn:P; [cbn [bind] in H | discriminate]. destruct (sp start stop) as [path | e] eqn:E; [cbn [bind] in H | discriminate].
  destruct (existsb on_surface path) eqn:X; [eapply IH; eassumption |]. destruct (SP _ _ _ E) as [HS [HT HN]]. destruct G as [L [SPp [CP [U C]]]].
  destruct (mark_path_spec edges SE path f L HN) as [h [Eh [Lh Fh]]]. rewrite Eh in H. cbn [bind] in H.
  assert (M : forall a b, linked (on_curve edges f) a b -> linked (on_curve edges h) a b) by (intros a b; apply linked_mono; intros x y Hxy; apply Fh; left; exact Hxy).
  destruct path as [| s path]; [discriminate |]. cbn in HS. injection HS as ->.
  assert (K : forall v, In v (start :: path) -> linked (on_curve edges h) p v).
  { intros v I. eapply linked_trans; [apply M; exact S |]. apply (in_linked _ _ path); [intros a b N; apply Fh; auto | exact I]. }
  assert (W : forall v, curve_vertex edges h v -> curve_vertex edges f v \/ In v (start :: path)). { intros v [w Hw]. apply Fh in Hw. destruct Hw as [Hw | [Hw | Hw]]; [left; exists w; exact Hw | right; apply next_In in Hw; tauto | right; apply next_In in Hw; tauto]. }
  apply IH in H; [exact H | |].
  - split; [exact Lh |]. split; [exact SPp |]. split; [destruct CP as [w Hw]; exists w; apply Fh; left; exact Hw |]. split.
    + intros v Hv Sv. destruct (W v Hv) as [A | A]; [apply U; assumption |]. exfalso. assert (Y : existsb on_surface (start :: path) = true) by (apply existsb_exists; exists v; auto). congruence.
    + intros v Hv. destruct (W v Hv) as [A | A]; [apply M, C; exact A | apply K; exact A].
  - apply K. apply in_rev. destruct (rev (start :: path)) as [| t r]; [discriminate |]. cbn in HT. injection HT as ->. left. reflexivity.
Qed.

Lemma no_marks f a b : (forall i, nth_error f i <> Some 1) -> ~ on_curve edges f a b. Proof. intros N (i & e & F & _). exact (N i F). Qed.
Lemma zeros n i : nth_error (repeat 0 n) i <> Some 1.
Proof. revert i. induction n as [| n IH]; intros [| i]; cbn; try discriminate. apply IH. Qed.

Lemma first_good start stop path c p : on_surface stop = false -> sp start stop = Ok path -> walk_back on_surface (rev path) = (c, Some p) ->
  exists h, mark_path edges c (repeat 0 (length edges)) = Ok h /\ good h p /\ linked (on_curve edges h) p stop.
Proof.
  intros NS E WB. destruct (SP _ _ _ E) as [HS [HT HN]]. pose proof (walk_back_spec (rev path)) as B. rewrite WB in B. destruct B as [[rest R] [I [P U]]].
  assert (Nc : forall a b, next c a b -> adjacent edges a b).
  { intros a b H. apply adjacent_sym, HN, next_rev. rewrite R. clear - H. induction H; cbn [app]; constructor; assumption. }
  destruct (mark_path_spec edges SE c (repeat 0 (length edges)) (repeat_length _ _) Nc) as [h [Eh [Lh Fh]]]. exists h. split; [exact Eh |].
  assert (F : forall a b, on_curve edges h a b <-> next c a b \/ next c b a). { intros a b. rewrite Fh. split; [intros [X | X]; [destruct (no_marks _ _ _ (zeros (length edges)) X) | exact X] | auto]. }
  rewrite R in HT. destruct c as [| t c]; [destruct I |]. cbn in HT. injection HT as ->.
  assert (L2 : 2 <= length (stop :: c)). { destruct c as [| u c]; [| cbn; lia]. destruct I as [-> | []]. congruence. }
  assert (LK : forall v, In v (stop :: c) -> linked (on_curve edges h) stop v) by (apply in_linked; intros a b N; apply F; left; exact N).
  assert (SY : forall x y, on_curve edges h x y -> on_curve edges h y x) by (intros; apply on_curve_sym; assumption).
  assert (PS : linked (on_curve edges h) p stop) by (apply linked_sym; [exact SY | apply LK; exact I]).
  assert (W : forall v, curve_vertex edges h v -> In v (stop :: c)) by (intros v [w Hw]; apply F in Hw; destruct Hw as [Hw | Hw]; apply next_In in Hw; tauto).
  split; [| exact PS]. split; [exact Lh |]. split; [exact P |]. split; [destruct (in_next _ p I L2) as [w Hw]; exists w; apply F; exact Hw |]. split; [intros v Hv; apply U, W; exact Hv |].
  intros v Hv. eapply linked_trans; [exact PS |]. apply LK, W. exact Hv.
Qed.

(** No other exceptions than those of the argument *)
Lemma loop_errors fuel : forall npoints start first f choices e, length f = length edges -> loop on_surface sp edges fuel npoints start first f choices = Err e -> e = OutOfFuel \/ exists s t, sp s t = Err e.
Proof.
  induction fuel as [| fuel IH]; intros npoints start first f choices e L H; (destruct npoints as [| npoints]; cbn [loop] in H; [discriminate |]); [left; congruence |].
  destruct (pick on_surface start choices) as [[stop rest] | e'] eqn:P; cbn [bind] in H.
  2: { left. assert (e' = e) by congruence. subst e'. clear - P. induction choices as [| x choices IH]; cbn [pick] in P; [congruence |]. destruct (_ && _); [discriminate | apply IH; exact P]. }
  destruct (sp start stop) as [path | e'] eqn:E; cbn [bind] in H; [| right; exists start, stop; congruence]. destruct (SP _ _ _ E) as [HS [HT HN]]. destruct first as [p |].
  - destruct (existsb on_surface path); [eapply IH; eassumption |]. destruct (mark_path_spec edges SE path f L HN) as [h [Eh [Lh _]]]. rewrite Eh in H. cbn [bind] in H. eapply IH; eassumption.
  - pose proof (walk_back_spec (rev path)) as B. destruct (walk_back on_surface (rev path)) as [c first]. destruct B as [[rest' R] _].
    destruct (mark_path_spec edges SE c f L) as [h [Eh [Lh _]]].
    { intros a b N. apply adjacent_sym, HN, next_rev. rewrite R. clear - N. induction N; cbn [app]; constructor; assumption. }
    rewrite Eh in H. cbn [bind] in H. eapply IH; eassumption.
Qed.

(** Marks of all paths *)
Lemma fun_loop_spec : forall samples f g, length f = length edges -> fun_loop sp edges samples f = Ok g ->
  length g = length edges /\ forall a b, on_curve edges g a b <-> on_curve edges f a b \/ exists s t l, In (s, t) samples /\ s <> t /\ sp s t = Ok l /\ (next l a b \/ next l b a).
Proof.
  induction samples as [| [s t] samples IH]; intros f g L H; cbn [fun_loop] in H.
  { assert (f = g) by congruence. subst g. split; [exact L |]. intros a b. split; [auto |]. intros [X | (s & t & l & [] & _)]. exact X. }
  destruct (Nat.eqb_spec s t) as [-> | N].
  - destruct (IH _ _ L H) as [Lg Fg]. split; [exact Lg |]. intros a b. rewrite Fg. split.
    + intros [X | (s' & t' & l & I & R)]; [auto |]. right. exists s', t', l. split; [right; exact I | exact R].
    + intros [X | (s' & t' & l & [Y | I] & D & R)]; [auto | injection Y as -> ->; contradiction |]. right. exists s', t', l. auto.
  - destruct (sp s t) as [path | e] eqn:E; [cbn [bind] in H | discriminate]. destruct (SP _ _ _ E) as [HS [HT HN]]. destruct (mark_path_spec edges SE path f L HN) as [h [Eh [Lh Fh]]]. rewrite Eh in H. cbn [bind] in H.
    destruct (IH _ _ Lh H) as [Lg Fg]. split; [exact Lg |]. intros a b. rewrite Fg, Fh. split.
    + intros [[X | X] | (s' & t' & l & I & R)]; [auto | right; exists s, t, path; split; [left; reflexivity | auto] |]. right. exists s', t', l. split; [right; exact I | exact R].
    + intros [X | (s' & t' & l & [Y | I] & D & El & R)]; [auto | injection Y as -> ->; left; right; assert (path = l) by congruence; subst l; exact R |]. right. exists s', t', l. auto.
Qed.
End Loop.

(** Where the curve starts *)
Lemma argmin_spec : forall X k best least, (forall x, In x X -> (least <= to_corner x)%R) \/ exists i x, argmin k best least X = k + i /\ nth_error X i = Some x /\ (to_corner x < least)%R /\ forall y, In y X -> (to_corner x <= to_corner y)%R.
Proof.
  induction X as [| x X IH]; intros k best least; [left; intros x [] |]. cbn [argmin]. destruct (Rlt_dec (to_corner x) least) as [L | L].
  - right. destruct (IH (S k) k (to_corner x)) as [H | (i & y & A & N & D & M)].
    + exists 0, x. assert (argmin (S k) k (to_corner x) X = k) as ->.
      { clear - H. revert k H. generalize (to_corner x) as l. intros l k H. assert (Q : forall X j b, (forall x, In x X -> (l <= to_corner x)%R) -> argmin j b l X = b).
        { clear. induction X as [| x X IH]; intros j b H; [reflexivity |]. cbn [argmin]. destruct (Rlt_dec (to_corner x) l) as [D | _]; [exfalso; specialize (H x (or_introl eq_refl)); lra |]. apply IH. intros y Hy. apply H. right. exact Hy. }
        apply Q. exact H. }
      split; [lia |]. split; [reflexivity |]. split; [exact L |]. intros y [<- | Hy]; [lra | apply H; exact Hy].
    + exists (S i), y. split; [lia |]. split; [exact N |]. split; [lra |]. intros z [<- | Hz]; [lra | apply M; exact Hz].
  - destruct (IH (S k) best least) as [H | (i & y & A & N & D & M)]; [left; intros y [<- | Hy]; [lra | apply H; exact Hy] |].
    right. exists (S i), y. split; [lia |]. split; [exact N |]. split; [exact D |]. intros z [<- | Hz]; [lra | apply M; exact Hz].
Qed.
Lemma argmin_keep : forall X k best least, (forall x, In x X -> (least <= to_corner x)%R) -> argmin k best least X = best.
Proof. induction X as [| x X IH]; intros k best least H; [reflexivity |]. cbn [argmin]. destruct (Rlt_dec (to_corner x) least) as [D | _]; [exfalso; specialize (H x (or_introl eq_refl)); lra |]. apply IH. intros y Hy. apply H. right. exact Hy. Qed.
