(** Specification vocabulary and proofs for BranchModel.v. *)
From Verif Require Import Base BaseProofs FillModel FillProofs PatchProofs EmbedModel EmbedProofs BranchModel.
From Coq Require Import Permutation Relations.
Local Open Scope nat_scope.
Local Close Scope Q_scope.
Local Close Scope Qc_scope.

(** ** Specification *)

(** Cell [c] ends in vertex [v]. *)
Definition inc (g : list (nat * nat)) (c v : nat) : Prop := exists a b, nth_error g c = Some (a, b) /\ (a = v \/ b = v).
(** Cells join different vertices of the mesh. *)
Definition valid (nv : nat) (g : list (nat * nat)) : Prop := forall a b, In (a, b) g -> a <> b /\ a < nv /\ b < nv.
(** A vertex in the interior of a branch: it has exactly two cells. *)
Definition interior (g : list (nat * nat)) (v : nat) : Prop := exists c d, c <> d /\ forall e, inc g e v <-> e = c \/ e = d.
Definition terminal (nv : nat) (g : list (nat * nat)) (v : nat) : Prop := v < nv /\ ~ interior g v.
(** Cells that meet in the interior of a branch, and cells of one branch *)
Definition linked (g : list (nat * nat)) (c d : nat) : Prop := exists v, interior g v /\ inc g c v /\ inc g d v.
Definition same_branch (g : list (nat * nat)) : nat -> nat -> Prop := clos_refl_trans nat (linked g).
Definition ends_somewhere (nv : nat) (g : list (nat * nat)) (c : nat) : Prop := exists d v, same_branch g c d /\ inc g d v /\ terminal nv g v.
(** Steps along cells: from a vertex over a cell to a vertex *)
Notation steps := (list (nat * nat * nat)) (only parsing).
Definition s_from (t : nat * nat * nat) : nat := fst (fst t).
Definition s_cell (t : nat * nat * nat) : nat := snd (fst t).
Definition s_to (t : nat * nat * nat) : nat := snd t.
Fixpoint trail (g : list (nat * nat)) (v : nat) (ts : list (nat * nat * nat)) (e : nat) : Prop :=
  match ts with
  | [] => v = e
  | t :: ts' => s_from t = v /\ (nth_error g (s_cell t) = Some (s_from t, s_to t) \/ nth_error g (s_cell t) = Some (s_to t, s_from t)) /\ trail g (s_to t) ts' e
  end.
(** The cells in [cs] make a path from [v] to [e] or a cycle through [v] *)
Definition path (g : list (nat * nat)) (cs : nat -> Prop) (v : nat) (ts : list (nat * nat * nat)) (e : nat) : Prop :=
  trail g v ts e /\ ts <> [] /\ NoDup (v :: map s_to ts) /\ NoDup (map s_cell ts) /\ forall c, cs c <-> In c (map s_cell ts).
Definition cycle (g : list (nat * nat)) (cs : nat -> Prop) (v : nat) (ts : list (nat * nat * nat)) : Prop :=
  trail g v ts v /\ ts <> [] /\ NoDup (map s_to ts) /\ NoDup (map s_cell ts) /\ forall c, cs c <-> In c (map s_cell ts).
Definition colored (vals : list nat) (k c : nat) : Prop := nth_error vals c = Some k.
(** pop takes an element out of a set *)
Definition pops (pop : nat -> list nat -> nat * list nat) : Prop := forall i s, s <> [] -> Permutation s (fst (pop i s) :: snd (pop i s)).

(** ** Incidence *)
Lemma c2v_nth g c a b : nth_error g c = Some (a, b) -> c2v g c = (a, b).
Proof. intros H. unfold c2v. apply nth_error_nth. exact H. Qed.
Lemma inc_bound g c v : inc g c v -> c < length g.
Proof. intros [a [b [H _]]]. apply nth_error_Some. congruence. Qed.
Lemma v2c_In g c v : In c (v2c g v) <-> inc g c v.
Proof.
  unfold v2c. rewrite filter_In, in_seq, orb_true_iff, !Nat.eqb_eq. split.
  - intros [H E]. destruct (nth_error g c) as [[a b]|] eqn:N; [|apply nth_error_None in N; lia]. rewrite (c2v_nth _ _ _ _ N) in E. exists a, b. auto.
  - intros I. pose proof (inc_bound _ _ _ I). destruct I as [a [b [N E]]]. rewrite (c2v_nth _ _ _ _ N). split; [lia|exact E].
Qed.
Lemma v2c_NoDup g v : NoDup (v2c g v).
Proof. apply NoDup_filter, seq_NoDup. Qed.
Lemma interior_two g v : interior g v <-> length (v2c g v) = 2.
Proof.
  pose proof (v2c_NoDup g v) as ND. split.
  - intros [c [d [N H]]]. assert (P : Permutation (v2c g v) [c; d]). { apply NoDup_Permutation; [exact ND|repeat constructor; cbn; intuition|]. intros e. rewrite v2c_In, H. cbn. intuition. } rewrite (Permutation_length P). reflexivity.
  - assert (I : forall e, In e (v2c g v) <-> inc g e v) by (intros; apply v2c_In). destruct (v2c g v) as [|c [|d [|]]]; try discriminate. intros _. exists c, d. split; [inversion ND as [|? ? X _]; cbn in X; intuition|]. intros e. rewrite <- I. cbn. intuition.
Qed.
Lemma interior_dec g v : interior g v \/ ~ interior g v.
Proof. rewrite interior_two. destruct (Nat.eq_dec (length (v2c g v)) 2); auto. Qed.

Section Graph.
Variables (nv : nat) (g : list (nat * nat)).
Hypothesis V : valid nv g.

Lemma inc_vertex c v : inc g c v -> v < nv.
Proof. intros [a [b [H E]]]. apply nth_error_In in H. destruct (V a b H) as [_ [A B]]. destruct E as [<-|<-]; assumption. Qed.
Lemma next_vertex_spec c v : inc g c v -> inc g c (next_vertex g c v) /\ next_vertex g c v <> v /\ forall w, inc g c w -> w = v \/ w = next_vertex g c v.
Proof.
  intros [a [b [H E]]]. unfold next_vertex. rewrite (c2v_nth _ _ _ _ H). cbn [fst snd]. destruct (V a b (nth_error_In _ _ H)) as [N _]. destruct (Nat.eqb_spec v a) as [->|NA].
  - split; [exists a, b; auto|split; [congruence|]]. intros w [a' [b' [H' E']]]. assert (Q : (a', b') = (a, b)) by congruence. injection Q as -> ->. destruct E' as [<-|<-]; auto.
  - destruct E as [E|E]; [congruence|]. subst v. split; [exists a, b; auto|split; [congruence|]]. intros w [a' [b' [H' E']]]. assert (Q : (a', b') = (a, b)) by congruence. injection Q as -> ->. destruct E' as [<-|<-]; auto.
Qed.
Lemma next_cell_spec v c : interior g v -> inc g c v -> exists c', next_cell g v c = Ok c' /\ c' <> c /\ inc g c' v /\ forall e, inc g e v -> e = c \/ e = c'.
Proof.
  intros I H. apply interior_two in I. unfold next_cell. pose proof (v2c_NoDup g v) as ND. assert (J : forall e, In e (v2c g v) <-> inc g e v) by (intros; apply v2c_In). destruct (v2c g v) as [|a [|b [|]]]; try discriminate.
  apply J in H. inversion ND as [|? ? X _]; subst. assert (AB : a <> b) by (intros ->; apply X; left; reflexivity). destruct (Nat.eqb_spec c a) as [->|N].
  - exists b. split; [reflexivity|split; [congruence|split; [apply J; cbn; auto|]]]. intros e E. apply J in E. cbn in E. intuition.
  - destruct H as [H|[H|[]]]; [congruence|]. subst c. exists a. split; [reflexivity|split; [congruence|split; [apply J; cbn; auto|]]]. intros e E. apply J in E. cbn in E. intuition.
Qed.

(** ** Dictionaries *)
Lemma get_put d v s w : get (put d v s) w = if w =? v then match get d v with Some _ => Some s | None => None end else get d w.
Proof.
  induction d as [|[x t] d IH]; cbn [put get]; [destruct (w =? v); reflexivity|]. destruct (Nat.eqb_spec x v) as [->|N]; cbn [get].
  - destruct (Nat.eqb_spec v w) as [->|N']; [rewrite Nat.eqb_refl; reflexivity|]. destruct (Nat.eqb_spec w v); [congruence|reflexivity].
  - destruct (Nat.eqb_spec x w) as [->|N']; [destruct (Nat.eqb_spec w v); [congruence|reflexivity]|]. exact IH.
Qed.
Lemma get_discard d v link w : get (discard d v link) w = if w =? v then option_map (remove Nat.eq_dec link) (get d v) else get d w.
Proof.
  unfold discard. destruct (get d v) as [s|] eqn:E; [rewrite get_put, E; reflexivity|]. destruct (Nat.eqb_spec w v) as [->|]; [exact E|reflexivity].
Qed.
Lemma terminals_get v : get (terminals_of nv g) v = if (v <? nv) && negb (length (v2c g v) =? 2) then Some (v2c g v) else None.
Proof.
  unfold terminals_of. assert (G : forall l, get (map (fun v => (v, v2c g v)) l) v = if is_in v l then Some (v2c g v) else None).
  { induction l as [|w l IH]; cbn; [reflexivity|]. destruct (Nat.eqb_spec w v) as [->|N]; [rewrite Nat.eqb_refl; reflexivity|]. destruct (Nat.eqb_spec v w); [congruence|]. exact IH. }
  rewrite G. unfold is_in. destruct (existsb _ _) eqn:E.
  - apply existsb_nat in E. apply filter_In in E. destruct E as [E F]. apply in_seq in E. rewrite F. destruct (Nat.ltb_spec v nv); [reflexivity|lia].
  - destruct (Nat.ltb_spec v nv) as [L|L]; [|reflexivity]. destruct (negb (length (v2c g v) =? 2)) eqn:F; [|reflexivity]. exfalso. assert (X : existsb (Nat.eqb v) (filter (fun v => negb (length (v2c g v) =? 2)) (seq 0 nv)) = true) by (apply existsb_nat, filter_In; split; [apply in_seq; lia|exact F]). congruence.
Qed.
Definition has_keys (d : list (nat * list nat)) : Prop := forall v, get d v <> None <-> terminal nv g v.
Lemma terminals_keys : has_keys (terminals_of nv g).
Proof.
  intros v. rewrite terminals_get. unfold terminal. rewrite interior_two. destruct (Nat.ltb_spec v nv) as [L|L]; cbn [andb].
  - destruct (Nat.eqb_spec (length (v2c g v)) 2); cbn [negb]; [split; [congruence|tauto]|split; [auto|discriminate]].
  - split; [congruence|lia].
Qed.

(** ** The walk *)
Definition closed (B : list nat) : Prop := forall c d, In c B -> linked g c d -> In d B.
(** Where the walk is after the cells [B]: at [c] coming from [v], having passed the
    vertices [P] *)
Record winv (start first : nat) (B P : list nat) (v c : nat) : Prop := {
  w_once : NoDup B; w_first : In first B; w_last : In c B; w_from : inc g c v;
  w_cells : forall d, In d B -> d < length g;
  w_conn : forall d, In d B -> same_branch g first d;
  w_ends : forall d w, In d B -> inc g d w -> (w = start /\ d = first) \/ In w P \/ (d = c /\ w = next_vertex g c v);
  w_passed : forall w, In w P -> interior g w /\ forall e, inc g e w -> In e B;
  w_fresh : ~ In (next_vertex g c v) P;
  w_trail : exists ts, trail g start ts (next_vertex g c v) /\ map s_cell ts = B /\ map s_to ts = rev P ++ [next_vertex g c v] /\ NoDup P }.
Lemma trail_snoc v ts e t : trail g v ts e -> s_from t = e -> (nth_error g (s_cell t) = Some (s_from t, s_to t) \/ nth_error g (s_cell t) = Some (s_to t, s_from t)) -> trail g v (ts ++ [t]) (s_to t).
Proof. revert v. induction ts as [|u ts IH]; intros v; cbn [trail app]; [intros -> F J; auto|]. intros [A [B C]] F J. split; [exact A|split; [exact B|apply IH; assumption]]. Qed.
Lemma inc_join c v : inc g c v -> nth_error g c = Some (v, next_vertex g c v) \/ nth_error g c = Some (next_vertex g c v, v).
Proof. intros [a [b [H E]]]. unfold next_vertex. rewrite (c2v_nth _ _ _ _ H). cbn [fst snd]. destruct (Nat.eqb_spec v a) as [->|N]; [auto|]. destruct E as [E|E]; [congruence|subst; auto]. Qed.
Lemma NoDup_bound l n : NoDup l -> (forall x, In x l -> x < n) -> length l <= n.
Proof. intros N H. rewrite <- (seq_length n 0). apply NoDup_incl_length; [exact N|]. intros x I. apply in_seq. specialize (H x I). lia. Qed.
Lemma walk_ok fuel start first terms B P v c : has_keys terms -> terminal nv g start -> winv start first B P v c -> length g < fuel + length B ->
  exists B' v' c', walk fuel g terms B v c = Ok (B', v', c') /\ NoDup B' /\ In first B' /\ In c' B' /\ closed B' /\ terminal nv g v' /\ inc g c' v' /\ (forall d, In d B' -> d < length g) /\ (forall d, In d B' -> same_branch g first d) /\
    (forall d w, In d B' -> inc g d w -> terminal nv g w -> (w = start /\ d = first) \/ (w = v' /\ d = c')) /\
    (exists ts, trail g start ts v' /\ map s_cell ts = B' /\ NoDup (map s_to ts) /\ forall w, In w (map s_to ts) -> w = v' \/ interior g w).
Proof.
  intros K TS. revert B P v c. induction fuel as [|fuel IH]; intros B P v c W L.
  - exfalso. pose proof (NoDup_bound B (length g) (w_once _ _ _ _ _ _ W) (w_cells _ _ _ _ _ _ W)). lia.
  - cbn [walk]. set (v1 := next_vertex g c v). destruct (next_vertex_spec c v (w_from _ _ _ _ _ _ W)) as [I1 [N1 O1]]. fold v1 in I1, N1, O1. destruct (get terms v1) as [s|] eqn:G.
    + assert (T1 : terminal nv g v1) by (apply K; congruence). exists B, v1, c. split; [reflexivity|]. destruct W as [W1 W2 W3 W4 W5 W6 W7 W8 W9 W10]. fold v1 in W7, W9, W10.
      split; [exact W1|split; [exact W2|split; [exact W3|split; [|split; [exact T1|split; [exact I1|split; [exact W5|split; [exact W6|split]]]]]]]].
      * intros d e D [w [IW [ID IE]]]. destruct (W7 d w D ID) as [[-> _]|[P1|[_ ->]]]; [destruct TS; contradiction|apply (W8 w P1); exact IE|destruct T1; contradiction].
      * intros d w D ID TW. destruct (W7 d w D ID) as [H|[P1|[-> ->]]]; [auto|destruct (W8 w P1) as [X _]; destruct TW; contradiction|auto].
      * destruct W10 as [ts [T2 [T3 [T4 T5]]]]. exists ts. split; [exact T2|split; [exact T3|]]. rewrite T4. split.
        -- apply (Permutation_NoDup (Permutation_cons_append (rev P) v1)). constructor; [rewrite <- in_rev; exact W9|apply NoDup_rev; exact T5].
        -- intros w H. apply in_app_iff in H. rewrite <- in_rev in H. destruct H as [H|[<-|[]]]; [right; apply (W8 w H)|auto].
    + assert (IN : interior g v1). { destruct (interior_dec g v1) as [H|H]; [exact H|]. exfalso. assert (T : terminal nv g v1) by (split; [apply (inc_vertex c); exact I1|exact H]). apply K in T. congruence. }
      destruct (next_cell_spec v1 c IN I1) as [c1 [E1 [NC [IC OC]]]]. rewrite E1. cbn [bind]. destruct W as [W1 W2 W3 W4 W5 W6 W7 W8 W9 W10]. fold v1 in W7, W9, W10.
      assert (FR : ~ In c1 B). { intros H. destruct (W7 c1 v1 H IC) as [[X _]|[P1|[X _]]]; [rewrite X in IN; destruct TS; contradiction|contradiction|congruence]. }
      apply (IH (B ++ [c1]) (v1 :: P) v1 c1); [|rewrite app_length; cbn; lia]. destruct (next_vertex_spec c1 v1 IC) as [J1 [M1 Q1]]. constructor.
      * apply (Permutation_NoDup (Permutation_cons_append B c1)). constructor; assumption.
      * apply in_app_iff. auto.
      * apply in_app_iff. right. left. reflexivity.
      * exact IC.
      * intros d D. apply in_app_iff in D. destruct D as [D|[<-|[]]]; [apply W5; exact D|eapply inc_bound; exact IC].
      * intros d D. apply in_app_iff in D. destruct D as [D|[<-|[]]]; [apply W6; exact D|]. eapply rt_trans; [apply (W6 c W3)|]. apply rt_step. exists v1. auto.
      * intros d w D ID. apply in_app_iff in D. destruct D as [D|[<-|[]]].
        -- destruct (W7 d w D ID) as [H|[H|[-> ->]]]; [auto|right; left; right; exact H|right; left; left; reflexivity].
        -- destruct (Q1 w ID) as [->| ->]; [right; left; left; reflexivity|auto].
      * intros w [<-|PW]; [split; [exact IN|]; intros e E; apply in_app_iff; destruct (OC e E) as [->| ->]; [left; exact W3|right; left; reflexivity]|]. destruct (W8 w PW) as [X Y]. split; [exact X|]. intros e E. apply in_app_iff. left. apply Y. exact E.
      * intros [H|H]; [congruence|]. apply FR. apply (W8 _ H). exact J1.
      * destruct W10 as [ts [T2 [T3 [T4 T5]]]]. exists (ts ++ [(v1, c1, next_vertex g c1 v1)]). split; [apply (trail_snoc start ts v1 (v1, c1, next_vertex g c1 v1) T2); [reflexivity|apply inc_join; exact IC]|]. rewrite !map_app, T3, T4. split; [reflexivity|split; [reflexivity|constructor; assumption]].
Qed.
Lemma walk_start start c terms : has_keys terms -> terminal nv g start -> inc g c start ->
  exists B' v' c', walk (length g) g terms [c] start c = Ok (B', v', c') /\ NoDup B' /\ In c B' /\ In c' B' /\ closed B' /\ terminal nv g v' /\ inc g c' v' /\ (forall d, In d B' -> d < length g) /\ (forall d, In d B' -> same_branch g c d) /\
    (forall d w, In d B' -> inc g d w -> terminal nv g w -> (w = start /\ d = c) \/ (w = v' /\ d = c')) /\
    (exists ts, trail g start ts v' /\ map s_cell ts = B' /\ NoDup (map s_to ts) /\ forall w, In w (map s_to ts) -> w = v' \/ interior g w).
Proof.
  intros K T I. apply (walk_ok (length g) start c terms [c] [] start c K T); [|cbn; lia]. destruct (next_vertex_spec c start I) as [J1 [M1 Q1]]. constructor.
  - repeat constructor. intros [].
  - left. reflexivity.
  - left. reflexivity.
  - exact I.
  - intros d [<-|[]]. eapply inc_bound. exact I.
  - intros d [<-|[]]. apply rt_refl.
  - intros d w [<-|[]] H. destruct (Q1 w H) as [->| ->]; auto.
  - intros w [].
  - intros [].
  - exists [(start, c, next_vertex g c start)]. cbn. split; [split; [reflexivity|split; [apply (inc_join c start I)|reflexivity]]|split; [reflexivity|split; [reflexivity|constructor]]].
Qed.
Lemma linked_sym c d : linked g c d -> linked g d c.
Proof. intros [v [A [B C]]]. exists v. auto. Qed.
Lemma same_sym c d : same_branch g c d -> same_branch g d c.
Proof. induction 1 as [? ? H|?|? ? ? _ A _ B]; [apply rt_step, linked_sym; exact H|apply rt_refl|eapply rt_trans; eauto]. Qed.
Lemma closed_same B c d : closed B -> In c B -> same_branch g c d -> In d B.
Proof. intros C I S. revert I. induction S as [? ? H|?|? ? ? _ A _ B']; intros I; [eapply C; eauto|exact I|auto]. Qed.

(** ** One branch after the other *)
Definition val (s : bstate) (c : nat) : nat := nth c (b_values s) 0.
Record binv (s : bstate) : Prop := {
  i_len : length (b_values s) = length g;
  i_keys : has_keys (b_terms s);
  i_terms : forall v l, get (b_terms s) v = Some l -> NoDup l /\ forall c, In c l <-> inc g c v /\ val s c = 0;
  i_linked : forall c d, linked g c d -> val s c = val s d;
  i_same : forall c d, val s c = val s d -> val s c <> 0 -> same_branch g c d;
  i_le : forall c, val s c <= b_color s;
  i_used : forall k, 1 <= k <= b_color s -> exists c, c < length g /\ val s c = k;
  i_report : Permutation (b_branch s ++ b_loop s) (seq 1 (b_color s));
  i_branch : forall k, In k (b_branch s) -> exists v ts w, terminal nv g v /\ terminal nv g w /\ v <> w /\ path g (colored (b_values s) k) v ts w /\ forall u, In u (map s_to ts) -> u = w \/ interior g u;
  i_loop : forall k, In k (b_loop s) -> exists v ts, terminal nv g v /\ cycle g (colored (b_values s) k) v ts /\ forall u, In u (map s_to ts) -> u = v \/ interior g u }.
Lemma path_ext P Q v ts e : (forall c, P c <-> Q c) -> path g P v ts e -> path g Q v ts e.
Proof. intros H [A [B [C [D E]]]]. split; [exact A|split; [exact B|split; [exact C|split; [exact D|]]]]. intros c. rewrite <- H. apply E. Qed.
Lemma cycle_ext P Q v ts : (forall c, P c <-> Q c) -> cycle g P v ts -> cycle g Q v ts.
Proof. intros H [A [B [C [D E]]]]. split; [exact A|split; [exact B|split; [exact C|split; [exact D|]]]]. intros c. rewrite <- H. apply E. Qed.
Definition uncolored (s : bstate) : nat := length (filter (fun c => val s c =? 0) (seq 0 (length g))).

Lemma filter_len_lt {A} (p q : A -> bool) l x : (forall y, q y = true -> p y = true) -> In x l -> p x = true -> q x = false -> length (filter q l) < length (filter p l).
Proof.
  intros H I PX QX. induction l as [|y l IH]; [destruct I|]. assert (LE : length (filter q l) <= length (filter p l)).
  { clear - H. induction l as [|z l IH]; cbn; [lia|]. destruct (q z) eqn:E; [rewrite (H z E); cbn; lia|destruct (p z); cbn; lia]. }
  cbn [filter]. destruct I as [->|I]; [rewrite PX, QX; cbn; lia|]. specialize (IH I). destruct (q y) eqn:E; [rewrite (H y E); cbn; lia|destruct (p y); cbn; lia].
Qed.
Lemma branch_step_ok pop vertex s l : pops pop -> binv s -> get (b_terms s) vertex = Some l -> l <> [] ->
  exists s', branch_step pop g vertex s = Ok s' /\ binv s' /\ uncolored s' < uncolored s.
Proof.
  intros PP [I1 I2 I3 I4 I5 I6 I7 I8 I9 I10] G NE. unfold branch_step. rewrite G. specialize (PP (b_color s) l NE). destruct (pop (b_color s) l) as [link rest]. cbn [fst snd] in PP.
  destruct (I3 vertex l G) as [NL IL]. assert (LK : In link l) by (apply (Permutation_in _ (Permutation_sym PP)); left; reflexivity). apply IL in LK. destruct LK as [LI LU].
  assert (TV : terminal nv g vertex) by (apply I2; congruence).
  assert (K' : has_keys (put (b_terms s) vertex rest)). { intros v. rewrite get_put, <- (I2 v). destruct (Nat.eqb_spec v vertex) as [->|]; [rewrite G; split; discriminate|reflexivity]. }
  destruct (walk_start vertex link _ K' TV LI) as [B [v0 [lc [W [BN [BF [BL [BC [TV0 [LC [BB [BS [BT [ts [TR [TC [TN TI]]]]]]]]]]]]]]]]]. rewrite W. cbn [bind].
  eexists. split; [reflexivity|]. set (s' := BState _ _ _ _ _).
  assert (VS : forall c, val s' c = if is_in c B then S (b_color s) else val s c).
  { intros c. unfold val, s'. cbn [b_values]. rewrite set_all_at_nth, I1. unfold is_in. destruct (existsb (Nat.eqb c) B) eqn:E; [|reflexivity]. apply existsb_nat in E. apply BB in E. apply Nat.ltb_lt in E. rewrite E. reflexivity. }
  assert (UN : forall d, In d B -> val s d = 0). { intros d D. rewrite <- LU. symmetry. assert (X := BS d D). clear - X I4. induction X as [? ? H|?|? ? ? _ A _ C]; [apply I4; exact H|reflexivity|congruence]. }
  assert (IB : forall c, is_in c B = true <-> In c B) by (intros; apply existsb_nat).
  assert (V0 : forall c, In c B -> val s' c = S (b_color s)). { intros c C. rewrite VS. apply IB in C. rewrite C. reflexivity. }
  assert (V1 : forall c, ~ In c B -> val s' c = val s c). { intros c C. rewrite VS. destruct (is_in c B) eqn:E; [apply IB in E; contradiction|reflexivity]. }
  assert (DB : forall c, In c B \/ ~ In c B) by (intros c; destruct (in_dec Nat.eq_dec c B); auto).
  assert (GT : forall v, get (b_terms s') v = option_map (fun l => if v =? v0 then remove Nat.eq_dec lc (if v =? vertex then remove Nat.eq_dec lc rest else l) else if v =? vertex then remove Nat.eq_dec lc rest else l) (get (b_terms s) v)).
  { intros v. unfold s'. cbn [b_terms]. rewrite !get_discard, !get_put, Nat.eqb_refl, G. destruct (Nat.eqb_spec v v0) as [->|N0].
    - destruct (Nat.eqb_spec v0 vertex) as [->|N1]; [rewrite G; reflexivity|]. destruct (get (b_terms s) v0); reflexivity.
    - destruct (Nat.eqb_spec v vertex) as [->|N1]; [rewrite G; reflexivity|]. destruct (get (b_terms s) v); reflexivity. }
  assert (RI : forall x y r, In y (remove Nat.eq_dec x r) <-> In y r /\ y <> x). { intros x y r. split; [intros H; apply in_remove in H; exact H|intros [A C]; apply in_in_remove; assumption]. }
  assert (RN : forall x r, NoDup r -> NoDup (remove Nat.eq_dec x r)). { intros x r N. induction N as [|y r H N IH]; cbn; [constructor|]. destruct (Nat.eq_dec x y); [exact IH|]. constructor; [|exact IH]. rewrite RI. tauto. }
  assert (NLR : NoDup (link :: rest)) by (eapply Permutation_NoDup; [exact PP|exact NL]). apply NoDup_cons_iff in NLR. destruct NLR as [NR1 NR2].
  assert (RST : forall c, In c rest <-> In c l /\ c <> link). { intros c. split; [intros H; split; [apply (Permutation_in _ (Permutation_sym PP)); right; exact H|congruence]|]. intros [H N]. apply (Permutation_in _ PP) in H. destruct H as [H|H]; [congruence|exact H]. }
  assert (LS : length (b_values s') = length g) by (unfold s'; cbn [b_values]; rewrite set_all_at_length; exact I1).
  assert (COL : forall t k c, length (b_values t) = length g -> (colored (b_values t) k c <-> c < length g /\ val t c = k)).
  { intros t k c L. unfold colored, val. split; [intros H; split; [rewrite <- L; apply nth_error_Some; congruence|apply nth_error_nth; exact H]|]. intros [H <-]. apply nth_error_nth'. lia. }
  assert (OLD : forall k c, 1 <= k <= b_color s -> (colored (b_values s') k c <-> colored (b_values s) k c)).
  { intros k c KB. rewrite !COL by assumption. destruct (DB c) as [C|C]; [rewrite (V0 c C), (UN c C); lia|rewrite (V1 c C); reflexivity]. }
  assert (NEW : forall c, colored (b_values s') (S (b_color s)) c <-> In c (map s_cell ts)).
  { intros c. rewrite COL by exact LS. rewrite TC. split; [|intros C; split; [apply BB; exact C|apply V0; exact C]]. intros [C E]. destruct (DB c) as [D|D]; [exact D|]. rewrite (V1 c D) in E. pose proof (I6 c). lia. }
  assert (TSN : ts <> []) by (intros ->; cbn in TC; rewrite <- TC in BF; destruct BF).
  split; [constructor|].
  - unfold s'. cbn [b_values]. rewrite set_all_at_length. exact I1.
  - intros v. rewrite GT, <- (I2 v). destruct (get (b_terms s) v); cbn; split; congruence.
  - intros v l' H. rewrite GT in H. destruct (get (b_terms s) v) as [l0|] eqn:G0; [|discriminate]. cbn [option_map] in H. destruct (I3 v l0 G0) as [N0 H0]. assert (TVV : terminal nv g v) by (apply I2; congruence).
    assert (MEM : forall c, In c l' <-> In c l0 /\ (v = vertex -> c <> link /\ c <> lc) /\ (v = v0 -> c <> lc)).
    { intros c. injection H as <-. destruct (Nat.eqb_spec v v0) as [Ev|Nv]; destruct (Nat.eqb_spec v vertex) as [Ew|Nw]; rewrite ?RI; try (assert (l0 = l) by congruence; subst l0; rewrite RST); tauto. }
    split.
    + injection H as <-. destruct (v =? v0), (v =? vertex); auto.
    + intros c. rewrite MEM, H0. split.
      * intros [[A C] [D E]]. split; [exact A|]. rewrite V1; [exact C|]. intros CB. destruct (BT c v CB A TVV) as [[-> ->]|[-> ->]]; [destruct (D eq_refl); congruence|apply E; reflexivity].
      * intros [A C]. assert (NB : ~ In c B) by (intros CB; rewrite (V0 c CB) in C; discriminate). rewrite V1 in C by exact NB. split; [auto|]. split; [intros _; split; congruence|intros _; congruence].
  - intros c d L. destruct (DB c) as [C|C]; destruct (DB d) as [D|D].
    + rewrite !V0 by assumption. reflexivity.
    + exfalso. apply D. eapply BC; eauto.
    + exfalso. apply C. eapply BC; [exact D|apply linked_sym; exact L].
    + rewrite !V1 by assumption. apply I4. exact L.
  - intros c d E N. destruct (DB c) as [C|C]; destruct (DB d) as [D|D].
    + eapply rt_trans; [apply same_sym, BS, C|apply BS, D].
    + rewrite (V0 c C), (V1 d D) in E. pose proof (I6 d). lia.
    + rewrite (V0 d D), (V1 c C) in E. pose proof (I6 c). lia.
    + rewrite !V1 in * by assumption. apply I5; assumption.
  - intros c. unfold s'. cbn [b_color]. fold s'. destruct (DB c) as [C|C]; [rewrite V0 by exact C; lia|rewrite V1 by exact C; pose proof (I6 c); lia].
  - intros k. unfold s'. cbn [b_color]. fold s'. intros H. destruct (Nat.eq_dec k (S (b_color s))) as [->|N]; [exists link; split; [eapply inc_bound; exact LI|apply V0; exact BF]|].
    destruct (I7 k ltac:(lia)) as [c [C E]]. exists c. split; [exact C|]. rewrite V1; [exact E|]. intros CB. rewrite (UN c CB) in E. lia.
  - unfold s'. cbn [b_color b_branch b_loop]. assert (SE : seq 1 (S (b_color s)) = seq 1 (b_color s) ++ [S (b_color s)]) by (rewrite seq_S; reflexivity). rewrite SE. destruct (v0 =? vertex).
    + rewrite app_assoc. apply Permutation_app_tail. exact I8.
    + rewrite <- app_assoc. cbn [app]. eapply Permutation_trans; [apply Permutation_app_head, Permutation_cons_append|]. rewrite app_assoc. apply Permutation_app_tail. exact I8.
  - intros k KI. assert (KB : k = S (b_color s) /\ v0 <> vertex \/ In k (b_branch s)). { unfold s' in KI. cbn [b_branch] in KI. destruct (Nat.eqb_spec v0 vertex); [auto|]. apply in_app_iff in KI. destruct KI as [KI|[<-|[]]]; auto. }
    destruct KB as [[-> NV]|KB].
    + exists vertex, ts, v0. split; [exact TV|split; [exact TV0|split; [congruence|split; [|exact TI]]]]. split; [exact TR|split; [exact TSN|split; [|split; [rewrite TC; exact BN|exact NEW]]]].
      constructor; [|exact TN]. intros H. destruct (TI _ H) as [->|H']; [congruence|destruct TV; contradiction].
    + destruct (I9 k KB) as [v [t2 [w [A [C [D [E F]]]]]]]. exists v, t2, w. split; [exact A|split; [exact C|split; [exact D|split; [|exact F]]]]. revert E. apply path_ext. intros c. symmetry. apply OLD. assert (X : In k (seq 1 (b_color s))) by (apply (Permutation_in _ I8), in_app_iff; auto). apply in_seq in X. lia.
  - intros k KI. assert (KB : k = S (b_color s) /\ v0 = vertex \/ In k (b_loop s)). { unfold s' in KI. cbn [b_loop] in KI. destruct (Nat.eqb_spec v0 vertex); [|auto]. apply in_app_iff in KI. destruct KI as [KI|[<-|[]]]; auto. }
    destruct KB as [[-> NV]|KB].
    + exists vertex, ts. split; [exact TV|split; [|rewrite <- NV; exact TI]]. split; [rewrite <- NV at 2; exact TR|split; [exact TSN|split; [exact TN|split; [rewrite TC; exact BN|exact NEW]]]].
    + destruct (I10 k KB) as [v [t2 [A [E F]]]]. exists v, t2. split; [exact A|split; [|exact F]]. revert E. apply cycle_ext. intros c. symmetry. apply OLD. assert (X : In k (seq 1 (b_color s))) by (apply (Permutation_in _ I8), in_app_iff; auto). apply in_seq in X. lia.
  - unfold uncolored. apply (filter_len_lt _ _ _ link).
    + intros c C. apply Nat.eqb_eq in C. apply Nat.eqb_eq. destruct (DB c) as [D|D]; [rewrite (V0 c D) in C; discriminate|rewrite (V1 c D) in C; exact C].
    + apply in_seq. pose proof (inc_bound _ _ _ LI). lia.
    + apply Nat.eqb_eq. exact LU.
    + rewrite (V0 link BF). reflexivity.
Qed.
Lemma filter_len_le {A} (p : A -> bool) l : length (filter p l) <= length l.
Proof. induction l as [|x l IH]; cbn; [lia|]. destruct (p x); cbn; lia. Qed.
Lemma leave_ok pop fuel vertex s : pops pop -> binv s -> get (b_terms s) vertex <> None -> uncolored s < fuel ->
  exists s', leave pop fuel g vertex s = Ok s' /\ binv s' /\ uncolored s' <= uncolored s /\ (forall c l, get (b_terms s) vertex = Some (c :: l) -> uncolored s' < uncolored s).
Proof.
  intros PP. revert s. induction fuel as [|fuel IH]; intros s B G L; [lia|]. cbn [leave]. destruct (get (b_terms s) vertex) as [[|c l]|] eqn:E; [|destruct (branch_step_ok pop vertex s (c :: l) PP B E ltac:(discriminate)) as [s1 [S1 [B1 U1]]]|congruence].
  - exists s. split; [reflexivity|split; [exact B|split; [lia|discriminate]]].
  - rewrite S1. cbn [bind]. destruct (IH s1 B1) as [s2 [S2 [B2 [U2 _]]]]; [|lia|].
    + intros H. assert (T : terminal nv g vertex) by (apply (i_keys _ B); congruence). apply (i_keys _ B1) in T. congruence.
    + exists s2. split; [exact S2|split; [exact B2|split; [lia|intros; lia]]].
Qed.
Lemma supset_nil a b : supset a b = true -> a <> [].
Proof. unfold supset. intros H ->. apply andb_true_iff in H. destruct H as [_ H]. apply negb_true_iff in H. discriminate. Qed.
Lemma supset_of_nil a : a <> [] -> supset a [] = true.
Proof. destruct a; [congruence|reflexivity]. Qed.
Lemma max_terminal_spec d v l : max_terminal d = Some (v, l) -> In (v, l) d /\ (l = [] -> forall w s, In (w, s) d -> s = []).
Proof.
  destruct d as [|t d]; [discriminate|]. cbn [max_terminal]. intros H. assert (E : fold_left (fun m t => if supset (snd t) (snd m) then t else m) d t = (v, l)) by congruence. clear H.
  revert t E. induction d as [|u d IH]; intros t E; cbn [fold_left] in E.
  - subst t. split; [left; reflexivity|]. intros -> w s [[= <- <-]|[]]. reflexivity.
  - destruct (supset (snd u) (snd t)) eqn:S.
    + destruct (IH u E) as [I H]. split; [right; exact I|]. intros ->. exfalso. apply (supset_nil _ _ S). destruct u as [u1 u2]. cbn. exact (H eq_refl u1 u2 (or_introl eq_refl)).
    + destruct (IH t E) as [I H]. split; [destruct I as [->|I]; [left; reflexivity|right; right; exact I]|]. intros -> w s [A|[A|A]]; [apply (H eq_refl w s); left; exact A| |apply (H eq_refl w s); right; exact A].
      subst u. cbn [snd] in S. assert (T0 : snd t = []) by (destruct t as [t1 t2]; exact (H eq_refl t1 t2 (or_introl eq_refl))). rewrite T0 in S. destruct s as [|x s]; [reflexivity|]. rewrite supset_of_nil in S by discriminate. discriminate.
Qed.
Lemma get_In d v l : get d v = Some l -> In (v, l) d.
Proof. induction d as [|[w s] d IH]; cbn; [discriminate|]. destruct (Nat.eqb_spec w v) as [->|]; [intros [= ->]; auto|auto]. Qed.
Lemma In_get d v l : NoDup (map fst d) -> In (v, l) d -> get d v = Some l.
Proof.
  induction d as [|[w s] d IH]; cbn [map fst get]; intros N H; [destruct H|]. inversion N as [|? ? N1 N2]; subst. destruct (Nat.eqb_spec w v) as [->|NE]; [destruct H as [[= ->]|H]; [reflexivity|exfalso; apply N1, in_map_iff; exists (v, l); auto]|].
  destruct H as [[= -> ->]|H]; [congruence|apply IH; assumption].
Qed.
Lemma put_fst d v s : map fst (put d v s) = map fst d.
Proof. induction d as [|[w t] d IH]; cbn; [reflexivity|]. destruct (w =? v); cbn; [reflexivity|rewrite IH; reflexivity]. Qed.
Lemma discard_fst d v l : map fst (discard d v l) = map fst d.
Proof. unfold discard. destruct (get d v); [apply put_fst|reflexivity]. Qed.
Lemma branch_step_fst pop vertex s s' : branch_step pop g vertex s = Ok s' -> map fst (b_terms s') = map fst (b_terms s).
Proof.
  unfold branch_step. destruct (get (b_terms s) vertex); [|discriminate]. destruct (pop (b_color s) l) as [link rest]. destruct (walk _ _ _ _ _ _) as [[[B v0] lc]|]; cbn [bind]; [|discriminate]. intros [= <-]. cbn [b_terms]. rewrite !discard_fst, put_fst. reflexivity.
Qed.
Lemma leave_fst pop fuel vertex s s' : leave pop fuel g vertex s = Ok s' -> map fst (b_terms s') = map fst (b_terms s).
Proof.
  revert s. induction fuel as [|fuel IH]; intros s H; [discriminate|]. cbn [leave] in H. destruct (get (b_terms s) vertex) as [[|c l]|]; [congruence| |discriminate]. destruct (branch_step pop g vertex s) as [s1|] eqn:E; [|discriminate]. cbn [bind] in H. rewrite (IH s1 H). eapply branch_step_fst. exact E.
Qed.
Lemma exhaust_ok pop fuel s : pops pop -> binv s -> NoDup (map fst (b_terms s)) -> b_terms s <> [] -> uncolored s < fuel ->
  exists s', exhaust pop fuel g s = Ok s' /\ binv s' /\ forall v l, get (b_terms s') v = Some l -> l = [].
Proof.
  intros PP. revert s. induction fuel as [|fuel IH]; intros s B ND NE L; [lia|]. cbn [exhaust]. destruct (max_terminal (b_terms s)) as [[v l]|] eqn:M; [|destruct (b_terms s); [congruence|discriminate]].
  destruct (max_terminal_spec _ _ _ M) as [I H]. destruct l as [|c l].
  - exists s. split; [reflexivity|split; [exact B|]]. intros w t T. apply (H eq_refl w t). apply get_In. exact T.
  - pose proof (In_get _ _ _ ND I) as G. assert (UB : uncolored s < S (length g)). { unfold uncolored. pose proof (filter_len_le (fun c => val s c =? 0) (seq 0 (length g))) as LE. rewrite seq_length in LE. lia. }
    destruct (leave_ok pop (S (length g)) v s PP B ltac:(congruence) UB) as [s1 [S1 [B1 [U1 U2]]]]. rewrite S1. cbn [bind]. pose proof (leave_fst _ _ _ _ _ S1) as FS. apply IH; [exact B1|rewrite FS; exact ND| |specialize (U2 c l G); lia].
    intros E. rewrite E in FS. destruct (b_terms s); [congruence|discriminate].
Qed.
Lemma start_inv : binv (BState (map (fun _ => 0) g) (terminals_of nv g) 0 [] []).
Proof.
  assert (Z : forall c, nth c (map (fun _ : nat * nat => 0) g) 0 = 0). { intros c. clear. revert c. induction g as [|x l IH]; intros [|c]; cbn; auto. }
  constructor; unfold val; cbn [b_values b_terms b_color b_branch b_loop].
  - apply map_length.
  - apply terminals_keys.
  - intros v l H. rewrite terminals_get in H. destruct (_ && _); [|discriminate]. injection H as <-. split; [apply v2c_NoDup|]. intros c. rewrite v2c_In, Z. tauto.
  - intros c d _. rewrite !Z. reflexivity.
  - intros c d _ H. rewrite Z in H. congruence.
  - intros c. rewrite Z. lia.
  - intros k H. lia.
  - cbn. constructor.
  - intros k [].
  - intros k [].
Qed.
Lemma terminals_NoDup : NoDup (map fst (terminals_of nv g)).
Proof. unfold terminals_of. rewrite map_map. cbn. rewrite map_id. apply NoDup_filter, seq_NoDup. Qed.
Lemma terminals_nil : terminals_of nv g = [] <-> forall v, ~ terminal nv g v.
Proof.
  split.
  - intros E v T. apply terminals_keys in T. rewrite E in T. apply T. reflexivity.
  - intros H. destruct (terminals_of nv g) as [|[v l] d] eqn:E; [reflexivity|]. exfalso. apply (H v). apply terminals_keys. rewrite E. cbn. rewrite Nat.eqb_refl. discriminate.
Qed.
End Graph.
