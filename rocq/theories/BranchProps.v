(** C41 and C42: colouring the branches of a 1d mesh and walking along them *)
From Verif Require Import Base BaseProofs FillModel FillProofs PatchProofs EmbedModel EmbedProofs BranchModel BranchProofs WalkProofs.
From Coq Require Import Permutation Relations.
Local Open Scope nat_scope.
Local Close Scope Q_scope.
Local Close Scope Qc_scope.

Lemma count_seq a n k : count_occ Nat.eq_dec (seq a n) k = if (a <=? k) && (k <? a + n) then 1 else 0.
Proof.
  destruct ((a <=? k) && (k <? a + n)) eqn:E.
  - apply andb_true_iff in E. rewrite Nat.leb_le, Nat.ltb_lt in E. apply NoDup_count_occ'; [apply seq_NoDup|apply in_seq; lia].
  - apply count_occ_not_In. rewrite in_seq. intros [A B]. apply Nat.leb_le in A. apply Nat.ltb_lt in B. rewrite A, B in E. discriminate.
Qed.
Lemma count_perm (l l' : list nat) k : Permutation l l' -> count_occ Nat.eq_dec l k = count_occ Nat.eq_dec l' k.
Proof. intros P. apply (Permutation_count_occ Nat.eq_dec) with (x := k) in P. exact P. Qed.
Lemma val_colored (vals : list nat) n c : length vals = n -> c < n -> colored vals (nth c vals 0) c.
Proof. intros <- H. apply nth_error_nth'. exact H. Qed.

(** Colouring always ends, cells of one branch get one colour and, if the mesh has a terminal,
    only they do; a cell stays without colour exactly if its branch has no terminal
    although the mesh does; the colours 1, 2, ... are all used and reported once. *)
Theorem C41_colors : forall pop nv g, pops pop -> valid nv g -> exists vals br lo,
  color_branches pop nv g = Ok (vals, br, lo) /\ length vals = length g /\
  (forall c d, c < length g -> d < length g -> same_branch g c d -> nth c vals 0 = nth d vals 0) /\
  (forall c d, c < length g -> d < length g -> nth c vals 0 = nth d vals 0 -> nth c vals 0 <> 0 -> (exists v, terminal nv g v) -> same_branch g c d) /\
  (forall c, c < length g -> (nth c vals 0 = 0 <-> (exists v, terminal nv g v) /\ ~ ends_somewhere nv g c)) /\
  (forall c, c < length g -> nth c vals 0 <> 0 -> count_occ Nat.eq_dec (br ++ lo) (nth c vals 0) = 1) /\
  (forall k, In k (br ++ lo) -> count_occ Nat.eq_dec (br ++ lo) k = 1 /\ (g <> [] -> exists c, c < length g /\ nth c vals 0 = k)).
Proof.
  intros pop nv g PP V. unfold color_branches. destruct (terminals_of nv g) as [|t0 ts0] eqn:T.
  - assert (Z : forall c, c < length g -> nth c (map (fun _ : nat * nat => 1) g) 0 = 1) by (clear; induction g as [|x g IH]; intros [|c] H; cbn in *; try lia; apply IH; lia).
    assert (NT : forall v, ~ terminal nv g v) by (apply terminals_nil; exact T).
    do 3 eexists. split; [reflexivity|]. split; [apply map_length|]. split; [intros c d C D _; rewrite !Z by assumption; reflexivity|].
    split; [intros c d _ _ _ _ [v H]; destruct (NT v H)|]. split; [intros c C; rewrite Z by exact C; split; [discriminate|intros [[v H] _]; destruct (NT v H)]|].
    split; [intros c C _; rewrite Z by exact C; reflexivity|]. intros k [<-|[]]. split; [reflexivity|]. intros N. exists 0. assert (0 < length g) by (destruct g; [congruence|cbn; lia]). split; [assumption|apply Z; assumption].
  - rewrite <- T. pose proof (start_inv nv g) as B0. set (s0 := BState _ _ _ _ _) in *. assert (UB : uncolored g s0 < S (length g)). { unfold uncolored. pose proof (filter_len_le (fun c => val s0 c =? 0) (seq 0 (length g))) as LE. rewrite seq_length in LE. lia. }
    destruct (exhaust_ok nv g V pop (S (length g)) s0 PP B0 (terminals_NoDup nv g)) as [s [E [[I1 I2 I3 I4 I5 I6 I7 I8 I9 I10] EM]]]; [unfold s0; cbn; rewrite T; discriminate|exact UB|]. rewrite E. cbn [bind].
    assert (TE : exists v, terminal nv g v). { exists (fst t0). apply terminals_keys. rewrite T. destruct t0 as [v l]. cbn. rewrite Nat.eqb_refl. discriminate. }
    assert (SM : forall c d, same_branch g c d -> val s c = val s d) by (intros c d X; induction X as [? ? H|?|? ? ? _ A _ C]; [apply I4; exact H|reflexivity|congruence]).
    assert (AC : forall k, In k (b_branch s ++ b_loop s) <-> 1 <= k <= b_color s). { intros k. assert (X : In k (b_branch s ++ b_loop s) <-> In k (seq 1 (b_color s))) by (split; apply Permutation_in; [|apply Permutation_sym]; exact I8). rewrite X, in_seq. lia. }
    assert (CO : forall k, 1 <= k <= b_color s -> count_occ Nat.eq_dec (b_branch s ++ b_loop s) k = 1). { intros k H. rewrite (count_perm _ _ k I8), count_seq. destruct (Nat.leb_spec 1 k); destruct (Nat.ltb_spec k (1 + b_color s)); cbn; lia. }
    exists (b_values s), (b_branch s), (b_loop s). split; [reflexivity|split; [exact I1|]]. split; [intros c d _ _ H; apply SM; exact H|]. split; [intros c d _ _ H N _; apply I5; assumption|]. split; [|split].
    + intros c C. fold (val s c). split.
      * intros Z. split; [exact TE|]. intros [d [v [SB [ID TV]]]]. assert (ZD : val s d = 0) by (rewrite <- (SM c d SB); exact Z). destruct (get (b_terms s) v) as [l|] eqn:G; [|apply I2 in TV; congruence].
        destruct (I3 v l G) as [_ M]. rewrite (EM v l G) in M. apply (proj2 (M d)). auto.
      * intros [_ N]. destruct (Nat.eq_dec (val s c) 0) as [|NZ]; [assumption|exfalso]. apply N.
        assert (ST : exists t v, terminal nv g v /\ s_from t = v /\ inc g (s_cell t) v /\ colored (b_values s) (val s c) (s_cell t)).
        { assert (X : In (val s c) (b_branch s ++ b_loop s)) by (apply AC; specialize (I6 c); lia). apply in_app_iff in X. destruct X as [X|X].
          - destruct (I9 _ X) as [v [ts [w [TV [_ [_ [[TR [NE [_ [_ CS]]]] _]]]]]]]. destruct ts as [|t ts]; [congruence|]. exists t, v. destruct TR as [F [J _]]. split; [exact TV|split; [exact F|split; [|apply CS; left; reflexivity]]]. rewrite <- F. destruct J as [J|J]; eexists; eexists; (split; [exact J|auto]).
          - destruct (I10 _ X) as [v [ts [TV [[TR [NE [_ [_ CS]]]] _]]]]. destruct ts as [|t ts]; [congruence|]. exists t, v. destruct TR as [F [J _]]. split; [exact TV|split; [exact F|split; [|apply CS; left; reflexivity]]]. rewrite <- F. destruct J as [J|J]; eexists; eexists; (split; [exact J|auto]). }
        destruct ST as [t [v [TV [_ [IC CL]]]]]. exists (s_cell t), v. split; [|auto]. apply I5; [|exact NZ]. symmetry. apply nth_error_nth. exact CL.
    + intros c C NZ. apply CO. fold (val s c) in *. specialize (I6 c). lia.
    + intros k K. apply AC in K. split; [apply CO; exact K|]. intros _. destruct (I7 k K) as [c [C H]]. exists c. auto.
Qed.
Print Assumptions C41_colors.

(** Where every branch ends in a terminal, or nothing does, every cell gets exactly one
    colour, which is reported exactly once. *)
Theorem C41_partial : forall pop nv g, pops pop -> valid nv g -> ((forall c, c < length g -> ends_somewhere nv g c) \/ (forall v, ~ terminal nv g v)) -> exists vals br lo,
  color_branches pop nv g = Ok (vals, br, lo) /\ length vals = length g /\
  (forall c, c < length g -> count_occ Nat.eq_dec (br ++ lo) (nth c vals 0) = 1) /\
  (forall c d, c < length g -> d < length g -> linked g c d -> nth c vals 0 = nth d vals 0).
Proof.
  intros pop nv g PP V H. destruct (C41_colors pop nv g PP V) as [vals [br [lo [E [L [A [_ [Z [C _]]]]]]]]]. exists vals, br, lo. split; [exact E|split; [exact L|split]].
  - intros c B. apply C; [exact B|]. intros X. apply (Z c B) in X. destruct X as [[v TV] N]. destruct H as [H|H]; [exact (N (H c B))|exact (H v TV)].
  - intros c d B D LK. apply A; [exact B|exact D|apply rt_step; exact LK].
Qed.
Print Assumptions C41_partial.

(** A line and a triangle apart from it: the cells of the triangle get no colour. *)
Definition line_and_ring : list (nat * nat) := [(0, 1); (2, 3); (3, 4); (4, 2)].
Definition pop_first (i : nat) (s : list nat) : nat * list nat := (hd 0 s, tl s).
Lemma pop_first_pops : pops pop_first.
Proof. intros i [|x s] H; [congruence|]. apply Permutation_refl. Qed.
Definition validb (nv : nat) (g : list (nat * nat)) : bool := forallb (fun e => negb (fst e =? snd e) && (fst e <? nv) && (snd e <? nv)) g.
Lemma validb_ok nv g : validb nv g = true -> valid nv g.
Proof.
  intros H a b I. unfold validb in H. rewrite forallb_forall in H. specialize (H _ I). cbn [fst snd] in H. apply andb_true_iff in H. destruct H as [H B]. apply andb_true_iff in H. destruct H as [H A]. apply negb_true_iff, Nat.eqb_neq in H. apply Nat.ltb_lt in A, B. auto.
Qed.
Theorem C41_refuted : ~ forall pop nv g, pops pop -> valid nv g -> forall vals br lo, color_branches pop nv g = Ok (vals, br, lo) -> forall c, c < length g -> count_occ Nat.eq_dec (br ++ lo) (nth c vals 0) = 1.
Proof.
  intros H. specialize (H pop_first 5 line_and_ring pop_first_pops (validb_ok 5 line_and_ring eq_refl) [1; 0; 0; 0] [1] [] eq_refl 1 ltac:(cbn; lia)). discriminate.
Qed.
Print Assumptions C41_refuted.

(** The cells of a colour reported as branch make a path between two terminals, those of a
    colour reported as loop a cycle through one; there are no terminals in between. *)
Theorem C41_shapes : forall pop nv g vals br lo, pops pop -> valid nv g -> color_branches pop nv g = Ok (vals, br, lo) -> (exists v, terminal nv g v) ->
  (forall k, In k br -> exists v ts w, terminal nv g v /\ terminal nv g w /\ v <> w /\ path g (colored vals k) v ts w /\ forall u, In u (map s_to ts) -> u = w \/ interior g u) /\
  (forall k, In k lo -> exists v ts, terminal nv g v /\ cycle g (colored vals k) v ts /\ forall u, In u (map s_to ts) -> u = v \/ interior g u).
Proof.
  intros pop nv g vals br lo PP V H [v0 T0]. unfold color_branches in H. destruct (terminals_of nv g) as [|t0 ts0] eqn:T; [exfalso; exact (proj1 (terminals_nil nv g) T v0 T0)|].
  rewrite <- T in H. pose proof (start_inv nv g) as B0. set (s0 := BState _ _ _ _ _) in *. assert (UB : uncolored g s0 < S (length g)). { unfold uncolored. pose proof (filter_len_le (fun c => val s0 c =? 0) (seq 0 (length g))) as LE. rewrite seq_length in LE. lia. }
  destruct (exhaust_ok nv g V pop (S (length g)) s0 PP B0 (terminals_NoDup nv g)) as [s [E [[_ _ _ _ _ _ _ _ I9 I10] _]]]; [unfold s0; cbn; rewrite T; discriminate|exact UB|]. rewrite E in H. cbn [bind] in H. injection H as <- <- <-. split; assumption.
Qed.
Print Assumptions C41_shapes.

(** A figure like 8 with a tail: one loop, two branches *)
Definition network : list (nat * nat) := [(1, 0); (1, 2); (3, 2); (3, 1); (4, 1); (5, 4)].
Example C41_network : color_branches pop_first 6 network = Ok ([1; 2; 2; 2; 3; 3], [1; 3], [2]).
Proof. reflexivity. Qed.
Example C41_network_valid : valid 6 network /\ terminal 6 network 0 /\ ~ terminal 6 network 4.
Proof.
  split; [apply validb_ok; reflexivity|]. unfold terminal. rewrite !interior_two. cbn. split; [split; lia|]. intros [_ H]. apply H. reflexivity.
Qed.
Example C41_network_ends : forall c, c < length network -> ends_somewhere 6 network c.
Proof.
  intros c C. assert (T1 : terminal 6 network 1) by (split; [lia|]; rewrite interior_two; cbn; lia). assert (T0 : terminal 6 network 0) by (apply C41_network_valid).
  assert (L : forall a b v, In v [2; 3; 4] -> inc network a v -> inc network b v -> linked network a b) by (intros a b v X A B; exists v; split; [apply interior_two; cbn in X; destruct X as [<-|[<-|[<-|[]]]]; reflexivity|auto]).
  assert (IN : forall a p q v, nth_error network a = Some (p, q) -> p = v \/ q = v -> inc network a v) by (intros a p q v A B; exists p, q; auto).
  destruct c as [|[|[|[|[|[|c]]]]]]; [| | | | | |cbn in C; lia].
  - exists 0, 0. split; [apply rt_refl|split; [eapply IN; [reflexivity|auto]|exact T0]].
  - exists 1, 1. split; [apply rt_refl|split; [eapply IN; [reflexivity|auto]|exact T1]].
  - exists 1, 1. split; [apply rt_step, (L 2 1 2); [cbn; auto|eapply IN; [reflexivity|auto]|eapply IN; [reflexivity|auto]]|split; [eapply IN; [reflexivity|auto]|exact T1]].
  - exists 3, 1. split; [apply rt_refl|split; [eapply IN; [reflexivity|auto]|exact T1]].
  - exists 4, 1. split; [apply rt_refl|split; [eapply IN; [reflexivity|auto]|exact T1]].
  - exists 4, 1. split; [apply rt_step, (L 5 4 4); [cbn; auto|eapply IN; [reflexivity|auto]|eapply IN; [reflexivity|auto]]|split; [eapply IN; [reflexivity|auto]|exact T1]].
Qed.

(** ** C42 *)
(** On a cycle walk_cells goes once around: the yielded cells with their orientations are
    the steps of the cycle. *)
Theorem C42_loop : forall arr nv g values tag v ts, lists_set arr -> valid nv g -> cycle g (colored values tag) v ts ->
  exists out u us, walk_cells arr values tag g true = Ok out /\ cycle g (colored values tag) u us /\ Forall2 (makes g) out us.
Proof. intros arr nv g values tag v ts AR V H. exact (walk_loop_ok nv g arr V AR values tag v ts H). Qed.
Print Assumptions C42_loop.
(** On a path it goes from one end to the other; it does not start in an end of the mesh if
    the other end is a bifurcation. *)
Theorem C42_branch : forall arr nv g values tag v ts e, lists_set arr -> valid nv g -> path g (colored values tag) v ts e ->
  exists out u us x, walk_cells arr values tag g false = Ok out /\ path g (colored values tag) u us x /\ (u = v /\ x = e \/ u = e /\ x = v) /\ Forall2 (makes g) out us /\
    ((forall c d, inc g c u -> inc g d u -> c = d) -> forall c d, inc g c x -> inc g d x -> c = d).
Proof.
  intros arr nv g values tag v ts e AR V H. destruct (walk_branch_ok nv g arr V AR values tag v ts e H) as [out [u [us [x [A [B [C [D E]]]]]]]]. exists out, u, us, x. split; [exact A|split; [exact B|split; [exact C|split; [exact E|]]]].
  intros O c d IC ID. apply v2c_In in IC, ID. assert (LE : length (v2c g u) <= 1). { pose proof (v2c_NoDup g u) as N. destruct (v2c g u) as [|p [|q l]] eqn:Q; cbn; try lia. exfalso. assert (p = q) by (apply O; apply v2c_In; rewrite Q; cbn; auto). subst q. inversion N as [|? ? X _]. apply X. left. reflexivity. }
  destruct (v2c g x) as [|p [|q l]]; [destruct IC| |cbn in D; lia]. destruct IC as [<-|[]]. destruct ID as [<-|[]]. reflexivity.
Qed.
Print Assumptions C42_branch.
(** In words of the yielded pairs: every cell of the colour once, nothing else, head to tail *)
Theorem C42_head_to_tail : forall g P out u us x, (path g P u us x \/ (cycle g P u us /\ u = x)) -> Forall2 (makes g) out us ->
  NoDup (map fst out) /\ (forall c, P c <-> In c (map fst out)) /\
  (forall i c o c' o', nth_error out i = Some (c, o) -> nth_error out (S i) = Some (c', o') -> exists a b a' b', nth_error g c = Some (a, b) /\ nth_error g c' = Some (a', b') /\ (if o then b else a) = (if o' then a' else b')).
Proof.
  intros g P out u us x H F. assert (TR : trail g u us x /\ NoDup (map s_cell us) /\ forall c, P c <-> In c (map s_cell us)).
  { destruct H as [[A [_ [_ [D E]]]]|[[A [_ [_ [D E]]]] ->]]; auto. }
  destruct TR as [A [D E]]. assert (M : map fst out = map s_cell us). { clear - F. induction F as [|o t out us [H _] F IH]; cbn; [reflexivity|congruence]. } rewrite M. split; [exact D|split; [exact E|]]. clear - A F.
  revert u A. induction F as [|o1 t out us [H1 [a [b [N1 Q1]]]] F IH]; intros u A i c o c' o' C C'; [destruct i; discriminate|]. destruct A as [A1 [_ A3]]. destruct i as [|i].
  - destruct F as [|o2 t2 out us [H2 [a2 [b2 [N2 Q2]]]] F]; [discriminate|]. injection C as ->. injection C' as ->. cbn [fst snd] in *. exists a, b, a2, b2. split; [exact N1|split; [exact N2|]]. destruct A3 as [A3 _]. destruct o, o'; injection Q1; injection Q2; congruence.
  - apply (IH (s_to t) A3 i c o c' o'); assumption.
Qed.
Print Assumptions C42_head_to_tail.
(** walk_vertices gives the vertices on the way; for a mesh instead of a function it fails. *)
Theorem C42_vertices : forall arr nv g values tag (loop : bool) v ts e, lists_set arr -> valid nv g -> 1 < length g ->
  (if loop then cycle g (colored values tag) v ts /\ v = e else path g (colored values tag) v ts e) ->
  exists u us x, (if loop then cycle g (colored values tag) u us /\ u = x else path g (colored values tag) u us x) /\ walk_vertices arr (Some values) tag g loop = Ok (u :: map s_to us).
Proof.
  intros arr nv g values tag loop v ts e AR V L H. destruct loop.
  - destruct H as [H _]. destruct (C42_loop arr nv g values tag v ts AR V H) as [out [u [us [W [C F]]]]]. exists u, us, u. split; [auto|]. destruct C as [C1 [C2 _]]. eapply walk_vertices_ok; eauto.
  - destruct (C42_branch arr nv g values tag v ts e AR V H) as [out [u [us [x [W [C [_ [F _]]]]]]]]. exists u, us, x. split; [exact C|]. destruct C as [C1 [C2 _]]. eapply walk_vertices_ok; eauto.
Qed.
Print Assumptions C42_vertices.
Theorem C42_mesh_rejected : forall arr g tag loop, exists e, walk_vertices arr None tag g loop = Err e.
Proof. intros. unfold walk_vertices. destruct (1 <? length g); eexists; reflexivity. Qed.
Print Assumptions C42_mesh_rejected.
(** Every colour that color_branches reports on a mesh with terminals can be walked. *)
Theorem C42_after_coloring : forall arr pop nv g vals br lo, lists_set arr -> pops pop -> valid nv g -> color_branches pop nv g = Ok (vals, br, lo) -> (exists v, terminal nv g v) ->
  (forall k, In k br -> exists out u us x, walk_cells arr vals k g false = Ok out /\ path g (colored vals k) u us x /\ Forall2 (makes g) out us) /\
  (forall k, In k lo -> exists out u us, walk_cells arr vals k g true = Ok out /\ cycle g (colored vals k) u us /\ Forall2 (makes g) out us).
Proof.
  intros arr pop nv g vals br lo AR PP V E T. destruct (C41_shapes pop nv g vals br lo PP V E T) as [A B]. split; intros k K.
  - destruct (A k K) as [v [ts [w [_ [_ [_ [P _]]]]]]]. destruct (C42_branch arr nv g vals k v ts w AR V P) as [out [u [us [x [X1 [X2 [_ [X3 _]]]]]]]]. exists out, u, us, x. auto.
  - destruct (B k K) as [v [ts [_ [P _]]]]. exact (C42_loop arr nv g vals k v ts AR V P).
Qed.
Print Assumptions C42_after_coloring.
(** Without terminals all cells are reported as one loop, also if there are two cycles: then
    the walk leaves one out. *)
Theorem C42_two_cycles_refuted : ~ forall pop nv g vals br lo out k, pops pop -> valid nv g -> color_branches pop nv g = Ok (vals, br, lo) -> In k lo -> walk_cells (fun s => s) vals k g true = Ok out -> forall c, colored vals k c -> In c (map fst out).
Proof.
  intros H. specialize (H pop_first 6 [(0, 1); (1, 2); (2, 0); (3, 4); (4, 5); (5, 3)] [1; 1; 1; 1; 1; 1] [] [1] [(0, true); (1, true); (2, true)] 1 pop_first_pops (validb_ok 6 [(0, 1); (1, 2); (2, 0); (3, 4); (4, 5); (5, 3)] eq_refl) eq_refl (or_introl eq_refl) eq_refl 3 eq_refl). cbn in H. intuition discriminate.
Qed.
Print Assumptions C42_two_cycles_refuted.

Example C42_network_loop : walk_cells (@rev nat) [1; 2; 2; 2; 3; 3] 2 network true = Ok [(1, true); (2, false); (3, true)] /\
  cycle network (colored [1; 2; 2; 2; 3; 3] 2) 1 [(1, 1, 2); (2, 2, 3); (3, 3, 1)].
Proof.
  split; [reflexivity|]. split; [cbn; repeat (split; [reflexivity|split; [auto|]]); reflexivity|]. split; [discriminate|split; [repeat constructor; cbn; intuition discriminate|split; [repeat constructor; cbn; intuition discriminate|]]].
  intros c. unfold colored. cbn. split; [|intros [<-|[<-|[<-|[]]]]; reflexivity]. do 6 (destruct c as [|c]; [cbn; intros X; try discriminate; auto|]). destruct c; discriminate.
Qed.
Example C42_network_branch : walk_cells (@rev nat) [1; 2; 2; 2; 3; 3] 3 network false = Ok [(4, false); (5, false)] /\
  path network (colored [1; 2; 2; 2; 3; 3] 3) 1 [(1, 4, 4); (4, 5, 5)] 5.
Proof.
  split; [reflexivity|]. split; [cbn; repeat (split; [reflexivity|split; [auto|]]); reflexivity|]. split; [discriminate|split; [repeat constructor; cbn; intuition discriminate|split; [repeat constructor; cbn; intuition discriminate|]]].
  intros c. unfold colored. cbn. split; [|intros [<-|[<-|[]]]; reflexivity]. do 6 (destruct c as [|c]; [cbn; intros X; try discriminate; auto|]). destruct c; discriminate.
Qed.
Example C42_rev_lists : lists_set (@rev nat).
Proof. intros s. apply Permutation_rev. Qed.
