(** Unit tangent of a curve (property C69) *)
From Coq Require Import Reals Lra Sorting.Sorted.
From Verif Require Import BaseProofs EmbedProofs FillProofs ConvertProofs TangentModel TangentProofs.
Local Close Scope R_scope.
Local Open Scope nat_scope.

Lemma roots_leaf nv g v : simple_mesh nv g -> In v (roots_of nv g) <-> leaf g v.
Proof.
  intros [V _]. unfold roots_of, leaf. rewrite filter_In, in_seq, Nat.eqb_eq. split.
  - intros [_ L]. destruct (v2c g v) as [|c [|]] eqn:E; try discriminate. exists c. intros d. rewrite <- v2c_In, E. cbn. split; [intros [H|[]]; congruence|intros ->; left; reflexivity].
  - intros [c C]. assert (E : v2c g v = [c]) by (apply single; [apply v2c_NoDup|apply v2c_In, C; reflexivity|intros y Y; apply C, v2c_In, Y]). rewrite E. split; [|reflexivity]. destruct (proj2 (C c) eq_refl) as [w [W|W]]; apply nth_error_In in W; apply V in W; lia.
Qed.
Lemma last_In {A} (l : list A) d : l <> [] -> In (last l d) l.
Proof. induction l as [|a [|b l] IH]; intros H; [congruence|left; reflexivity|right; apply IH; discriminate]. Qed.
Lemma from_root nv g X root r : simple_mesh nv g -> In r (roots_of nv g) -> (root = Some r \/ (root = None /\ r = last (roots_of nv g) 0)) ->
  exists es values, tangent_curve nv g X root = Ok (values, true) /\ grows g r es /\ closed g r es /\ length values = length g /\
    (forall c a b, In (a, b) es -> cell_is g c a b -> nth c values [] = tangent (X a) (X b)) /\
    forall c, c < length g -> (forall a b, In (a, b) es -> ~ cell_is g c a b) -> nth c values [] = tangent (X (fst (c2v g c))) (X (snd (c2v g c))).
Proof.
  intros M Hr Hroot. pose proof M as [V _]. assert (Hn : r < nv) by (unfold roots_of in Hr; apply filter_In in Hr; destruct Hr as [Hr _]; apply in_seq in Hr; lia).
  destruct (dfs_edges_ok nv g r V Hn) as [es [D [G C]]].
  assert (W : forall e, In e es -> exists c, the_cell g (fst e) (snd e) = Ok c /\ c < length (repeat (@None (list R)) (length g))).
  { intros [a b] E. destruct (grows_edge g r es a b G E) as [J _]. destruct (joined_cell g a b J) as [c Hc]. exists c. split; [apply (the_cell_ok nv); assumption|]. rewrite repeat_length. destruct Hc as [Hc|Hc]; apply nth_error_Some; congruence. }
  destruct (writes g X es _ W) as [vis [F [L P]]]. rewrite repeat_length in L. set (values := map (fun c => match nth c vis None with Some t => t | None => tangent (X (fst (c2v g c))) (X (snd (c2v g c))) end) (seq 0 (length g))).
  assert (Msg : existsb (fun v => match v with Some _ => true | None => false end) vis = true).
  { pose proof (proj1 (roots_leaf nv g r M) Hr) as [c K]. destruct (proj2 (K c) eq_refl) as [w Cw]. assert (J : joined g r w) by (apply (cell_joined g c); exact Cw). assert (Nw : w <> r) by (destruct J as [J|J]; apply V in J; lia). destruct (C r w (or_introl eq_refl) J) as [Q|Q]; [congruence|]. apply in_map_iff in Q. destruct Q as [[a b] [Q E]]. cbn in Q. subst b. destruct (W _ E) as [d [Hd Ld]]. rewrite repeat_length in Ld. apply existsb_exists. exists (nth d vis None). split; [apply nth_In; lia|]. destruct (P d) as [[e [_ [_ ->]]]|[N _]]; [reflexivity|]. exfalso. apply (N _ E Hd). }
  exists es, values. split; [|split; [exact G|split; [exact C|split; [unfold values; rewrite map_length, seq_length; reflexivity|split]]]].
  - unfold tangent_curve. destruct (roots_of nv g) as [|x roots] eqn:R; [destruct Hr|]. assert (RR : (do r0 <- match root with Some r0 => do _ <- py_assert (is_in r0 (x :: roots)); Ok r0 | None => Ok (last (x :: roots) 0) end; dfs_edges nv g r0) = Ok es).
    { destruct Hroot as [-> | [-> ->]]; [rewrite (proj2 (is_in_spec r (x :: roots)) Hr); exact D|exact D]. }
    rewrite RR. cbn [bind]. change (foldM _ es (repeat None (length g))) with (foldM (write g X) es (repeat None (length g))). rewrite F. cbn [bind]. rewrite Msg. reflexivity.
  - intros c a b E Hc. assert (Hl : c < length g) by (destruct Hc as [Hc|Hc]; apply nth_error_Some; congruence). unfold values. rewrite (nth_map_seq _ _ _ _ Hl). destruct (P c) as [[[a' b'] [E' [Q ->]]]|[N _]].
    + cbn [fst snd] in *. destruct (grows_edge g r es a' b' G E') as [J _]. destruct (joined_cell g a' b' J) as [c' Hc']. rewrite (the_cell_ok nv g c' a' b' M Hc') in Q. injection Q as ->. destruct (cell_ends _ _ _ _ _ _ Hc Hc') as [[-> ->]|[-> ->]]; [reflexivity|]. exfalso. apply (grows_opposite g r es b' a' G); assumption.
    + exfalso. apply (N _ E). cbn. apply (the_cell_ok nv); assumption.
  - intros c Hl N. unfold values. rewrite (nth_map_seq _ _ _ _ Hl). destruct (P c) as [[[a b] [E [Q _]]]|[_ ->]].
    + exfalso. destruct (grows_edge g r es a b G E) as [J _]. destruct (joined_cell g a b J) as [c' Hc']. cbn [fst snd] in Q. rewrite (the_cell_ok nv g c' a b M Hc') in Q. injection Q as ->. apply (N a b E Hc').
    + replace (nth c (repeat None (length g)) None) with (@None (list R)); [reflexivity|]. clear. revert c. induction (length g) as [|n IH]; intros [|c]; try reflexivity. apply IH.
Qed.
Lemma no_root nv g X root : roots_of nv g = [] -> tangent_curve nv g X root = Ok (map (fun c => tangent (X (fst (c2v g c))) (X (snd (c2v g c)))) (seq 0 (length g)), false).
Proof.
  intros E. unfold tangent_curve. rewrite E. cbn [bind foldM]. assert (Z : forall c, nth c (repeat (@None (list R)) (length g)) None = None). { induction (length g) as [|n IH]; intros [|c]; try reflexivity. apply IH. } f_equal. f_equal.
  - apply map_ext. intros c. rewrite Z. reflexivity.
  - clear. induction (length g) as [|n IH]; [reflexivity|exact IH].
Qed.
Lemma tangent_cell gdim g X c a b : coordinates gdim g X -> cell_is g c a b -> directed (X a) (X b) (tangent (X a) (X b)).
Proof.
  intros [L N] H. apply tangent_directed; [rewrite !L; reflexivity|]. destruct H as [H|H]; apply nth_error_In in H; apply N in H; congruence.
Qed.
Lemma local_cell g c : c < length g -> cell_is g c (fst (c2v g c)) (snd (c2v g c)).
Proof. intros H. left. rewrite (c2v_nth_error g c H). destruct (c2v g c); reflexivity. Qed.

(** All vectors have length 1 and are along the cells *)
Theorem C69_unit : forall nv gdim g X root values message,
  simple_mesh nv g -> coordinates gdim g X -> tangent_curve nv g X root = Ok (values, message) ->
  length values = length g /\ forall c, c < length g -> exists a b, cell_is g c a b /\ directed (X a) (X b) (nth c values []).
Proof.
  intros nv gdim g X root values message M K H. destruct (roots_of nv g) as [|x roots] eqn:R.
  - rewrite (no_root nv g X root R) in H. injection H as <- <-. split; [rewrite map_length, seq_length; reflexivity|]. intros c Hc. exists (fst (c2v g c)), (snd (c2v g c)). split; [apply local_cell, Hc|]. rewrite (nth_map_seq _ _ _ _ Hc). apply (tangent_cell gdim g X c); [exact K|apply local_cell, Hc].
  - assert (Q : exists r, In r (roots_of nv g) /\ (root = Some r \/ (root = None /\ r = last (roots_of nv g) 0))).
    { destruct root as [r|]; [|exists (last (roots_of nv g) 0); split; [apply last_In; congruence|right; split; reflexivity]]. unfold tangent_curve in H. rewrite R in H. destruct (is_in r (x :: roots)) eqn:I; [|discriminate]. exists r. split; [rewrite R; apply is_in_spec, I|left; reflexivity]. }
    destruct Q as [r [Hr Hroot]]. destruct (from_root nv g X root r M Hr Hroot) as [es [vs [E [G [C [L [P1 P2]]]]]]]. rewrite H in E. injection E as <- _. split; [exact L|]. intros c Hc. set (a := fst (c2v g c)). set (b := snd (c2v g c)). assert (Cab : cell_is g c a b) by (apply local_cell, Hc).
    destruct (in_dec (fun p q : nat * nat => ltac:(decide equality; apply Nat.eq_dec)) (a, b) es) as [I|I]; [exists a, b; split; [exact Cab|rewrite (P1 c a b I Cab); apply (tangent_cell gdim g X c); assumption]|].
    destruct (in_dec (fun p q : nat * nat => ltac:(decide equality; apply Nat.eq_dec)) (b, a) es) as [I'|I']; [exists b, a; split; [apply cell_is_sym, Cab|rewrite (P1 c b a I' (cell_is_sym _ _ _ _ Cab)); apply (tangent_cell gdim g X c); [assumption|apply cell_is_sym, Cab]]|].
    exists a, b. split; [exact Cab|]. rewrite (P2 c Hc); [apply (tangent_cell gdim g X c); assumption|]. intros a' b' E' D. destruct (cell_ends _ _ _ _ _ _ Cab D) as [[<- <-]|[<- <-]]; contradiction.
Qed.
(** When it returns: always, but for a root that is not a leaf of a mesh with leaves.  Without a root the
    last leaf is taken; on meshes without leaves the root is ignored *)
Theorem C69_returns : forall nv g X, simple_mesh nv g ->
  (forall r, leaf g r -> exists values, tangent_curve nv g X (Some r) = Ok (values, true)) /\
  (forall r s, ~ leaf g r -> leaf g s -> tangent_curve nv g X (Some r) = Err AssertionError) /\
  (forall r, leaf g r -> (forall s, leaf g s -> s <= r) -> tangent_curve nv g X None = tangent_curve nv g X (Some r)) /\
  ((forall r, ~ leaf g r) -> forall root, exists values, tangent_curve nv g X root = Ok (values, false)).
Proof.
  intros nv g X M. split; [|split; [|split]].
  - intros r Hr. apply (roots_leaf nv g r M) in Hr. destruct (from_root nv g X (Some r) r M Hr (or_introl eq_refl)) as [es [vs [E _]]]. exists vs. exact E.
  - intros r s Nr Hs. apply (roots_leaf nv g s M) in Hs. assert (I : is_in r (roots_of nv g) = false) by (apply is_in_false; intros I; apply Nr, (roots_leaf nv g r M), I). unfold tangent_curve. destruct (roots_of nv g); [destruct Hs|]. rewrite I. reflexivity.
  - intros r Hr U. apply (roots_leaf nv g r M) in Hr. assert (E : last (roots_of nv g) 0 = r).
    { assert (I : In (last (roots_of nv g) 0) (roots_of nv g)) by (apply last_In; intros Z; rewrite Z in Hr; destruct Hr). pose proof (U _ (proj1 (roots_leaf nv g _ M) I)) as LE. assert (GE : r <= last (roots_of nv g) 0); [|lia]. clear - Hr. unfold roots_of in *. assert (S : StronglySorted lt (filter (fun v => length (v2c g v) =? 1) (seq 0 nv))).
      { clear Hr. assert (Gen : forall a, StronglySorted lt (filter (fun v => length (v2c g v) =? 1) (seq a nv))); [|apply Gen]. induction nv as [|n IH]; intros a; [constructor|]. cbn [seq filter]. specialize (IH (S a)). destruct (length (v2c g a) =? 1); [|exact IH]. constructor; [exact IH|]. apply Forall_forall. intros x X. apply filter_In in X. destruct X as [X _]. apply in_seq in X. lia. }
      revert Hr S. generalize (filter (fun v => length (v2c g v) =? 1) (seq 0 nv)). intros l. induction l as [|a [|b l] IH]; intros H S; [destruct H|destruct H as [->|[]]; cbn; lia|]. inversion S as [|? ? S1 F1]; subst. change (last (a :: b :: l) 0) with (last (b :: l) 0). destruct H as [->|H]; [|apply IH; assumption]. rewrite Forall_forall in F1. assert (Q : In (last (b :: l) 0) (b :: l)) by (apply last_In; discriminate). specialize (F1 _ Q). lia. }
    unfold tangent_curve. destruct (roots_of nv g) as [|x l] eqn:R; [destruct Hr|]. rewrite (proj2 (is_in_spec r (x :: l)) Hr). rewrite E. reflexivity.
  - intros N root. eexists. apply no_root. destruct (roots_of nv g) as [|x l] eqn:R; [reflexivity|]. exfalso. apply (N x), (roots_leaf nv g x M). rewrite R. left. reflexivity.
Qed.
(** On a tree all cells point away from the root: in the direction of the path from the root *)
Theorem C69_tree : forall nv gdim g X r values message,
  simple_mesh nv g -> coordinates gdim g X -> tree nv g -> leaf g r -> tangent_curve nv g X (Some r) = Ok (values, message) ->
  (forall c a b l, cell_is g c a b -> path_from g r (l ++ [a; b]) -> directed (X a) (X b) (nth c values [])) /\
  forall c, c < length g -> exists a b l, cell_is g c a b /\ path_from g r (l ++ [a; b]).
Proof.
  intros nv gdim g X r values message M K [TC TU] Hr H. pose proof M as [V _]. pose proof (proj2 (roots_leaf nv g r M) Hr) as Hr'. destruct (from_root nv g X (Some r) r M Hr' (or_introl eq_refl)) as [es [vs [E [G [C [L [P1 P2]]]]]]]. rewrite H in E. injection E as <- _. split.
  - intros c a b l Cab P. assert (I : In b (r :: map snd es)) by (apply (closed_path g r es _ C P), in_app_iff; right; right; left; reflexivity). assert (Nb : b <> r). { intros ->. destruct P as [_ [N Hd]]. destruct l as [|y l]; cbn in Hd; injection Hd as ->; cbn in N; inversion N as [|? ? N1 _]; subst; apply N1; [left; reflexivity|apply in_app_iff; right; right; left; reflexivity]. }
    destruct I as [I|I]; [congruence|]. apply in_map_iff in I. destruct I as [[a' b'] [Q E]]. cbn in Q. subst b'. destruct (grows_edge g r es a' b G E) as [_ [l' P']]. assert (Ea : l ++ [a] = l' ++ [a']). { apply (TU r b); rewrite <- app_assoc; assumption. } apply app_inj_tail in Ea. destruct Ea as [_ <-]. rewrite (P1 c a b E Cab). apply (tangent_cell gdim g X c); assumption.
  - intros c Hc. set (a := fst (c2v g c)). set (b := snd (c2v g c)). assert (Cab : cell_is g c a b) by (apply local_cell, Hc). pose proof (cell_joined _ _ _ _ Cab) as J. assert (Hn : a < nv /\ b < nv) by (destruct J as [J|J]; apply V in J; lia). assert (Hrn : r < nv). { destruct Hr as [d D]. destruct (proj2 (D d) eq_refl) as [w W]. apply cell_joined in W. destruct W as [W|W]; apply V in W; lia. }
    destruct (TC r a Hrn (proj1 Hn)) as [l P]. destruct (in_dec Nat.eq_dec b (l ++ [a])) as [I|I].
    + (* b comes before a: the path to b, then a *)
      apply in_app_iff in I. destruct I as [I|[I|[]]]; [|destruct J as [J|J]; apply V in J; lia]. apply in_split in I. destruct I as [l1 [l2 ->]]. assert (Pb : path_from g r (l1 ++ [b])).
      { destruct P as [P1' [P2' P3']]. rewrite <- app_assoc in P1', P2', P3'. split; [|split].
        - clear - P1'. induction l1 as [|x [|y l1] IH]; [exact I|cbn in *; tauto|]. destruct P1' as [A B]. split; [exact A|apply IH, B].
        - clear - P2'. cbn [app] in P2'. induction l1 as [|x l1 IH]; [repeat constructor; intros []|]. cbn [app] in *. inversion P2' as [|? ? N1 N2]; subst. constructor; [|apply IH, N2]. intros I. apply N1. apply in_app_iff in I. apply in_app_iff. destruct I as [I|[I|[]]]; [left; exact I|right; left; exact I].
        - destruct l1; exact P3'. }
      exists b, a, l1. split; [apply cell_is_sym, Cab|]. apply path_snoc; [exact Pb|apply joined_sym, J|]. intros I. destruct P as [_ [N _]]. apply NoDup_remove_2 in N. apply N. rewrite app_nil_r. apply in_app_iff in I. apply in_app_iff. destruct I as [I|[I|[]]]; [left; exact I|right; left; exact I].
    + exists a, b, l. split; [exact Cab|apply path_snoc; assumption].
Qed.
(** On an open curve all cells point in the direction from the root to the other end *)
Theorem C69_curve : forall nv gdim g X vs,
  simple_mesh nv g -> coordinates gdim g X -> NoDup vs -> 2 <= length vs ->
  (forall a b, joined g a b <-> exists i, S i < length vs /\ ((a = nth i vs 0 /\ b = nth (S i) vs 0) \/ (b = nth i vs 0 /\ a = nth (S i) vs 0))) ->
  exists values message, tangent_curve nv g X (Some (hd 0 vs)) = Ok (values, message) /\
  forall c i, S i < length vs -> cell_is g c (nth i vs 0) (nth (S i) vs 0) -> directed (X (nth i vs 0)) (X (nth (S i) vs 0)) (nth c values []).
Proof.
  intros nv gdim g X vs M K N Hl A. pose proof M as [V _].
  assert (Hr : leaf g (hd 0 vs)).
  { replace (hd 0 vs) with (nth 0 vs 0) by (destruct vs; reflexivity). destruct (joined_cell g (nth 0 vs 0) (nth 1 vs 0)) as [c Hc]; [apply A; exists 0; split; [lia|left; split; reflexivity]|]. exists c. intros d. split; [|intros ->; exists (nth 1 vs 0); exact Hc]. intros [w D]. apply (cell_unique nv g d c (nth 0 vs 0) (nth 1 vs 0) M); [|exact Hc]. replace (nth 1 vs 0) with w; [exact D|]. apply cell_joined, A in D. destruct D as [j [Hj [[E ->]|[-> E]]]]; apply (proj1 (NoDup_nth vs 0) N) in E; try lia. subst j. reflexivity. }
  destruct (proj1 (C69_returns nv g X M) _ Hr) as [values H]. exists values, true. split; [exact H|]. intros c i Hi Hc. pose proof (proj2 (roots_leaf nv g _ M) Hr) as Hr'. destruct (from_root nv g X _ _ M Hr' (or_introl eq_refl)) as [es [vs' [E [G [C [L [P1 P2]]]]]]]. rewrite H in E. injection E as <-. set (r := hd 0 vs) in *.
  assert (Inj : forall p q, p < length vs -> q < length vs -> nth p vs 0 = nth q vs 0 -> p = q) by (intros p q Hp Hq; apply (proj1 (NoDup_nth vs 0) N); assumption).
  (* the search goes along the curve *)
  assert (S : length es < length vs /\ forall k, k < length es -> nth k es (0, 0) = (nth k vs 0, nth (S k) vs 0)).
  { clear - G A Inj Hi. induction G as [|es a b G IH J Ia Ib]; [split; [cbn; lia|intros k Hk; cbn in Hk; lia]|]. destruct IH as [IL IE]. assert (Known : forall x, In x (r :: map snd es) <-> exists k, k <= length es /\ x = nth k vs 0).
    { intros x. split.
      - intros [<-|X]; [exists 0; split; [lia|unfold r; destruct vs; reflexivity]|]. apply in_map_iff in X. destruct X as [e [<- X]]. apply (In_nth _ _ (0, 0)) in X. destruct X as [k [Hk <-]]. exists (S k). rewrite (IE k Hk). split; [lia|reflexivity].
      - intros [k [Hk ->]]. destruct k as [|k]; [left; unfold r; destruct vs; reflexivity|]. right. apply in_map_iff. exists (nth k es (0, 0)). rewrite (IE k) by lia. split; [reflexivity|]. rewrite <- (IE k) by lia. apply nth_In. lia. }
    apply Known in Ia. destruct Ia as [p [Hp ->]]. apply A in J. destruct J as [j [Hj [[Ea ->]|[-> Ea]]]]; apply Inj in Ea; try lia; subst p.
    - assert (j = length es). { destruct (Nat.lt_ge_cases j (length es)) as [Q|Q]; [|lia]. exfalso. apply Ib, Known. exists (S j). split; [lia|reflexivity]. } subst j. rewrite app_length. cbn [length]. split; [lia|]. intros k Hk. destruct (Nat.eq_dec k (length es)) as [->|Nk]; [rewrite app_nth2, Nat.sub_diag by lia; reflexivity|rewrite app_nth1 by lia; apply IE; lia].
    - exfalso. apply Ib, Known. exists j. split; [lia|reflexivity]. }
  destruct S as [SL SE].
  assert (Full : length es = length vs - 1).
  { assert (J : S (length es) < length vs \/ length es = length vs - 1) by lia. destruct J as [J|J]; [|exact J]. exfalso. assert (In (nth (S (length es)) vs 0) (r :: map snd es)).
    { apply (C (nth (length es) vs 0)); [|apply A; exists (length es); split; [exact J|left; split; reflexivity]]. destruct (length es) as [|k] eqn:El; [left; unfold r; destruct vs; reflexivity|]. right. apply in_map_iff. exists (nth k es (0, 0)). rewrite (SE k) by lia. split; [reflexivity|]. rewrite <- (SE k) by lia. apply nth_In. lia. }
    destruct H0 as [Q|Q].
    - unfold r in Q. replace (hd 0 vs) with (nth 0 vs 0) in Q by (destruct vs; reflexivity). apply Inj in Q; lia.
    - apply in_map_iff in Q. destruct Q as [e [Q I]]. apply (In_nth _ _ (0, 0)) in I. destruct I as [k [Hk <-]]. rewrite (SE k Hk) in Q. cbn in Q. apply Inj in Q; lia. }
  rewrite (P1 c (nth i vs 0) (nth (S i) vs 0)); [apply (tangent_cell gdim g X c); assumption| |exact Hc]. rewrite <- (SE i) by lia. apply nth_In. lia.
Qed.
(** Without leaves every cell has the order of its own vertices *)
Theorem C69_loop : forall nv gdim g X root values message,
  simple_mesh nv g -> coordinates gdim g X -> (forall v, ~ leaf g v) -> tangent_curve nv g X root = Ok (values, message) ->
  message = false /\ forall c a b, nth_error g c = Some (a, b) -> directed (X a) (X b) (nth c values []).
Proof.
  intros nv gdim g X root values message M K N H. rewrite no_root in H; [injection H as <- <-|destruct (roots_of nv g) as [|x l] eqn:R; [reflexivity|exfalso; apply (N x), (roots_leaf nv g x M); rewrite R; left; reflexivity]]. split; [reflexivity|]. intros c a b E. apply nth_error_c2v in E as [E Hc]. rewrite (nth_map_seq _ _ _ _ Hc), E. cbn [fst snd]. apply (tangent_cell gdim g X c); [exact K|]. left. rewrite <- E. apply c2v_nth_error, Hc.
Qed.
(** So a closed curve does not have a consistent direction: on the triangle two cells leave the same vertex, whatever
    the root *)
Definition corner (v : nat) : list R := [INR v; INR (v * v)].
Lemma corner_length v : length (corner v) = 2.
Proof. reflexivity. Qed.
Lemma corner_neq a b : a < b -> corner a <> corner b.
Proof. intros H E. apply (f_equal (fun l => nth 0 l 0%R)) in E. apply INR_eq in E. lia. Qed.
Theorem C69_loop_refuted : exists nv g X, simple_mesh nv g /\ coordinates 2 g X /\ (forall v, v < nv -> exists c d, c <> d /\ forall e, (exists w, cell_is g e v w) <-> e = c \/ e = d) /\
  forall root, exists values, tangent_curve nv g X root = Ok (values, false) /\
    nth_error g 0 = Some (0, 1) /\ directed (X 0) (X 1) (nth 0 values []) /\ nth_error g 2 = Some (0, 2) /\ directed (X 0) (X 2) (nth 2 values []).
Proof.
  exists 3, [(0, 1); (1, 2); (0, 2)], corner. assert (C : coordinates 2 [(0, 1); (1, 2); (0, 2)] corner).
  { split; [apply corner_length|]. intros a b [H|[H|[H|[]]]]; injection H as <- <-; apply corner_neq; lia. }
  split; [|split; [exact C|split]].
  - split; [|split].
    + intros a b [H|[H|[H|[]]]]; injection H as <- <-; lia.
    + repeat constructor; cbn; intuition congruence.
    + intros a b [H|[H|[H|[]]]]; injection H as <- <-; cbn; intuition congruence.
  - intros [|[|[|v]]] H; [exists 0, 2|exists 0, 1|exists 1, 2|lia]; (split; [lia|]); intros e; rewrite <- v2c_In; cbn; intuition congruence.
  - intros root. eexists. split; [apply no_root; reflexivity|]. split; [reflexivity|]. split; [apply (tangent_cell 2 [(0, 1); (1, 2); (0, 2)] corner 0); [exact C|left; reflexivity]|]. split; [reflexivity|]. apply (tangent_cell 2 [(0, 1); (1, 2); (0, 2)] corner 2); [exact C|left; reflexivity].
Qed.
(** Of several open curves only one has a direction: here the cells of the curve 0-2-1 point at each other *)
Theorem C69_components_refuted : exists nv g X values, simple_mesh nv g /\ coordinates 2 g X /\ tangent_curve nv g X None = Ok (values, true) /\
  nth_error g 0 = Some (0, 2) /\ directed (X 0) (X 2) (nth 0 values []) /\ nth_error g 1 = Some (1, 2) /\ directed (X 1) (X 2) (nth 1 values []) /\ leaf g 0 /\ leaf g 1.
Proof.
  assert (C : coordinates 2 [(0, 2); (1, 2); (3, 4)] corner).
  { split; [apply corner_length|]. intros a b [H|[H|[H|[]]]]; injection H as <- <-; apply corner_neq; lia. }
  assert (M : simple_mesh 5 [(0, 2); (1, 2); (3, 4)]).
  { split; [|split].
    + intros a b [H|[H|[H|[]]]]; injection H as <- <-; lia.
    + repeat constructor; cbn; intuition congruence.
    + intros a b [H|[H|[H|[]]]]; injection H as <- <-; cbn; intuition congruence. }
  exists 5, [(0, 2); (1, 2); (3, 4)], corner, [tangent (corner 0) (corner 2); tangent (corner 1) (corner 2); tangent (corner 4) (corner 3)].
  split; [exact M|]. split; [exact C|]. split; [reflexivity|]. split; [reflexivity|]. split; [apply (tangent_cell 2 [(0, 2); (1, 2); (3, 4)] corner 0); [exact C|left; reflexivity]|]. split; [reflexivity|]. split; [apply (tangent_cell 2 [(0, 2); (1, 2); (3, 4)] corner 1); [exact C|left; reflexivity]|].
  split; apply (roots_leaf 5 _ _ M); cbn; tauto.
Qed.
(** The message about unvisited cells comes if some cell was visited, not if some was not: with leaves it comes always, also
    on a tree, without leaves it does not ([C69_returns], [C69_loop]) *)
Theorem C69_message_refuted : exists nv g X values, simple_mesh nv g /\ tree nv g /\ tangent_curve nv g X None = Ok (values, true).
Proof.
  exists 2, [(0, 1)], corner, [tangent (corner 1) (corner 0)]. split; [|split; [|reflexivity]].
  - split; [|split].
    + intros a b [H|[]]; injection H as <- <-; lia.
    + repeat constructor; intros [].
    + intros a b [H|[]]; injection H as <- <-; cbn; intuition congruence.
  - assert (J : forall a b, joined [(0, 1)] a b -> (a = 0 /\ b = 1) \/ (a = 1 /\ b = 0)) by (intros a b [[H|[]]|[H|[]]]; injection H as <- <-; tauto).
    assert (P : forall r l v, path_from [(0, 1)] r (l ++ [v]) -> l = [] /\ r = v \/ l = [r] /\ r <> v).
    { intros r [|a [|b l]] v [C [N H]]; cbn in H; injection H as ->; [left; split; reflexivity| |].
      - right. split; [reflexivity|]. cbn in N. inversion N as [|? ? N1 _]; subst. intros ->. apply N1. left. reflexivity.
      - exfalso. cbn [app] in C, N. assert (E : exists c m, b :: l ++ [v] = b :: c :: m /\ joined [(0, 1)] r b /\ joined [(0, 1)] b c).
        { destruct l as [|c l]; cbn [app] in *; [exists v, []|exists c, (l ++ [v])]; destruct C as [C1 [C2 _]]; repeat split; assumption. }
        destruct E as [c [m [E [J1 J2]]]]. rewrite E in N. inversion N as [|? ? N1 N2]; subst. apply N1. right. left. apply J in J1, J2. lia. }
    split.
    + intros r v Hr Hv. destruct (Nat.eq_dec r v) as [->|D]; [exists []; split; [exact I|]; split; [repeat constructor; intros []|reflexivity]|]. exists [r]. split; [|split; [|reflexivity]].
      * split; [|exact I]. destruct r as [|[|]], v as [|[|]]; try lia; [left|right]; left; reflexivity.
      * repeat constructor; cbn; intuition congruence.
    + intros r v l m A B. apply P in A, B. destruct A as [[-> A]|[-> A]], B as [[-> B]|[-> B]]; congruence.
Qed.
(** Dofs: if the dofs of each component grow with the cells, the function has the values on the cells *)
Lemma unique_sorted (l : list nat) : StronglySorted lt l -> np_unique l = l.
Proof.
  intros S. assert (U : forall l m : list nat, StronglySorted lt l -> StronglySorted lt m -> (forall x, In x l <-> In x m) -> l = m).
  { clear. induction l as [|a l IH]; intros [|b m] S S' I.
    - reflexivity.
    - exfalso. apply (proj2 (I b)). left. reflexivity.
    - exfalso. apply (proj1 (I a)). left. reflexivity.
    - inversion S as [|? ? S1 F1]; subst. inversion S' as [|? ? S2 F2]; subst. rewrite Forall_forall in F1, F2.
      assert (E : a = b). { destruct (proj1 (I a) (or_introl eq_refl)) as [E|E]; [congruence|]. destruct (proj2 (I b) (or_introl eq_refl)) as [E'|E']; [congruence|]. specialize (F1 b E'). specialize (F2 a E). lia. }
      subst b. f_equal. apply IH; [assumption|assumption|]. intros x. split; intros X.
      + destruct (proj1 (I x) (or_intror X)) as [<- | Y]; [specialize (F1 a X); lia|exact Y].
      + destruct (proj2 (I x) (or_intror X)) as [<- | Y]; [specialize (F2 a X); lia|exact Y]. }
  apply U; [apply np_unique_sorted|exact S|intros x; apply np_unique_In].
Qed.
Lemma scatter (ps : list (nat * R)) : forall acc, NoDup (map fst ps) -> (forall p, In p ps -> fst p < length acc) ->
  let out := fold_left (fun acc p => set_nth acc (fst p) (snd p)) ps acc in
  length out = length acc /\ (forall p, In p ps -> nth (fst p) out 0%R = snd p) /\ forall i, ~ In i (map fst ps) -> nth i out 0%R = nth i acc 0%R.
Proof.
  induction ps as [|[i x] ps IH]; intros acc N L; cbn [fold_left]; [repeat split; intros p []|]. cbn [map fst snd] in *. inversion N as [|? ? N1 N2]; subst. destruct (IH (set_nth acc i x) N2) as [A [B C]]; [intros p P; rewrite set_nth_length; apply L; right; exact P|]. rewrite set_nth_length in A. split; [exact A|]. split.
  - intros p [<-|P]; [|apply B, P]. cbn [fst snd]. rewrite C by exact N1. rewrite nth_set_nth, Nat.eqb_refl. specialize (L (i, x) (or_introl eq_refl)). apply Nat.ltb_lt in L. cbn [fst] in L. rewrite L. reflexivity.
  - intros j Nj. rewrite C by (intros I; apply Nj; right; exact I). rewrite nth_set_nth. destruct (Nat.eqb_spec j i) as [->|_]; [exfalso; apply Nj; left; reflexivity|reflexivity].
Qed.
Theorem C69_dofs : forall cell_dof gdim values n_values,
  (forall sub c d, c < d -> d < length values -> sub < gdim -> cell_dof sub c < cell_dof sub d) ->
  (forall sub sub' c d, sub < gdim -> sub' < gdim -> c < length values -> d < length values -> cell_dof sub c = cell_dof sub' d -> sub = sub') ->
  (forall sub c, sub < gdim -> c < length values -> cell_dof sub c < length n_values) ->
  exists out, put_values cell_dof gdim values n_values = Ok out /\ length out = length n_values /\
    forall sub c, sub < gdim -> c < length values -> nth (cell_dof sub c) out 0%R = nth sub (nth c values []) 0%R.
Proof.
  intros cell_dof gdim values n_values I D B. set (n := length values) in *.
  assert (Srt : forall sub, sub < gdim -> sub_dofs cell_dof n sub = map (cell_dof sub) (seq 0 n)).
  { intros sub Hs. apply unique_sorted. assert (G : forall a m, a + m <= n -> StronglySorted lt (map (cell_dof sub) (seq a m))); [|apply (G 0 n); lia]. intros a m. revert a. induction m as [|m IH]; intros a H; [constructor|]. cbn [seq map]. constructor; [apply IH; lia|]. apply Forall_forall. intros x X. apply in_map_iff in X. destruct X as [k [<- K]]. apply in_seq in K. apply I; lia. }
  assert (Step : forall sub acc, sub < gdim -> length acc = length n_values -> exists out, put_component cell_dof values acc sub = Ok out /\ length out = length n_values /\ (forall c, c < n -> nth (cell_dof sub c) out 0%R = nth sub (nth c values []) 0%R) /\ forall i, ~ In i (map (cell_dof sub) (seq 0 n)) -> nth i out 0%R = nth i acc 0%R).
  { intros sub acc Hs La. unfold put_component. fold n. rewrite (Srt sub Hs), map_length, seq_length, Nat.eqb_refl. set (ps := combine (map (cell_dof sub) (seq 0 n)) (map (fun v => nth sub v 0%R) values)). assert (Lp : length ps = n) by (unfold ps; rewrite combine_length, !map_length, seq_length; fold n; lia). assert (Np : forall c, c < n -> nth c ps (cell_dof sub 0, nth sub [] 0%R) = (cell_dof sub c, nth sub (nth c values []) 0%R)).
    { intros c Hc. unfold ps. rewrite combine_nth by (rewrite !map_length, seq_length; reflexivity). rewrite (map_nth (cell_dof sub)), seq_nth by exact Hc. rewrite (map_nth (fun v => nth sub v 0%R)). reflexivity. }
    assert (Fp : map fst ps = map (cell_dof sub) (seq 0 n)) by (unfold ps; clear; assert (G : forall (A B : Type) (l : list A) (m : list B), length l = length m -> map fst (combine l m) = l) by (intros A B l; induction l as [|x l IH]; intros [|y m] H; try discriminate; [reflexivity|]; cbn; rewrite IH; [reflexivity|cbn in H; lia]); apply G; rewrite !map_length, seq_length; reflexivity).
    destruct (scatter ps acc) as [A [P Q]].
    - rewrite Fp, <- (Srt sub Hs). apply sorted_NoDup. apply np_unique_sorted.
    - intros p P. apply (In_nth _ _ (cell_dof sub 0, nth sub [] 0%R)) in P. destruct P as [c [Hc <-]]. rewrite Lp in Hc. rewrite Np by exact Hc. cbn [fst]. rewrite La. apply B; assumption.
    - eexists. split; [reflexivity|]. split; [congruence|]. split; [|rewrite <- Fp; exact Q]. intros c Hc. specialize (P (cell_dof sub c, nth sub (nth c values []) 0%R)). apply P. rewrite <- (Np c Hc). apply nth_In. lia. }
  assert (G : forall m a acc, a + m <= gdim -> length acc = length n_values -> (forall sub c, sub < a -> c < n -> nth (cell_dof sub c) acc 0%R = nth sub (nth c values []) 0%R) ->
    exists out, foldM (put_component cell_dof values) (seq a m) acc = Ok out /\ length out = length n_values /\ forall sub c, sub < a + m -> c < n -> nth (cell_dof sub c) out 0%R = nth sub (nth c values []) 0%R).
  { induction m as [|m IH]; intros a acc H La P; [exists acc; cbn; rewrite Nat.add_0_r; repeat split; assumption|]. cbn [seq foldM]. destruct (Step a acc) as [o [E [Lo [V O]]]]; [lia|exact La|]. rewrite E. cbn [bind]. replace (a + S m) with (S a + m) by lia. apply IH; [lia|exact Lo|]. intros sub c Hs Hc. destruct (Nat.eq_dec sub a) as [->|Ns]; [apply V, Hc|]. rewrite O; [apply P; [lia|exact Hc]|]. intros X. apply in_map_iff in X. destruct X as [d [X Hd]]. apply in_seq in Hd. apply Ns. symmetry. apply (D a sub d c); [lia|lia|lia|exact Hc|exact X]. }
  destruct (G gdim 0 n_values) as [out [E [L P]]]; [lia|reflexivity|intros; lia|]. exists out. split; [exact E|]. split; [exact L|]. intros. apply P; assumption.
Qed.
(** Otherwise values go to other cells *)
Theorem C69_dofs_refuted : exists cell_dof values out, put_values cell_dof 1 values [0; 0]%R = Ok out /\
  nth (cell_dof 0 0) out 0%R = nth 0 (nth 1 values []) 0%R /\ nth (cell_dof 0 0) out 0%R <> nth 0 (nth 0 values []) 0%R.
Proof.
  exists (fun _ c => 1 - c), [[1]; [-1]]%R, [1; -1]%R. split; [reflexivity|]. cbn. split; [reflexivity|]. lra.
Qed.
(** An open curve 2-0-3-1 with cells in another order *)
Example C69_example : simple_mesh 4 [(0, 3); (1, 3); (0, 2)] /\ coordinates 2 [(0, 3); (1, 3); (0, 2)] corner /\ NoDup [2; 0; 3; 1] /\
  (forall a b, joined [(0, 3); (1, 3); (0, 2)] a b <-> exists i, S i < length [2; 0; 3; 1] /\ ((a = nth i [2; 0; 3; 1] 0 /\ b = nth (S i) [2; 0; 3; 1] 0) \/ (b = nth i [2; 0; 3; 1] 0 /\ a = nth (S i) [2; 0; 3; 1] 0))) /\
  tangent_curve 4 [(0, 3); (1, 3); (0, 2)] corner (Some 2) = Ok ([tangent (corner 0) (corner 3); tangent (corner 3) (corner 1); tangent (corner 2) (corner 0)], true).
Proof.
  split; [|split; [|split; [|split]]].
  - split; [|split].
    + intros a b [H|[H|[H|[]]]]; injection H as <- <-; lia.
    + repeat constructor; cbn; intuition congruence.
    + intros a b [H|[H|[H|[]]]]; injection H as <- <-; cbn; intuition congruence.
  - split; [apply corner_length|]. intros a b [H|[H|[H|[]]]]; injection H as <- <-; apply corner_neq; lia.
  - repeat constructor; cbn; intuition congruence.
  - intros a b. unfold joined. cbn [In length]. split.
    + intros [[H|[H|[H|[]]]]|[H|[H|[H|[]]]]]; injection H as <- <-; [exists 1|exists 2|exists 0|exists 1|exists 2|exists 0]; cbn; (split; [lia|tauto]).
    + intros [[|[|[|i]]] [H [[-> ->]|[-> ->]]]]; cbn; try lia; tauto.
  - reflexivity.
Qed.
Example C69_dofs_example : put_values (fun sub c => 2 * c + sub) 2 [[1; 2]; [3; 4]]%R [0; 0; 0; 0]%R = Ok [1; 2; 3; 4]%R.
Proof. reflexivity. Qed.
Print Assumptions C69_unit.
Print Assumptions C69_returns.
Print Assumptions C69_tree.
Print Assumptions C69_curve.
Print Assumptions C69_loop.
Print Assumptions C69_loop_refuted.
Print Assumptions C69_components_refuted.
Print Assumptions C69_message_refuted.
Print Assumptions C69_dofs.
Print Assumptions C69_dofs_refuted.
