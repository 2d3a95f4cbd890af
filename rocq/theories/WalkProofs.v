(** Proofs for walk_cells and walk_vertices of BranchModel.v. *)
From Verif Require Import Base BaseProofs FillModel FillProofs PatchProofs EmbedModel EmbedProofs BranchModel BranchProofs.
From Coq Require Import Permutation.
Local Open Scope nat_scope.
Local Close Scope Q_scope.
Local Close Scope Qc_scope.

(** ** Specification *)
(** A yielded cell with its orientation makes the step [t] *)
Definition makes (g : list (nat * nat)) (o : nat * bool) (t : nat * nat * nat) : Prop :=
  fst o = s_cell t /\ exists a b, nth_error g (fst o) = Some (a, b) /\ (if snd o then (a, b) else (b, a)) = (s_from t, s_to t).
(** Unpacking a set gives its elements *)
Definition lists_set (arr : list nat -> list nat) : Prop := forall s, Permutation s (arr s).

(** ** Trails *)
Lemma trail_app g v ts us e : trail g v (ts ++ us) e <-> exists w, trail g v ts w /\ trail g w us e.
Proof.
  revert v. induction ts as [|t ts IH]; intros v; cbn [trail app]; [split; [intros H; exists v; auto|intros [w [-> H]]; exact H]|]. split.
  - intros [A [B C]]. apply IH in C. destruct C as [w [C D]]. exists w. auto.
  - intros [w [[A [B C]] D]]. split; [exact A|split; [exact B|]]. apply IH. exists w. auto.
Qed.
Lemma trail_in g v ts e t : trail g v ts e -> In t ts -> nth_error g (s_cell t) = Some (s_from t, s_to t) \/ nth_error g (s_cell t) = Some (s_to t, s_from t).
Proof. revert v. induction ts as [|u ts IH]; intros v; cbn [trail]; [intros _ []|]. intros [_ [J C]] [<-|H]; [exact J|eapply IH; eauto]. Qed.
Lemma trail_shift g v ts e : trail g v ts e -> v :: map s_to ts = map s_from ts ++ [e].
Proof. revert v. induction ts as [|t ts IH]; intros v; cbn [trail map app]; [intros ->; reflexivity|]. intros [<- [_ C]]. rewrite (IH _ C). reflexivity. Qed.
Definition flip (t : nat * nat * nat) : nat * nat * nat := (s_to t, s_cell t, s_from t).
Definition back (ts : list (nat * nat * nat)) : list (nat * nat * nat) := rev (map flip ts).
Lemma back_cells ts : map s_cell (back ts) = rev (map s_cell ts).
Proof. unfold back. rewrite map_rev, map_map. reflexivity. Qed.
Lemma back_to ts : map s_to (back ts) = rev (map s_from ts).
Proof. unfold back. rewrite map_rev, map_map. reflexivity. Qed.
Lemma trail_back g v ts e : trail g v ts e -> trail g e (back ts) v.
Proof.
  revert v. induction ts as [|t ts IH]; intros v; cbn [trail]; [intros ->; reflexivity|]. intros [<- [J C]]. unfold back. cbn [map rev]. apply trail_app. exists (s_to t). split; [apply IH; exact C|]. cbn. split; [reflexivity|]. split; [|reflexivity]. destruct J; auto.
Qed.
Lemma back_nil ts : ts <> [] -> back ts <> [].
Proof. intros H E. apply H. destruct ts as [|t ts]; [reflexivity|]. unfold back in E. cbn in E. destruct (rev (map flip ts)); discriminate. Qed.
Lemma NoDup_snoc {A} (x : A) l : NoDup (l ++ [x]) <-> NoDup l /\ ~ In x l.
Proof.
  split; [intros H; apply (Permutation_NoDup (Permutation_sym (Permutation_cons_append l x))) in H; inversion H; auto|intros [H N]; apply (Permutation_NoDup (Permutation_cons_append l x)); constructor; assumption].
Qed.
Lemma path_back g P v ts e : path g P v ts e -> path g P e (back ts) v.
Proof.
  intros [A [B [C [D E]]]]. split; [apply trail_back; exact A|split; [apply back_nil; exact B|split; [|split]]].
  - rewrite back_to. rewrite (trail_shift _ _ _ _ A) in C. apply NoDup_snoc in C. destruct C as [C N]. constructor; [rewrite <- in_rev; exact N|apply NoDup_rev; exact C].
  - rewrite back_cells. apply NoDup_rev. exact D.
  - intros c. rewrite back_cells, <- in_rev. apply E.
Qed.
Lemma cycle_from g P v ts : cycle g P v ts -> Permutation (map s_from ts) (map s_to ts).
Proof. intros [A _]. apply trail_shift in A. apply (Permutation_cons_inv (a := v)). rewrite A. apply Permutation_cons_append. Qed.
Lemma cycle_back g P v ts : cycle g P v ts -> cycle g P v (back ts).
Proof.
  intros H. pose proof (cycle_from _ _ _ _ H) as PF. destruct H as [A [B [C [D E]]]]. split; [apply trail_back; exact A|split; [apply back_nil; exact B|split; [|split]]].
  - rewrite back_to. apply NoDup_rev. apply (Permutation_NoDup (Permutation_sym PF) C).
  - rewrite back_cells. apply NoDup_rev. exact D.
  - intros c. rewrite back_cells, <- in_rev. apply E.
Qed.
Lemma cycle_rotate g P v pre t post : cycle g P v (pre ++ t :: post) -> cycle g P (s_from t) (t :: post ++ pre).
Proof.
  intros [A [_ [C [D E]]]]. assert (PM : Permutation (pre ++ t :: post) (t :: post ++ pre)) by (rewrite app_comm_cons; apply Permutation_app_comm). apply trail_app in A. destruct A as [w [A1 A2]]. assert (W : s_from t = w) by (destruct A2; assumption). split; [|split; [discriminate|split; [|split]]].
  - rewrite app_comm_cons. apply trail_app. exists v. rewrite W. auto.
  - apply (Permutation_NoDup (Permutation_map s_to PM) C).
  - apply (Permutation_NoDup (Permutation_map s_cell PM) D).
  - intros c. rewrite E. split; apply Permutation_in; [|apply Permutation_sym]; apply Permutation_map; exact PM.
Qed.

Section Walk.
Variables (nv : nat) (g : list (nat * nat)) (arr : list nat -> list nat).
Hypothesis V : valid nv g.
Hypothesis AR : lists_set arr.

Lemma lv2c_In cells c v : (forall d, In d cells -> d < length g) -> (In c (lv2c g cells v) <-> In c cells /\ inc g c v).
Proof.
  intros B. unfold lv2c. rewrite filter_In, orb_true_iff, !Nat.eqb_eq. split; intros [H E]; (split; [exact H|]).
  - destruct (nth_error g c) as [[a b]|] eqn:N; [|apply nth_error_None in N; specialize (B c H); lia]. rewrite (c2v_nth _ _ _ _ N) in E. exists a, b. auto.
  - destruct E as [a [b [N E]]]. rewrite (c2v_nth _ _ _ _ N). exact E.
Qed.
Lemma map_inj {A} (f : A -> nat) l x y : NoDup (map f l) -> In x l -> In y l -> f x = f y -> x = y.
Proof.
  induction l as [|z l IH]; cbn [map]; intros N X Y E; [destruct X|]. inversion N as [|? ? N1 N2]; subst. destruct X as [->|X]; destruct Y as [->|Y]; [reflexivity| | |apply IH; assumption].
  - exfalso. apply N1. rewrite E. apply in_map. exact Y.
  - exfalso. apply N1. rewrite <- E. apply in_map. exact X.
Qed.
Lemma step_join v ts e t : trail g v ts e -> In t ts -> inc g (s_cell t) (s_from t) /\ inc g (s_cell t) (s_to t) /\ s_from t <> s_to t /\ next_vertex g (s_cell t) (s_from t) = s_to t /\ forall w, inc g (s_cell t) w -> w = s_from t \/ w = s_to t.
Proof.
  intros T I. pose proof (trail_in _ _ _ _ _ T I) as J. unfold next_vertex. destruct J as [J|J].
  - assert (N : s_from t <> s_to t) by (apply nth_error_In, V in J; tauto). rewrite (c2v_nth _ _ _ _ J). cbn [fst snd]. rewrite Nat.eqb_refl. split; [exists (s_from t), (s_to t); auto|split; [exists (s_from t), (s_to t); auto|split; [exact N|split; [reflexivity|]]]].
    intros w [a [b [H E]]]. assert (X : (a, b) = (s_from t, s_to t)) by congruence. injection X as -> ->. destruct E; auto.
  - assert (N : s_from t <> s_to t) by (apply nth_error_In, V in J; intros X; symmetry in X; tauto). rewrite (c2v_nth _ _ _ _ J). cbn [fst snd]. destruct (Nat.eqb_spec (s_from t) (s_to t)); [contradiction|]. split; [exists (s_to t), (s_from t); auto|split; [exists (s_to t), (s_from t); auto|split; [exact N|split; [reflexivity|]]]].
    intros w [a [b [H E]]]. assert (X : (a, b) = (s_to t, s_from t)) by congruence. injection X as -> ->. destruct E; auto.
Qed.
(** The cells at a vertex: the one that leads there and the one that leads on *)
Lemma cells_at v ts e cells x : trail g v ts e -> NoDup cells -> (forall c, In c cells <-> In c (map s_cell ts)) ->
  forall c, In c (lv2c g cells x) <-> exists t, In t ts /\ s_cell t = c /\ (s_from t = x \/ s_to t = x).
Proof.
  intros T N M c. rewrite lv2c_In.
  - rewrite M. rewrite in_map_iff. split.
    + intros [[t [<- I]] J]. destruct (step_join v ts e t T I) as [_ [_ [_ [_ H]]]]. exists t. split; [exact I|split; [reflexivity|]]. destruct (H x J); auto.
    + intros [t [I [<- H]]]. destruct (step_join v ts e t T I) as [A [B _]]. split; [exists t; auto|]. destruct H as [<-|<-]; assumption.
  - intros d D. apply M, in_map_iff in D. destruct D as [t [<- I]]. destruct (step_join v ts e t T I) as [A _]. eapply inc_bound. exact A.
Qed.
Lemma lv2c_NoDup cells x : NoDup cells -> NoDup (lv2c g cells x).
Proof. apply NoDup_filter. Qed.
Lemma makes_step v ts e t x : trail g v ts e -> In t ts -> x = s_from t -> makes g (s_cell t, fst (c2v g (s_cell t)) =? x) t.
Proof.
  intros T I ->. split; [reflexivity|]. cbn [fst snd]. destruct (step_join _ _ _ _ T I) as [_ [_ [N _]]]. destruct (trail_in _ _ _ _ _ T I) as [J|J]; rewrite (c2v_nth _ _ _ _ J); cbn [fst].
  - exists (s_from t), (s_to t). rewrite Nat.eqb_refl. auto.
  - exists (s_to t), (s_from t). destruct (Nat.eqb_spec (s_to t) (s_from t)); [congruence|auto].
Qed.
Lemma walk_on_ok v ts e cells fuel pre t post : trail g v ts e -> NoDup (map s_to ts) -> NoDup (map s_from ts) -> NoDup (map s_cell ts) -> NoDup cells -> (forall c, In c cells <-> In c (map s_cell ts)) ->
  ts = pre ++ t :: post -> length post < fuel ->
  exists out, walk_on arr fuel g cells e (s_from t) (s_cell t) = Ok out /\ Forall2 (makes g) out post.
Proof.
  intros T NT NF NC N M. revert fuel pre t. induction post as [|t' post IH]; intros fuel pre t E L; (destruct fuel as [|fuel]; [lia|]); cbn [walk_on]; assert (I : In t ts) by (rewrite E; apply in_app_iff; right; left; reflexivity); destruct (step_join _ _ _ _ T I) as [_ [_ [_ [NX _]]]]; rewrite NX.
  - assert (X : s_to t = e). { rewrite E in T. apply trail_app in T. destruct T as [w [_ T]]. cbn in T. tauto. } rewrite X, Nat.eqb_refl. exists []. split; [reflexivity|constructor].
  - assert (I' : In t' ts) by (rewrite E; apply in_app_iff; right; right; left; reflexivity).
    assert (LK : s_from t' = s_to t). { rewrite E in T. apply trail_app in T. destruct T as [w [_ T]]. cbn in T. tauto. }
    assert (NE : s_to t <> e).
    { pose proof (trail_shift _ _ _ _ T) as SH. assert (X : exists u, In u (t' :: post) /\ s_to u = e).
      { rewrite E in T. apply trail_app in T. destruct T as [w [_ T]]. cbn [trail] in T. destruct T as [_ [_ T]]. clear - T. revert T. generalize (s_to t). revert t'. induction post as [|p ps IH]; intros t' x T.
        - exists t'. cbn in T. split; [left; reflexivity|tauto].
        - cbn [trail] in T. destruct T as [_ [_ T]]. destruct (IH p (s_to t')) as [u [U1 U2]]; [exact T|]. exists u. split; [right; exact U1|exact U2]. }
      destruct X as [u [U1 U2]]. intros X. rewrite E, map_app in NT. cbn [map] in NT. apply NoDup_remove_2 in NT. apply NT. apply in_app_iff. right. rewrite X, <- U2. apply (in_map s_to (t' :: post)). exact U1. }
    destruct (Nat.eqb_spec (s_to t) e) as [X|_]; [contradiction|]. assert (NQ : s_cell t <> s_cell t').
    { intros X. rewrite E, map_app in NC. cbn [map] in NC. apply NoDup_remove_2 in NC. apply NC. apply in_app_iff. right. left. congruence. }
    assert (AT : Permutation (lv2c g cells (s_to t)) [s_cell t; s_cell t']).
    { apply NoDup_Permutation; [apply lv2c_NoDup; exact N|repeat constructor; cbn; intuition|]. intros c. rewrite (cells_at v ts e cells (s_to t) T N M). split.
      - intros [u [U1 [<- [U2|U2]]]]; [right; left; f_equal; apply (map_inj s_from ts); auto; congruence|left; f_equal; apply (map_inj s_to ts); auto].
      - intros [<-|[<-|[]]]; [exists t; auto|exists t'; auto]. }
    assert (NL : next_lcell arr g cells (s_to t) (s_cell t) = Ok (s_cell t')).
    { unfold next_lcell. assert (AP : Permutation [s_cell t; s_cell t'] (arr (lv2c g cells (s_to t)))) by (eapply Permutation_trans; [apply Permutation_sym, AT|apply AR]). apply Permutation_length_2_inv in AP. destruct AP as [-> | ->].
      - rewrite Nat.eqb_refl. reflexivity.
      - destruct (Nat.eqb_spec (s_cell t) (s_cell t')); [contradiction|reflexivity]. }
    rewrite NL. cbn [bind]. destruct (IH fuel (pre ++ [t]) t') as [out [O F]]; [rewrite <- app_assoc; exact E|cbn in L; lia|]. rewrite <- LK, O. cbn [bind]. eexists. split; [reflexivity|]. constructor; [|exact F]. apply (makes_step v ts e); auto.
Qed.
Lemma first_seen_In l x : In x (first_seen l) <-> In x l.
Proof.
  induction l as [|y l IH]; cbn [first_seen]; [reflexivity|]. cbn [In]. rewrite filter_In, IH. destruct (Nat.eqb_spec x y) as [->|H]; cbn [negb]; [tauto|]. split; [tauto|]. intros [X|X]; [congruence|tauto].
Qed.
Lemma first_seen_NoDup l : NoDup (first_seen l).
Proof.
  induction l as [|y l IH]; cbn [first_seen]; constructor.
  - rewrite filter_In. intros [_ H]. rewrite Nat.eqb_refl in H. discriminate.
  - apply NoDup_filter. exact IH.
Qed.
Lemma cells_length cells ts : NoDup cells -> NoDup (map s_cell ts) -> (forall c, In c cells <-> In c (map s_cell ts)) -> length cells = length ts.
Proof. intros A B C. rewrite <- (map_length s_cell ts). apply Permutation_length, NoDup_Permutation; assumption. Qed.
Lemma where_eq_NoDup vals tag : NoDup (where_eq vals tag).
Proof. apply NoDup_filter, seq_NoDup. Qed.

Lemma walk_loop_ok values tag v ts : cycle g (colored values tag) v ts ->
  exists out u us, walk_cells arr values tag g true = Ok out /\ cycle g (colored values tag) u us /\ Forall2 (makes g) out us.
Proof.
  intros C. unfold walk_cells. set (cells := where_eq values tag). assert (M : forall c, In c cells <-> colored values tag c) by (intros; apply where_eq_In). pose proof (where_eq_NoDup values tag) as ND. fold cells in ND.
  destruct cells as [|link rest] eqn:EC. { exfalso. destruct C as [_ [B [_ [_ E]]]]. destruct ts as [|t ts]; [congruence|]. apply (M (s_cell t)). apply E. left. reflexivity. }
  assert (AL : exists t post, cycle g (colored values tag) (s_from t) (t :: post) /\ nth_error g link = Some (s_from t, s_to t) /\ s_cell t = link).
  { assert (LI : In link (map s_cell ts)) by (apply C, M; left; reflexivity). apply in_map_iff in LI. destruct LI as [t [TL TI]]. destruct C as [C1 C2]. destruct (trail_in _ _ _ _ _ C1 TI) as [J|J].
    - apply in_split in TI. destruct TI as [pre [post ->]]. exists t, (post ++ pre). rewrite <- TL. split; [eapply cycle_rotate; split; eassumption|auto].
    - pose proof (cycle_back _ _ _ _ (conj C1 C2)) as CB. assert (TB : In (flip t) (back ts)) by (unfold back; rewrite <- in_rev; apply in_map; exact TI). apply in_split in TB. destruct TB as [pre [post E]]. rewrite E in CB. exists (flip t), (post ++ pre). rewrite <- TL. split; [eapply cycle_rotate; exact CB|auto]. }
  clear C. destruct AL as [t [post [C [J TL]]]]. rewrite (c2v_nth _ _ _ _ J).
  cbn [bind fst snd]. rewrite (c2v_nth _ _ _ _ J). cbn [snd]. rewrite Nat.eqb_refl. pose proof (cycle_from _ _ _ _ C) as PF. pose proof C as [C1 [_ [C3 [C4 C5]]]].
  assert (M2 : forall c, In c (link :: rest) <-> In c (map s_cell (t :: post))) by (intros; rewrite M; apply C5).
  destruct (walk_on_ok (s_from t) (t :: post) (s_from t) (link :: rest) (length (link :: rest)) [] t post C1 C3 (Permutation_NoDup (Permutation_sym PF) C3) C4 ND M2 eq_refl) as [out [O F]]; [rewrite (cells_length _ _ ND C4 M2); cbn; lia|].
  rewrite TL in O. rewrite O. cbn [bind]. eexists. exists (s_from t), (t :: post). split; [reflexivity|split; [exact C|]]. constructor; [|exact F]. split; [cbn; congruence|]. exists (s_from t), (s_to t). cbn [fst snd]. auto.
Qed.
Lemma path_from g0 P v ts e : path g0 P v ts e -> NoDup (map s_from ts) /\ ~ In e (map s_from ts).
Proof. intros [A [_ [C _]]]. rewrite (trail_shift _ _ _ _ A) in C. apply NoDup_snoc in C. exact C. Qed.
(** The first vertex of a path has one cell, the first one *)
Lemma head_cells cells P v t ts e : path g P v (t :: ts) e -> NoDup cells -> (forall c, In c cells <-> P c) -> lv2c g cells v = [s_cell t].
Proof.
  intros H N M. pose proof (path_from _ _ _ _ _ H) as [NF _]. pose proof H as [A [_ [C [D E]]]]. assert (M2 : forall c, In c cells <-> In c (map s_cell (t :: ts))) by (intros; rewrite M; apply E).
  apply Permutation_length_1_inv, Permutation_sym. apply NoDup_Permutation; [apply lv2c_NoDup; exact N|repeat constructor; intros []|]. intros c. rewrite (cells_at _ _ _ cells v A N M2). assert (FV : s_from t = v) by (destruct A; assumption). split.
  - intros [u [U1 [<- [U2|U2]]]]; [left; f_equal; apply (map_inj s_from (t :: ts)); auto; [left; reflexivity|congruence]|]. exfalso. apply NoDup_cons_iff in C. destruct C as [C _]. apply C. rewrite <- U2. apply (in_map s_to (t :: ts)). exact U1.
  - intros [<-|[]]. exists t. split; [left; reflexivity|auto].
Qed.
Lemma one_cell cells P v ts e x : path g P v ts e -> NoDup cells -> (forall c, In c cells <-> P c) -> (length (lv2c g cells x) = 1 <-> x = v \/ x = e).
Proof.
  intros H N M. pose proof (path_from _ _ _ _ _ H) as [NF NE]. pose proof H as [A [B [C [D E]]]]. assert (M2 : forall c, In c cells <-> In c (map s_cell ts)) by (intros; rewrite M; apply E). split.
  - intros L. destruct (Nat.eq_dec x v) as [|NV]; [auto|]. destruct (Nat.eq_dec x e) as [|NX]; [auto|exfalso]. destruct (lv2c g cells x) as [|c [|]] eqn:Q; try discriminate.
    assert (CI : In c (lv2c g cells x)) by (rewrite Q; left; reflexivity). apply (cells_at _ _ _ cells x A N M2) in CI. destruct CI as [t [T1 [T2 T3]]].
    assert (S2 : v :: map s_to ts = map s_from ts ++ [e]) by (apply (trail_shift g); exact A).
    assert (BOTH : exists a b, In a ts /\ In b ts /\ s_to a = x /\ s_from b = x).
    { assert (IX : In x (v :: map s_to ts) /\ In x (map s_from ts ++ [e])). { destruct T3 as [T3|T3]; [assert (Y : In x (map s_from ts ++ [e])) by (apply in_app_iff; left; rewrite <- T3; apply in_map; exact T1); rewrite <- S2 in Y at 1; split; [exact Y|rewrite <- S2; exact Y]|assert (Y : In x (v :: map s_to ts)) by (right; rewrite <- T3; apply in_map; exact T1); split; [exact Y|rewrite <- S2; exact Y]]. }
      destruct IX as [[X1|X1] X2]; [congruence|]. apply in_app_iff in X2. destruct X2 as [X2|[X2|[]]]; [|congruence]. apply in_map_iff in X1. apply in_map_iff in X2. destruct X1 as [a [A1 A2]]. destruct X2 as [b [B1 B2]]. exists a, b. auto. }
    destruct BOTH as [a [b [IA [IB [EA EB]]]]]. assert (CA : s_cell a = c). { assert (In (s_cell a) (lv2c g cells x)) as X by (apply (cells_at _ _ _ cells x A N M2); exists a; auto). rewrite Q in X. destruct X as [X|[]]. congruence. }
    assert (CB : s_cell b = c). { assert (In (s_cell b) (lv2c g cells x)) as X by (apply (cells_at _ _ _ cells x A N M2); exists b; auto). rewrite Q in X. destruct X as [X|[]]. congruence. }
    assert (a = b) by (apply (map_inj s_cell ts); auto; congruence). subst b. destruct (step_join _ _ _ _ A IA) as [_ [_ [NN _]]]. congruence.
  - assert (G : forall v0 ts0 e0, path g P v0 ts0 e0 -> length (lv2c g cells v0) = 1). { intros v0 ts0 e0 H0. destruct ts0 as [|t0 ts0]; [destruct H0 as [_ [X _]]; congruence|]. rewrite (head_cells cells P v0 t0 ts0 e0 H0 N M). reflexivity. }
    intros [-> | ->]; [eapply G; exact H|eapply G; apply path_back; exact H].
Qed.
Lemma lv_keys_In cells x : In x (lv_keys g cells) <-> exists c, In c cells /\ (fst (c2v g c) = x \/ snd (c2v g c) = x).
Proof.
  unfold lv_keys. rewrite first_seen_In, in_flat_map. split; intros [c [H E]]; exists c; (split; [exact H|]); cbn in *; intuition.
Qed.
Lemma key_at cells x : lv2c g cells x <> [] -> In x (lv_keys g cells).
Proof.
  intros H. apply lv_keys_In. destruct (lv2c g cells x) as [|c l] eqn:E; [congruence|]. assert (X : In c (lv2c g cells x)) by (rewrite E; left; reflexivity). unfold lv2c in X. apply filter_In in X. destruct X as [X Y]. apply orb_true_iff in Y. rewrite !Nat.eqb_eq in Y. exists c. auto.
Qed.
Lemma walk_branch_ok values tag v ts e : path g (colored values tag) v ts e ->
  exists out u us x, walk_cells arr values tag g false = Ok out /\ path g (colored values tag) u us x /\ (u = v /\ x = e \/ u = e /\ x = v) /\ length (v2c g x) <= length (v2c g u) /\ Forall2 (makes g) out us.
Proof.
  intros H. unfold walk_cells. set (cells := where_eq values tag). assert (M : forall c, In c cells <-> colored values tag c) by (intros; apply where_eq_In). pose proof (where_eq_NoDup values tag) as ND. fold cells in ND.
  assert (VE : v <> e). { destruct H as [A [B [C _]]]. destruct ts as [|t ts]; [congruence|]. rewrite (trail_shift _ _ _ _ A) in C. apply NoDup_snoc in C. destruct C as [_ C]. intros ->. apply C. left. destruct A; assumption. }
  assert (K : Permutation (filter (fun v => length (lv2c g cells v) =? 1) (lv_keys g cells)) [v; e]).
  { apply NoDup_Permutation; [apply NoDup_filter, first_seen_NoDup|repeat constructor; cbn; intuition|]. intros x. rewrite filter_In, Nat.eqb_eq, (one_cell cells _ v ts e x H ND M). cbn. split; [intuition|]. intros [<-|[<-|[]]]; (split; [|auto]); apply key_at; intros X; [pose proof (proj2 (one_cell cells _ v ts e v H ND M) (or_introl eq_refl)) as Y|pose proof (proj2 (one_cell cells _ v ts e e H ND M) (or_intror eq_refl)) as Y]; rewrite X in Y; discriminate. }
  assert (FIN : forall u us x, path g (colored values tag) u us x -> (u = v /\ x = e \/ u = e /\ x = v) -> length (v2c g x) <= length (v2c g u) ->
     exists out u' us' x0, (do s <- match lv2c g cells u with [link] => match filter (fun u0 => negb (u0 =? u)) (first_seen [fst (c2v g link); snd (c2v g link)]) with [v1] => Ok (link, u, x, v1) | _ => Err ValueError end | _ => Err ValueError end;
       let '(link, start, last, v1) := s in do out <- walk_on arr (length cells) g cells last start link; Ok ((link, snd (c2v g link) =? v1) :: out)) = Ok out /\ path g (colored values tag) u' us' x0 /\ (u' = v /\ x0 = e \/ u' = e /\ x0 = v) /\ length (v2c g x0) <= length (v2c g u') /\ Forall2 (makes g) out us').
  { clear K H. intros u us x H UX DG. destruct us as [|t us]; [destruct H as [_ [X _]]; congruence|]. rewrite (head_cells cells _ u t us x H ND M). pose proof (path_from _ _ _ _ _ H) as [NF _]. pose proof H as [A [_ [C [D E]]]]. assert (M2 : forall c, In c cells <-> In c (map s_cell (t :: us))) by (intros; rewrite M; apply E).
    assert (FU : s_from t = u) by (destruct A; assumption). destruct (step_join _ _ _ t A (or_introl eq_refl)) as [_ [_ [NN _]]].
    assert (F1 : filter (fun u0 => negb (u0 =? u)) (first_seen [fst (c2v g (s_cell t)); snd (c2v g (s_cell t))]) = [s_to t] /\ makes g (s_cell t, snd (c2v g (s_cell t)) =? s_to t) t).
    { destruct (trail_in _ _ _ _ t A (or_introl eq_refl)) as [J|J]; unfold makes; rewrite (c2v_nth _ _ _ _ J); cbn [fst snd first_seen filter]; rewrite <- FU.
      - destruct (Nat.eqb_spec (s_to t) (s_from t)); [congruence|]. cbn [negb filter]. rewrite Nat.eqb_refl. cbn [negb]. destruct (Nat.eqb_spec (s_to t) (s_from t)); [congruence|]. cbn [negb]. split; [reflexivity|split; [reflexivity|]]. exists (s_from t), (s_to t). rewrite Nat.eqb_refl. auto.
      - destruct (Nat.eqb_spec (s_from t) (s_to t)); [congruence|]. cbn [negb filter]. rewrite Nat.eqb_refl. cbn [negb]. destruct (Nat.eqb_spec (s_to t) (s_from t)); [congruence|]. cbn [negb]. split; [reflexivity|split; [reflexivity|]]. exists (s_to t), (s_from t). auto. }
    destruct F1 as [-> MK]. cbn [bind]. rewrite <- FU. apply NoDup_cons_iff in C. destruct C as [_ C].
    destruct (walk_on_ok _ _ _ cells (length cells) [] t us A C NF D ND M2 eq_refl) as [out [O F]]; [rewrite (cells_length _ _ ND D M2); cbn; lia|]. rewrite O. cbn [bind]. eexists. exists u, (t :: us), x. split; [reflexivity|split; [exact H|split; [exact UX|split; [exact DG|]]]]. constructor; assumption. }
  apply Permutation_sym, Permutation_length_2_inv in K. destruct K as [-> | ->].
  - destruct (Nat.ltb_spec (length (v2c g v)) (length (v2c g e))) as [L|L]; [apply (FIN e (back ts) v); [apply path_back; exact H|auto|lia]|apply (FIN v ts e); auto].
  - destruct (Nat.ltb_spec (length (v2c g e)) (length (v2c g v))) as [L|L]; [apply (FIN v ts e); [exact H|auto|lia]|apply (FIN e (back ts) v); [apply path_back; exact H|auto|lia]].
Qed.
(** Vertices on the way *)
Lemma walk_vertices_ok values tag loop out u us e : 1 < length g -> walk_cells arr values tag g loop = Ok out -> Forall2 (makes g) out us -> us <> [] -> trail g u us e ->
  walk_vertices arr (Some values) tag g loop = Ok (u :: map s_to us).
Proof.
  intros L W F NE T. unfold walk_vertices. apply Nat.ltb_lt in L. rewrite L. cbn [py_assert bind]. rewrite W. cbn [bind]. destruct F as [|[c o] t out us [E1 [a [b [J E2]]]] F]; [congruence|]. cbn [fst snd] in *. destruct T as [TU [_ T]]. rewrite (c2v_nth _ _ _ _ J). cbn [fst snd map].
  assert (R : map (fun t : nat * bool => if snd t then snd (c2v g (fst t)) else fst (c2v g (fst t))) out = map s_to us).
  { clear - F. induction F as [|[c o] t out us [E1 [a [b [J E2]]]] F IH]; [reflexivity|]. cbn [map fst snd] in *. rewrite IH, (c2v_nth _ _ _ _ J). f_equal. destruct o; injection E2; auto. }
  rewrite R. destruct o; injection E2 as -> ->; rewrite <- TU; reflexivity.
Qed.
End Walk.
