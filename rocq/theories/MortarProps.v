(** C39: mortar meshes. *)
From Verif Require Import Base BaseProofs FillModel FillProofs EmbedModel EmbedProofs TransferProofs MortarModel MortarProofs.
From Coq Require Import Sorted.
Local Open Scope nat_scope.
Local Close Scope Q_scope.
Local Close Scope Qc_scope.

Lemma sorted_gap l i j x y : StronglySorted lt l -> i <= j -> nth_error l i = Some x -> nth_error l j = Some y -> x + (j - i) <= y.
Proof.
  intros S. revert i j x. induction S as [|a l S IH F]; intros [|i] [|j] x L X Y; cbn in X, Y; try discriminate; try lia; [injection X as ->; injection Y as ->; lia| |].
  - injection X as ->. destruct l as [|b l]; [destruct j; discriminate|]. assert (x < b) by (inversion F; assumption). assert (b + (j - 0) <= y) by (apply (IH 0 j); [lia|reflexivity|exact Y]). lia.
  - assert (x + (j - i) <= y) by (apply (IH i j); [lia|exact X|exact Y]). lia.
Qed.
(** A cell is its own number in the submesh iff all cells before it are there. *)
Lemma own_number sub t gc : nth_error (where_eq sub t) gc = Some gc <-> forall c, c <= gc -> nth_error sub c = Some t.
Proof.
  split.
  - intros H c C. apply where_eq_In. assert (L : c < length (where_eq sub t)) by (assert (gc < length (where_eq sub t)) by (apply nth_error_Some; congruence); lia).
    apply nth_error_Some in L. destruct (nth_error (where_eq sub t) c) as [x|] eqn:E; [|congruence]. assert (x = c); [|subst x; eapply nth_error_In; exact E].
    pose proof (sorted_gap _ c gc x gc (where_eq_sorted sub t) C E H). destruct (nth_error (where_eq sub t) 0) as [y|] eqn:E0; [|apply nth_error_None in E0; apply nth_error_In in E; destruct (where_eq sub t); [destruct E|cbn in E0; lia]].
    pose proof (sorted_gap _ 0 c y x (where_eq_sorted sub t) ltac:(lia) E0 E). lia.
  - intros H. assert (P : forall m, m <= S gc -> firstn m (where_eq sub t) = seq 0 m).
    { intros m L. unfold where_eq. assert (LS : gc < length sub) by (apply nth_error_Some; rewrite (H gc); [discriminate|lia]). replace (length sub) with (m + (length sub - m)) by lia. rewrite seq_app, filter_app.
      assert (F : filter (fun e => nth e sub 0 =? t) (seq 0 m) = seq 0 m). { assert (G : forall s k, s + k <= S gc -> filter (fun e => nth e sub 0 =? t) (seq s k) = seq s k). { intros s k. revert s. induction k as [|k IH]; intros s B; cbn [seq filter]; [reflexivity|]. rewrite (nth_error_nth _ _ 0 (H s ltac:(lia))), Nat.eqb_refl, IH by lia. reflexivity. } apply G. lia. }
      rewrite F, firstn_app, seq_length, Nat.sub_diag. cbn [firstn]. rewrite app_nil_r. apply firstn_all2. rewrite seq_length. lia. }
    specialize (P (S gc) ltac:(lia)). assert (Q : nth_error (firstn (S gc) (where_eq sub t)) gc = Some gc) by (rewrite P; rewrite (nth_error_nth' _ 0) by (rewrite seq_length; lia); rewrite seq_nth by lia; reflexivity).
    rewrite <- (firstn_skipn (S gc) (where_eq sub t)). rewrite nth_error_app1; [exact Q|apply nth_error_Some; congruence].
Qed.
(** What is looked up for one of the two cells of a facet *)
Lemma find_values sub markers f2c c2f f t0 t1 c0 c1 t gc : mesh_ok sub f2c c2f -> between sub markers f2c f t0 t1 c0 c1 -> (t = t0 /\ gc = c0 \/ t = t1 /\ gc = c1) ->
  find_facet (fun l => l) sub c2f f t gc = Ok (Some f).
Proof.
  intros M [E [S0 [S1 _]]] H. assert (G : nth_error sub gc = Some t /\ exists fs, nth_error c2f gc = Some fs /\ In f fs).
  { destruct E as [E|E]; destruct H as [[-> ->]|[-> ->]]; (split; [assumption|]); eapply (mo_cells _ _ _ M); try exact E; cbn; auto. }
  destruct G as [G [fs [F I]]]. unfold find_facet. destruct (position_ok gc (where_eq sub t)) as [k [P Q]]; [apply where_eq_In; exact G|]. rewrite P. cbn [bind]. rewrite (nth_error_nth _ _ 0 Q), (nth_error_nth _ _ [] F). apply existsb_nat in I. rewrite I. reflexivity.
Qed.
Lemma position_seq gc n : position gc (seq 0 n) = if gc <? n then Ok gc else Err KeyError.
Proof.
  destruct (Nat.ltb_spec gc n) as [L|L].
  - apply position_nth; [apply seq_NoDup|]. rewrite (nth_error_nth' _ 0) by (rewrite seq_length; exact L). rewrite seq_nth by exact L. reflexivity.
  - destruct (position gc (seq 0 n)) as [k|e] eqn:P; [apply position_sound in P; apply nth_error_In in P; apply in_seq in P; lia|]. f_equal. revert P. generalize (seq 0 n). clear. induction l as [|x l IH]; cbn [position]; [congruence|]. destruct (x =? gc); [discriminate|]. destruct (position gc l); cbn; [discriminate|exact IH].
Qed.
Lemma find_keys sub markers f2c c2f f t0 t1 c0 c1 t gc : mesh_ok sub f2c c2f -> between sub markers f2c f t0 t1 c0 c1 -> (t = t0 /\ gc = c0 \/ t = t1 /\ gc = c1) ->
  (find_facet dict_keys sub c2f f t gc = Ok (Some f) <-> forall c, c <= gc -> nth_error sub c = Some t) /\
  ((exists v, find_facet dict_keys sub c2f f t gc = Ok v) <-> gc < length (where_eq sub t)) /\ (find_facet dict_keys sub c2f f t gc = Err KeyError \/ exists v, find_facet dict_keys sub c2f f t gc = Ok v).
Proof.
  intros M B H. pose proof B as [E [S0 [S1 [L _]]]]. unfold find_facet, dict_keys. rewrite position_seq. destruct (Nat.ltb_spec gc (length (where_eq sub t))) as [G|G]; cbn [bind]; [|split; [|split; [split; [intros [v V]; discriminate|lia]|auto]]].
  - split; [|split; [split; [auto|eauto]|eauto]]. rewrite <- own_number. apply nth_error_Some in G. destruct (nth_error (where_eq sub t) gc) as [q|] eqn:Q; [|congruence]. rewrite (nth_error_nth _ _ 0 Q).
    pose proof (nth_error_In _ _ Q) as QI. apply where_eq_In in QI. split.
    + destruct (existsb (Nat.eqb f) (nth q c2f [])) eqn:X; [|discriminate]. intros _. f_equal. apply existsb_nat in X. assert (LQ : q < length c2f) by (rewrite <- (mo_tagged _ _ _ M); apply nth_error_Some; congruence).
      destruct (mo_back _ _ _ M q (nth q c2f []) f (nth_error_nth' _ [] LQ) X) as [cs [C1 C2]]. assert (QC : q = c0 \/ q = c1). { destruct E as [E|E]; rewrite E in C1; injection C1 as <-; cbn in C2; intuition. }
      destruct QC as [-> | ->]; destruct H as [[-> ->]|[-> ->]]; try reflexivity; exfalso; assert (t0 = t1) by congruence; lia.
    + intros [= ->]. assert (GF : exists fs, nth_error c2f gc = Some fs /\ In f fs) by (destruct E as [E|E]; destruct H as [[-> ->]|[-> ->]]; eapply (mo_cells _ _ _ M); try exact E; cbn; auto). destruct GF as [fs [F I]]. rewrite (nth_error_nth _ _ [] F). apply existsb_nat in I. rewrite I. reflexivity.
  - split; [discriminate|]. intros A. exfalso. apply own_number in A. assert (gc < length (where_eq sub t)) by (apply nth_error_Some; congruence). lia.
Qed.

Definition setting (sub markers : list nat) (f2c c2f : list (list nat)) (facets : list nat) (strict continuous : bool) : Prop :=
  mesh_ok sub f2c c2f /\ 1 < length markers /\ (strict = true -> continuous = true) /\ exists f t0 t1 c0 c1, In f facets /\ between sub markers f2c f t0 t1 c0 c1.

(** The property holds once parent cells, the values of the dict, are enumerated. *)
Theorem C39_with_values sub markers f2c c2f facets strict continuous : setting sub markers f2c c2f facets strict continuous ->
  exists r, mortar_meshes_values sub markers f2c c2f facets strict continuous = Ok r /\ interface_ok sub markers f2c facets r /\ all_paired sub markers f2c r.
Proof.
  intros [M [LM [ST NE]]]. destruct (mortar_shape (fun l => l) sub markers f2c c2f facets strict continuous M LM ST NE) as [d [iface [marks [jobs [cmap [E [IO [J K]]]]]]]]. unfold mortar_meshes_values. rewrite E.
  destruct (pairing_total (fun l => l) sub c2f iface jobs (fun _ _ => None)) as [m F].
  { intros j I. destruct (J j I) as [f [t0 [t1 [c0 [c1 [A [B [C D]]]]]]]]. exists f, (c0, c1). rewrite C. cbn [fst snd]. split; [exact A|split; [exact D|split; eexists; eapply find_values; eauto]]. }
  rewrite F. cbn [bind]. eexists. split; [reflexivity|split; [apply IO|]]. intros k f t0 t1 c0 c1 A B. cbn [mo_facets] in A. destruct (K k f A) as [j [I <-]]. destruct (J j I) as [f' [t0' [t1' [c0' [c1' [A' [B' [C D]]]]]]]].
  assert (f' = f) by congruence. subst f'. pose proof (between_fun _ _ _ _ _ _ _ _ _ _ _ _ _ M B B') as Q. injection Q as <- <- <- <-.
  assert (R : forall t gc, (t = t0 /\ gc = c0 \/ t = t1 /\ gc = c1) -> m t (snd j) = Some f).
  { intros t gc H. pose proof (find_values _ _ _ _ _ _ _ _ _ t gc M B H) as FV. destruct (pairing_complete (fun l => l) sub c2f iface jobs _ m j t f gc F I) as [v V]; [exists (c0, c1); rewrite C; cbn [fst snd]; auto|exact FV|].
    rewrite V. f_equal. destruct (pairing_sound _ _ _ _ _ _ _ _ _ _ F V) as [X|[j' [gc' [I' [S' [[gcs [L _]] _]]]]]]; [discriminate|]. rewrite S' in L. congruence. }
  unfold cell_paired. cbn [mo_map]. split; eapply R; eauto.
Qed.
(** As it is, the interface, its colours and the colour map are right when the
    function returns, and a map never leads to a wrong facet; the facet is there
    exactly when the cell and all those before it are in the subdomain. *)
Theorem C39_interface_partial sub markers f2c c2f facets strict continuous r : setting sub markers f2c c2f facets strict continuous ->
  mortar_meshes sub markers f2c c2f facets strict continuous = Ok r ->
  interface_ok sub markers f2c facets r /\
  (forall t k v, mo_map r t k = Some v -> nth_error (mo_facets r) k = Some v) /\
  (forall k f t0 t1 c0 c1, nth_error (mo_facets r) k = Some f -> between sub markers f2c f t0 t1 c0 c1 ->
     (cell_paired r k f t0 <-> forall c, c <= c0 -> nth_error sub c = Some t0) /\ (cell_paired r k f t1 <-> forall c, c <= c1 -> nth_error sub c = Some t1)).
Proof.
  intros [M [LM [ST NE]]] OK. destruct (mortar_shape dict_keys sub markers f2c c2f facets strict continuous M LM ST NE) as [d [iface [marks [jobs [cmap [E [IO [J K]]]]]]]]. unfold mortar_meshes in OK. rewrite E in OK.
  destruct (foldM (pair_cell dict_keys sub c2f iface) jobs (fun _ _ => None)) as [m|] eqn:F; cbn [bind] in OK; [|discriminate]. injection OK as <-. split; [apply IO|split; cbn [mo_map mo_facets]].
  - intros t k v V. destruct (pairing_sound _ _ _ _ _ _ _ _ _ _ F V) as [X|[j [gc [I [S' [[gcs [L _]] _]]]]]]; [discriminate|]. rewrite S' in L. exact L.
  - intros k f t0 t1 c0 c1 A B. destruct (K k f A) as [j [I <-]]. destruct (J j I) as [f' [t0' [t1' [c0' [c1' [A' [B' [C D]]]]]]]]. assert (f' = f) by congruence. subst f'. pose proof (between_fun _ _ _ _ _ _ _ _ _ _ _ _ _ M B B') as Q. injection Q as <- <- <- <-.
    assert (R : forall t gc, (t = t0 /\ gc = c0 \/ t = t1 /\ gc = c1) -> (m t (snd j) = Some f <-> forall c, c <= gc -> nth_error sub c = Some t)).
    { intros t gc H. destruct (find_keys _ _ _ _ _ _ _ _ _ t gc M B H) as [FK _]. rewrite <- FK. split.
      - intros V. destruct (pairing_sound _ _ _ _ _ _ _ _ _ _ F V) as [X|[j' [gc' [I' [S' [LK FF]]]]]]; [discriminate|]. destruct (J j' I') as [f2 [u0 [u1 [d0 [d1 [A2 [B2 [C2 D2]]]]]]]]. rewrite S' in A2. assert (f2 = f) by congruence. subst f2.
        pose proof (between_fun _ _ _ _ _ _ _ _ _ _ _ _ _ M B B2) as Q. injection Q as <- <- <- <-. destruct LK as [gcs [_ [L2 L3]]]. rewrite D2 in L2. injection L2 as <-. rewrite C2 in L3. cbn [fst snd] in L3. destruct B as [_ [_ [_ [LT _]]]].
        assert (gc' = gc) by (destruct L3 as [[? ?]|[? ?]]; destruct H as [[? ?]|[? ?]]; subst; try reflexivity; lia). subst gc'. exact FF.
      - intros FV. destruct (pairing_complete dict_keys sub c2f iface jobs _ m j t f gc F I) as [v V]; [exists (c0, c1); rewrite C; cbn [fst snd]; auto|exact FV|].
        rewrite V. f_equal. destruct (pairing_sound _ _ _ _ _ _ _ _ _ _ F V) as [X|[j' [gc' [I' [S' [[gcs [L _]] _]]]]]]; [discriminate|]. rewrite S' in L. congruence. }
    unfold cell_paired. cbn [mo_map]. split; apply R; auto.
Qed.
(** It returns iff the numbers of the cells at the interface are below the sizes of
    their subdomains *)
Theorem C39_returns_iff sub markers f2c c2f facets strict continuous : setting sub markers f2c c2f facets strict continuous ->
  ((exists r, mortar_meshes sub markers f2c c2f facets strict continuous = Ok r) <->
   forall f t0 t1 c0 c1, In f facets -> between sub markers f2c f t0 t1 c0 c1 -> c0 < count_occ Nat.eq_dec sub t0 /\ c1 < count_occ Nat.eq_dec sub t1).
Proof.
  assert (CO : forall t, count_occ Nat.eq_dec sub t = length (where_eq sub t)).
  { intros t. unfold where_eq. assert (G : forall l s, count_occ Nat.eq_dec l t = length (filter (fun e => nth (e - s) l 0 =? t) (seq s (length l)))).
    { induction l as [|x l IH]; intros s; cbn [length seq filter count_occ]; [reflexivity|]. replace (nth (s - s) (x :: l) 0) with x by (rewrite Nat.sub_diag; reflexivity).
      assert (T : filter (fun e => nth (e - s) (x :: l) 0 =? t) (seq (S s) (length l)) = filter (fun e => nth (e - S s) l 0 =? t) (seq (S s) (length l))). { apply filter_ext_in. intros e I. apply in_seq in I. replace (e - s) with (S (e - S s)) by lia. reflexivity. }
      destruct (Nat.eq_dec x t) as [->|N]; [rewrite Nat.eqb_refl|apply Nat.eqb_neq in N; rewrite N]; cbn [length]; rewrite T, <- IH; reflexivity. }
    rewrite (G sub 0). f_equal. apply filter_ext. intros e. rewrite Nat.sub_0_r. reflexivity. }
  intros [M [LM [ST NE]]]. destruct (mortar_shape dict_keys sub markers f2c c2f facets strict continuous M LM ST NE) as [d [iface [marks [jobs [cmap [E [IO [J K]]]]]]]]. unfold mortar_meshes. rewrite E. split.
  - intros [r OK] f t0 t1 c0 c1 FI B. destruct (foldM (pair_cell dict_keys sub c2f iface) jobs (fun _ _ => None)) as [m|] eqn:F; cbn [bind] in OK; [|discriminate].
    assert (IF : In f iface) by (apply (io_facets _ _ _ _ _ (IO m)); split; [exact FI|exists t0, t1, c0, c1; exact B]). apply In_nth_error in IF. destruct IF as [k A]. destruct (K k f A) as [j [I <-]].
    destruct (J j I) as [f' [t0' [t1' [c0' [c1' [A' [B' [C D]]]]]]]]. assert (f' = f) by congruence. subst f'. pose proof (between_fun _ _ _ _ _ _ _ _ _ _ _ _ _ M B B') as Q. injection Q as <- <- <- <-.
    assert (ST' : exists m0 m1, pair_cell dict_keys sub c2f iface m0 j = Ok m1). { clear - F I. revert F. generalize (fun _ _ : nat => @None nat). induction jobs as [|j' jobs IH]; intros m0 F; [destruct I|]. cbn [foldM] in F. destruct (pair_cell dict_keys sub c2f iface m0 j') as [m1|] eqn:S'; [|discriminate]. destruct I as [->|I]; [eauto|]. exact (IH I m1 F). }
    destruct ST' as [m0 [m1 S']]. apply step_inv in S'. destruct S' as [f' [gcs [v0 [v1 [E1 [E2 [F0 [F1 _]]]]]]]]. assert (f' = f) by congruence. subst f'. assert (gcs = (c0, c1)) by congruence. subst gcs. rewrite C in F0, F1. cbn [fst snd] in F0, F1. rewrite !CO.
    split; [apply (find_keys _ _ _ _ _ _ _ _ _ t0 c0 M B ltac:(auto)); eauto|apply (find_keys _ _ _ _ _ _ _ _ _ t1 c1 M B ltac:(auto)); eauto].
  - intros H. destruct (pairing_total dict_keys sub c2f iface jobs (fun _ _ => None)) as [m F]; [|rewrite F; cbn [bind]; eexists; reflexivity].
    intros j I. destruct (J j I) as [f [t0 [t1 [c0 [c1 [A [B [C D]]]]]]]]. exists f, (c0, c1). rewrite C. cbn [fst snd]. split; [exact A|split; [exact D|]].
    assert (FI : In f facets) by (apply nth_error_In in A; apply (io_facets _ _ _ _ _ (IO (fun _ _ => None))) in A; apply A). destruct (H f t0 t1 c0 c1 FI B) as [H0 H1]. rewrite CO in H0, H1.
    split; [apply (find_keys _ _ _ _ _ _ _ _ _ t0 c0 M B ltac:(auto)); exact H0|apply (find_keys _ _ _ _ _ _ _ _ _ t1 c1 M B ltac:(auto)); exact H1].
Qed.
(** The claim fails for every mesh with an interface *)
Theorem C39_refuted sub markers f2c c2f facets strict continuous : setting sub markers f2c c2f facets strict continuous ->
  ~ exists r, mortar_meshes sub markers f2c c2f facets strict continuous = Ok r /\ all_paired sub markers f2c r.
Proof.
  intros S' [r [OK AP]]. pose proof (C39_interface_partial _ _ _ _ _ _ _ _ S' OK) as [IO [_ H]]. destruct S' as [M [LM [ST [f [t0 [t1 [c0 [c1 [FI B]]]]]]]]].
  assert (IF : In f (mo_facets r)) by (apply (io_facets _ _ _ _ _ IO); split; [exact FI|exists t0, t1, c0, c1; exact B]). apply In_nth_error in IF. destruct IF as [k A]. destruct (H k f t0 t1 c0 c1 A B) as [H0 H1]. destruct (AP k f t0 t1 c0 c1 A B) as [P0 P1].
  assert (X0 := proj1 H0 P0 0 ltac:(lia)). assert (X1 := proj1 H1 P1 0 ltac:(lia)). destruct B as [_ [_ [_ [L _]]]]. assert (t0 = t1) by congruence. lia.
Qed.

(** Four intervals, tagged 1 1 2 2; the facets are the inner points 1, 2, 3 and the ends. *)
Definition line_f2c : list (list nat) := [[0]; [0; 1]; [1; 2]; [2; 3]; [3]].
Definition line_c2f : list (list nat) := [[0; 1]; [1; 2]; [2; 3]; [3; 4]].
Lemma line_setting sub : length sub = 4 -> nth_error sub 1 = Some 1 -> nth_error sub 2 = Some 2 -> setting sub [1; 2] line_f2c line_c2f (seq 0 5) true true.
Proof.
  intros L A B. split; [|split; [cbn; lia|split; [auto|]]].
  - constructor.
    + exact L.
    + intros f cs c E I. do 5 (destruct f as [|f]; [cbn in E; injection E as <-; cbn in I; repeat (destruct I as [<-|I]; [eexists; cbn; split; [reflexivity|cbn; tauto]|]); destruct I|]). destruct f; discriminate.
    + intros c fs f E I. do 4 (destruct c as [|c]; [cbn in E; injection E as <-; cbn in I; repeat (destruct I as [<-|I]; [eexists; cbn; split; [reflexivity|cbn; tauto]|]); destruct I|]). destruct c; discriminate.
    + intros f cs E. do 5 (destruct f as [|f]; [cbn in E; injection E as <-; split; [repeat (constructor; [cbn; intuition lia|]); constructor|cbn; lia]|]). destruct f; discriminate.
  - exists 2, 1, 2, 1, 2. split; [cbn; auto|]. unfold between. cbn [line_f2c nth_error]. repeat split; auto; try lia; cbn; auto.
Qed.
(** KeyError: the third cell is not among the first two *)
Example C39_key_error : mortar_meshes [1; 1; 2; 2] [1; 2] line_f2c line_c2f (seq 0 5) true true = Err KeyError.
Proof. reflexivity. Qed.
(** With the parent cells both maps are there *)
Example C39_values_example : exists r, mortar_meshes_values [1; 1; 2; 2] [1; 2] line_f2c line_c2f (seq 0 5) true true = Ok r /\ mo_facets r = [2] /\ mo_map r 1 0 = Some 2 /\ mo_map r 2 0 = Some 2.
Proof. eexists. split; [reflexivity|]. repeat split. Qed.
Example C39_setting_met : setting [1; 1; 2; 2] [1; 2] line_f2c line_c2f (seq 0 5) true true.
Proof. apply line_setting; reflexivity. Qed.
(** A map with a hole: the second of the cells tagged 1 1 2 2 2 is not found *)
Example C39_hole : exists r, mortar_meshes [1; 1; 2; 2; 2] [1; 2] [[0]; [0; 1]; [1; 2]; [2; 3]; [3; 4]; [4]] [[0; 1]; [1; 2]; [2; 3]; [3; 4]; [4; 5]] (seq 0 6) true true = Ok r /\
  mo_facets r = [2] /\ mo_map r 1 0 = Some 2 /\ mo_map r 2 0 = None /\ mo_color_map r = [[0; 1]].
Proof. eexists. split; [reflexivity|]. repeat split. Qed.

Print Assumptions C39_with_values.
Print Assumptions C39_interface_partial.
Print Assumptions C39_returns_iff.
Print Assumptions C39_refuted.
