(** Specification vocabulary and proofs for EmbedModel.v. *)
From Verif Require Import Base BaseProofs FillModel FillProofs PatchProofs EmbedModel.
From Coq Require Import Permutation Sorted.
Local Open Scope nat_scope.
Local Close Scope Q_scope.
Local Close Scope Qc_scope.

(** ** Specification *)

(** [em] is the part of [base] where [values] is in [markers]. *)
Definition sends (vmap : list nat) (v w : nat) : Prop := nth_error vmap v = Some w.
Record embeds {X} (base : @mesh X) (values markers : list nat) (em : @emesh X) : Prop := {
  emb_once : NoDup (em_cmap em);
  emb_cells : forall e, In e (em_cmap em) <-> exists m, nth_error values e = Some m /\ In m markers;
  emb_incidence : Forall2 (fun cell e => exists vs ws, nth_error (conn base) e = Some vs /\ Forall2 (sends (em_vmap em)) cell ws /\ Permutation ws vs) (conn (em_mesh em)) (em_cmap em);
  emb_coords : Forall2 (fun x w => nth_error (coords base) w = Some x) (coords (em_mesh em)) (em_vmap em);
  emb_vertex_once : NoDup (em_vmap em);
  emb_vertices : forall w, In w (em_vmap em) <-> exists e vs, In e (em_cmap em) /\ nth_error (conn base) e = Some vs /\ In w vs;
  emb_markers : Forall2 (fun m e => nth_error values e = Some m) (em_f em) (em_cmap em) }.
(** Meshes refer to existing vertices and are marked everywhere. *)
Definition marked {X} (base : @mesh X) (values : list nat) : Prop := length values = length (conn base) /\ forall vs v, In vs (conn base) -> In v vs -> v < length (coords base).
(** What is assumed of dolfin's SubMesh: the cells where [f] is 1, in increasing
    order, with their vertices and nothing else. *)
Record submesh_ok {X} (base : @mesh X) (f : list nat) (out : @mesh X * list nat * list nat) : Prop := {
  so_sorted : StronglySorted lt (snd out);
  so_cells : forall e, In e (snd out) <-> nth_error f e = Some 1;
  so_incidence : Forall2 (fun cell e => exists vs ws, nth_error (conn base) e = Some vs /\ Forall2 (sends (snd (fst out))) cell ws /\ Permutation ws vs) (conn (fst (fst out))) (snd out);
  so_coords : Forall2 (fun x w => nth_error (coords base) w = Some x) (coords (fst (fst out))) (snd (fst out));
  so_once : NoDup (snd (fst out));
  so_vertices : forall w, In w (snd (fst out)) <-> exists e vs, In e (snd out) /\ nth_error (conn base) e = Some vs /\ In w vs }.

(** ** Lists *)
Lemma where_eq_In vals tag e : In e (where_eq vals tag) <-> nth_error vals e = Some tag.
Proof.
  unfold where_eq. rewrite filter_In, in_seq, Nat.eqb_eq. split.
  - intros [H <-]. apply nth_error_nth'. lia.
  - intros H. split; [|apply nth_error_nth; exact H]. assert (e < length vals) by (apply nth_error_Some; congruence). lia.
Qed.
Lemma where_eq_sorted vals tag : StronglySorted lt (where_eq vals tag).
Proof.
  unfold where_eq. assert (G : forall n s p, StronglySorted lt (filter p (seq s n))).
  { clear vals. induction n as [|n IH]; intros s p; cbn; [constructor|]. destruct (p s); [|apply IH]. constructor; [apply IH|]. apply Forall_forall. intros x H. apply filter_In in H. destruct H as [H _]. apply in_seq in H. lia. }
  apply G.
Qed.
Lemma tagged_trace vals markers : concat (map (where_eq vals) markers) = trace_cells vals markers.
Proof. reflexivity. Qed.
Lemma tagged_In vals markers e : In e (concat (map (where_eq vals) markers)) <-> exists m, nth_error vals e = Some m /\ In m markers.
Proof.
  rewrite in_concat. split.
  - intros [l [H I]]. apply in_map_iff in H. destruct H as [m [<- H]]. exists m. split; [apply where_eq_In; exact I|exact H].
  - intros [m [H I]]. exists (where_eq vals m). split; [apply in_map; exact I|apply where_eq_In; exact H].
Qed.
Lemma insert_unique_In v w l : In w (insert_unique v l) <-> w = v \/ In w l.
Proof.
  assert (Q : w = v <-> v = w) by (split; auto). rewrite Q. clear Q. induction l as [|u l IH]; cbn [insert_unique]; [cbn [In]; tauto|]. destruct (Nat.ltb_spec v u) as [H|H]; [cbn [In]; tauto|].
  destruct (Nat.eqb_spec v u) as [->|N]; cbn [In]; [tauto|]. rewrite IH. tauto.
Qed.
Lemma insert_unique_sorted v l : StronglySorted lt l -> StronglySorted lt (insert_unique v l).
Proof.
  induction 1 as [|u l H IH F]; cbn [insert_unique]; [repeat constructor|]. destruct (Nat.ltb_spec v u) as [L|L].
  - constructor; [constructor; assumption|]. constructor; [exact L|]. eapply Forall_impl; [|exact F]. cbn. intros; lia.
  - destruct (Nat.eqb_spec v u) as [->|N]; [constructor; assumption|]. constructor; [exact IH|]. apply Forall_forall. intros w W. apply insert_unique_In in W. destruct W as [->|W]; [lia|]. rewrite Forall_forall in F. exact (F w W).
Qed.
Lemma np_unique_In l w : In w (np_unique l) <-> In w l.
Proof. induction l as [|v l IH]; cbn; [reflexivity|]. unfold np_unique in IH |- *. rewrite insert_unique_In, IH. split; intros [H|H]; auto. Qed.
Lemma np_unique_sorted l : StronglySorted lt (np_unique l).
Proof. induction l as [|v l IH]; cbn; [constructor|apply insert_unique_sorted; exact IH]. Qed.
Lemma sorted_NoDup l : StronglySorted lt l -> NoDup l.
Proof. induction 1 as [|u l H IH F]; constructor; [|exact IH]. intros C. rewrite Forall_forall in F. specialize (F u C). lia. Qed.
Lemma position_ok v l : In v l -> exists k, position v l = Ok k /\ nth_error l k = Some v.
Proof.
  induction l as [|w l IH]; intros H; [destruct H|]. cbn [position]. destruct (Nat.eqb_spec w v) as [->|N]; [exists 0; auto|].
  destruct H as [H|H]; [congruence|]. destruct (IH H) as [k [E G]]. exists (S k). rewrite E. auto.
Qed.
Lemma position_sound v l k : position v l = Ok k -> nth_error l k = Some v.
Proof.
  revert k. induction l as [|w l IH]; intros k; cbn [position]; [discriminate|]. destruct (Nat.eqb_spec w v) as [->|N]; [intros [= <-]; reflexivity|].
  destruct (position v l) as [k'|] eqn:E; cbn; [|discriminate]. intros [= <-]. exact (IH _ eq_refl).
Qed.
Lemma position_nth l k v : NoDup l -> nth_error l k = Some v -> position v l = Ok k.
Proof.
  intros N E. destruct (position_ok v l) as [k' [P Q]]; [eapply nth_error_In; exact E|]. rewrite P. f_equal. eapply NoDup_nth_error; [exact N|apply nth_error_Some; congruence|congruence].
Qed.
Lemma set_all_at_length {A} (l : list A) idx x : length (set_all_at l idx x) = length l.
Proof. unfold set_all_at. revert l. induction idx as [|i idx IH]; intros l; cbn; [reflexivity|]. rewrite IH. apply set_nth_length. Qed.
Lemma set_all_at_nth {A} (l : list A) idx x j d : nth j (set_all_at l idx x) d = if existsb (Nat.eqb j) idx && (j <? length l) then x else nth j l d.
Proof.
  unfold set_all_at. revert l. induction idx as [|i idx IH]; intros l; cbn [fold_left existsb]; [reflexivity|]. rewrite IH, set_nth_length, nth_set_nth.
  destruct (existsb (Nat.eqb j) idx); cbn [andb orb].
  - rewrite orb_true_r. cbn [andb]. destruct (Nat.ltb_spec j (length l)); [reflexivity|]. destruct (Nat.eqb_spec j i) as [<-|]; cbn [andb]; [|reflexivity]. destruct (Nat.ltb_spec j (length l)); [lia|reflexivity].
  - rewrite orb_false_r. destruct (Nat.eqb_spec j i) as [<-|]; reflexivity.
Qed.
Lemma set_slice_app a b c m : set_slice (a ++ b ++ c) (length a) (length a + length b) m = a ++ repeat m (length b) ++ c.
Proof.
  unfold set_slice. apply (nth_ext _ _ m m).
  - rewrite set_all_at_length, !app_length, repeat_length. reflexivity.
  - intros j J. rewrite set_all_at_length, !app_length in J. rewrite set_all_at_nth. replace (length a + length b - length a) with (length b) by lia.
    assert (B : (j <? length (a ++ b ++ c)) = true) by (apply Nat.ltb_lt; rewrite !app_length; lia). rewrite B, andb_true_r. clear B.
    destruct (existsb (Nat.eqb j) (seq (length a) (length b))) eqn:E.
    + apply existsb_nat in E. apply in_seq in E. rewrite app_nth2 by lia. rewrite app_nth1 by (rewrite repeat_length; lia). symmetry. apply nth_repeat_in. lia.
    + assert (N : ~ (length a <= j < length a + length b)). { intros H. apply in_seq in H. apply existsb_nat in H. congruence. }
      destruct (Nat.lt_ge_cases j (length a)) as [L|L]; [rewrite !app_nth1 by assumption; reflexivity|]. rewrite !(app_nth2 a) by assumption. rewrite !app_nth2 by (rewrite ?repeat_length; lia). rewrite repeat_length. reflexivity.
Qed.
Lemma cumsum_nth s l k : k <= length l -> nth k (cumsum s l) 0 = s + list_sum (firstn k l).
Proof. revert s k. induction l as [|x l IH]; intros s [|k] H; cbn in *; try lia. rewrite IH by lia. unfold list_sum. lia. Qed.
Lemma slices_marks ms cs a : length ms = length cs -> forall pre, length a = list_sum (map (@length nat) pre) ->
  fold_left (fun f (im : nat * nat) => set_slice f (nth (fst im) (cumsum 0 (map (@length nat) (pre ++ cs))) 0) (nth (S (fst im)) (cumsum 0 (map (@length nat) (pre ++ cs))) 0) (snd im))
    (combine (seq (length pre) (length ms)) ms) (a ++ repeat 0 (length (concat cs))) = a ++ concat (map (fun mc : nat * list nat => repeat (fst mc) (length (snd mc))) (combine ms cs)).
Proof.
  revert cs a. induction ms as [|m ms IH]; intros [|c cs] a L pre LA; cbn in L; try discriminate; [reflexivity|]. cbn [length seq combine fold_left fst snd map concat].
  assert (P1 : nth (length pre) (cumsum 0 (map (@length nat) (pre ++ c :: cs))) 0 = length a).
  { rewrite cumsum_nth by (rewrite map_length, app_length; cbn; lia). rewrite firstn_map, firstn_app, firstn_all, Nat.sub_diag. cbn [firstn]. rewrite app_nil_r. symmetry. exact LA. }
  assert (P2 : nth (S (length pre)) (cumsum 0 (map (@length nat) (pre ++ c :: cs))) 0 = length a + length c).
  { rewrite cumsum_nth by (rewrite map_length, app_length; cbn; lia). rewrite firstn_map, firstn_app, firstn_all2 by lia. replace (S (length pre) - length pre) with 1 by lia. cbn [firstn]. rewrite map_app, list_sum_app. cbn. lia. }
  rewrite P1, P2, app_length, repeat_app.
  assert (S1 : set_slice (a ++ repeat 0 (length c) ++ repeat 0 (length (concat cs))) (length a) (length a + length c) m = (a ++ repeat m (length c)) ++ repeat 0 (length (concat cs))).
  { rewrite <- app_assoc. pose proof (set_slice_app a (repeat 0 (length c)) (repeat 0 (length (concat cs))) m) as G. rewrite repeat_length in G. exact G. }
  rewrite S1. assert (E : pre ++ c :: cs = (pre ++ [c]) ++ cs) by (rewrite <- app_assoc; reflexivity). rewrite E.
  replace (S (length pre)) with (length (pre ++ [c])) by (rewrite app_length; cbn; lia). rewrite IH.
  - rewrite <- app_assoc. reflexivity.
  - injection L as L. exact L.
  - rewrite app_length, repeat_length, map_app, list_sum_app. cbn. lia.
Qed.
Lemma sequential_marks_ok markers values n : markers <> [] -> n = length (concat (map (where_eq values) markers)) ->
  Forall2 (fun m e => nth_error values e = Some m) (sequential_marks markers (map (where_eq values) markers) n) (concat (map (where_eq values) markers)).
Proof.
  intros NE ->. unfold sequential_marks. destruct (Nat.ltb_spec 1 (length markers)) as [H|H].
  - pose proof (slices_marks markers (map (where_eq values) markers) [] ltac:(rewrite map_length; reflexivity) [] eq_refl) as G. cbn [app length] in G. rewrite G. clear.
    induction markers as [|m ms IH]; cbn; [constructor|]. apply Forall2_app; [|exact IH]. assert (W : forall e, In e (where_eq values m) -> nth_error values e = Some m) by (intros; apply where_eq_In; assumption). revert W. generalize (where_eq values m). clear. induction l as [|e l IH]; intros W; cbn; constructor; [apply W; left; reflexivity|apply IH; intros; apply W; right; assumption].
  - destruct markers as [|m [|]]; cbn in H; try lia; [congruence|]. cbn [map concat hd]. rewrite app_nil_r. assert (W : forall e, In e (where_eq values m) -> nth_error values e = Some m) by (intros; apply where_eq_In; assumption). revert W. generalize (where_eq values m). clear. induction l as [|e l IH]; intros W; cbn; constructor; [apply W; left; reflexivity|apply IH; intros; apply W; right; assumption].
Qed.

(** ** Entities *)
Lemma Forall2_trans' {A B C} (R : A -> B -> Prop) (S' : B -> C -> Prop) (T : A -> C -> Prop) a b c : (forall x y z, In y b -> R x y -> S' y z -> T x z) -> Forall2 R a b -> Forall2 S' b c -> Forall2 T a c.
Proof.
  intros H F. revert c. induction F as [|x y a b r F IH]; intros c G; inversion G as [|? z ? c' s G' E]; subst; constructor.
  - eapply H; [left; reflexivity|exact r|exact s].
  - apply IH; [intros ? ? ? I; apply H; right; exact I|exact G'].
Qed.
Lemma Forall2_impl {A B} (R S' : A -> B -> Prop) a b : (forall x y, R x y -> S' x y) -> Forall2 R a b -> Forall2 S' a b.
Proof. induction 2; constructor; auto. Qed.
Lemma Forall2_len {A B} (R : A -> B -> Prop) a b : Forall2 R a b -> length a = length b.
Proof. induction 1; cbn; congruence. Qed.
Lemma Forall2_flip' {A B} (R : A -> B -> Prop) a b : Forall2 R a b -> Forall2 (fun y x => R x y) b a.
Proof. induction 1; constructor; assumption. Qed.

Lemma embed_entities_ok {X} (base : @mesh X) values markers : marked base values -> NoDup markers -> markers <> [] ->
  exists em, embed_entities base values markers = Ok em /\ embeds base values markers em /\ StronglySorted lt (em_vmap em) /\
    Forall2 (fun cell e => exists vs, nth_error (conn base) e = Some vs /\ Forall2 (sends (em_vmap em)) cell vs) (conn (em_mesh em)) (em_cmap em) /\
    (forall m, In m (em_tags em) <-> In m markers).
Proof.
  intros [LV WF] ND NE. unfold embed_entities. set (tagged := concat (map (where_eq values) markers)).
  assert (TB : forall e, In e tagged -> e < length (conn base)). { intros e H. apply tagged_In in H. destruct H as [m [H _]]. rewrite <- LV. apply nth_error_Some. congruence. }
  destruct (mapM_total (fun e => opt_res IndexError (nth_error (conn base) e)) tagged) as [tv T].
  { intros e H. apply TB in H. apply nth_error_Some in H. destruct (nth_error (conn base) e) as [vs|]; [exists vs; reflexivity|congruence]. }
  rewrite T. cbn [bind]. apply mapM_ok_forall in T.
  assert (T2 : Forall2 (fun e vs => nth_error (conn base) e = Some vs) tagged tv). { eapply Forall2_impl; [|exact T]. cbn. intros e vs H. destruct (nth_error (conn base) e); cbn in H; congruence. } clear T.
  set (verts := np_unique (concat tv)).
  assert (VI : forall w, In w verts <-> exists e vs, In e tagged /\ nth_error (conn base) e = Some vs /\ In w vs).
  { intros w. unfold verts. rewrite np_unique_In, in_concat. split.
    - intros [vs [H I]]. clear - H I T2. induction T2 as [|e us es uss E F IH]; [destruct H|]. destruct H as [->|H]; [exists e, vs; repeat split; auto; left; reflexivity|]. destruct (IH H) as [e' [vs' [A B]]]. exists e', vs'. split; [right; exact A|exact B].
    - intros [e [vs [H [E I]]]]. exists vs. split; [|exact I]. clear - H E T2. induction T2 as [|e' us es uss E' F IH]; [destruct H|]. destruct H as [->|H]; [left; congruence|right; exact (IH H)]. }
  assert (P : exists cells, mapM (mapM (fun v => position v verts)) tv = Ok cells /\ Forall2 (fun cell vs => Forall2 (sends verts) cell vs) cells tv).
  { assert (Q : forall vs, In vs tv -> incl vs verts). { intros vs H v I. unfold verts. apply np_unique_In. apply in_concat. exists vs. auto. }
    revert Q. generalize verts as V. clear. intros V. induction tv as [|vs tv IH]; intros Q; [exists []; split; [reflexivity|constructor]|].
    destruct IH as [cells [E F]]; [intros u U; apply Q; right; exact U|]. rewrite mapM_cons.
    assert (G : exists cell, mapM (fun v => position v V) vs = Ok cell /\ Forall2 (sends V) cell vs).
    { specialize (Q vs (or_introl eq_refl)). revert Q. clear. induction vs as [|v vs IH]; intros Q; [exists []; split; [reflexivity|constructor]|]. destruct IH as [c [E F]]; [intros u U; apply Q; right; exact U|]. destruct (position_ok v V (Q v (or_introl eq_refl))) as [k [A B]].
      exists (k :: c). rewrite mapM_cons, A, E. split; [reflexivity|constructor; assumption]. }
    destruct G as [cell [G1 G2]]. exists (cell :: cells). rewrite G1, E. split; [reflexivity|constructor; assumption]. }
  destruct P as [cells [P1 P2]]. rewrite P1. cbn [bind].
  destruct (mapM_total (fun v => opt_res IndexError (nth_error (coords base) v)) verts) as [xs XS].
  { intros w H. apply VI in H. destruct H as [e [vs [_ [E I]]]]. apply nth_error_In in E. pose proof (WF _ _ E I) as L. apply nth_error_Some in L. destruct (nth_error (coords base) w) as [x|]; [exists x; reflexivity|congruence]. }
  rewrite XS. cbn [bind]. apply mapM_ok_forall in XS. eexists. split; [reflexivity|]. cbn [em_vmap em_cmap em_mesh conn coords em_tags].
  assert (CV : Forall2 (fun cell e => exists vs, nth_error (conn base) e = Some vs /\ Forall2 (sends verts) cell vs) cells tagged).
  { apply (Forall2_trans' _ _ _ _ _ _ (fun cell vs e (_ : In vs tv) (A : Forall2 (sends verts) cell vs) (B : nth_error (conn base) e = Some vs) => ex_intro (fun vs => nth_error (conn base) e = Some vs /\ Forall2 (sends verts) cell vs) vs (conj B A)) P2). apply Forall2_flip'. exact T2. }
  split; [|split; [apply np_unique_sorted|split; [exact CV|intros m; apply nodup_In]]]. constructor; cbn [em_vmap em_cmap em_mesh conn coords em_f].
  - apply trace_cells_NoDup. exact ND.
  - apply tagged_In.
  - eapply Forall2_impl; [|exact CV]. cbn. intros cell e [vs [A B]]. exists vs, vs. auto.
  - apply Forall2_flip' in XS. eapply Forall2_impl; [|exact XS]. cbn. intros x w H. destruct (nth_error (coords base) w); cbn in H; congruence.
  - apply sorted_NoDup, np_unique_sorted.
  - exact VI.
  - apply sequential_marks_ok; [exact NE|]. apply Forall2_len in CV. exact CV.
Qed.

(** ** Cells *)
Lemma colors_In values markers mc : In mc (color_cells values markers) <-> In (fst mc) markers /\ snd mc = where_eq values (fst mc).
Proof.
  unfold color_cells. rewrite in_map_iff. split.
  - intros [m [<- H]]. apply in_rev in H. apply nodup_In in H. apply in_rev in H. auto.
  - destruct mc as [m c]. cbn. intros [H ->]. exists m. split; [reflexivity|]. apply in_rev. rewrite rev_involutive. apply nodup_In. apply in_rev in H. exact H.
Qed.
Lemma one_spec (colors : list (nat * list nat)) l j : nth j (fold_left (fun f (mc : nat * list nat) => set_all_at f (snd mc) 1) colors l) 0 =
  if existsb (fun mc : nat * list nat => existsb (Nat.eqb j) (snd mc)) colors && (j <? length l) then 1 else nth j l 0.
Proof.
  revert l. induction colors as [|mc colors IH]; intros l; cbn [fold_left existsb]; [reflexivity|]. rewrite IH, set_all_at_length, set_all_at_nth.
  destruct (existsb (Nat.eqb j) (snd mc)), (existsb (fun mc0 : nat * list nat => existsb (Nat.eqb j) (snd mc0)) colors), (j <? length l); reflexivity.
Qed.
Lemma one_length (colors : list (nat * list nat)) l : length (fold_left (fun f (mc : nat * list nat) => set_all_at f (snd mc) 1) colors l) = length l.
Proof. revert l. induction colors as [|mc colors IH]; intros l; cbn [fold_left]; [reflexivity|]. rewrite IH. apply set_all_at_length. Qed.
Lemma nth_error_nth0 (l : list nat) j x : nth_error l j = Some x <-> j < length l /\ nth j l 0 = x.
Proof. split; [intros H; split; [apply nth_error_Some; congruence|apply nth_error_nth; exact H]|intros [H <-]; apply nth_error_nth'; exact H]. Qed.
Definition marking (values markers : list nat) (n : nat) : list nat := fold_left (fun f mc => set_all_at f (snd mc) 1) (color_cells values markers) (repeat 0 n).
Lemma marking_spec values markers n e : length values = n -> nth_error (marking values markers n) e = Some 1 <-> exists m, nth_error values e = Some m /\ In m markers.
Proof.
  intros L. unfold marking. rewrite nth_error_nth0, one_length, one_spec, repeat_length. split.
  - intros [H E]. destruct (existsb _ (color_cells values markers)) eqn:X.
    + apply existsb_exists in X. destruct X as [mc [I J]]. apply existsb_nat in J. apply colors_In in I. destruct I as [I K]. rewrite K in J. apply where_eq_In in J. eauto.
    + cbn [andb] in E. rewrite nth_repeat in E. discriminate.
  - intros [m [E I]]. assert (B : e < n) by (subst n; apply nth_error_Some; congruence). split; [exact B|].
    assert (X : existsb (fun mc : nat * list nat => existsb (Nat.eqb e) (snd mc)) (color_cells values markers) = true).
    { apply existsb_exists. exists (m, where_eq values m). split; [apply colors_In; auto|]. apply existsb_nat, where_eq_In. exact E. }
    rewrite X. apply Nat.ltb_lt in B. rewrite B. reflexivity.
Qed.
Lemma news_marks values (cmap : list nat) (NDC : NoDup cmap) colors news f : (forall mc, In mc colors -> snd mc = where_eq values (fst mc)) ->
  mapM (fun mc : nat * list nat => do new <- mapM (fun o => position o cmap) (snd mc); Ok (fst mc, new)) colors = Ok news -> length f = length cmap ->
  forall k e, nth_error cmap k = Some e -> (forall m, nth_error values e = Some m -> In m (map fst colors) \/ nth k f 0 = m) ->
  forall m, nth_error values e = Some m -> nth k (fold_left (fun f (mn : nat * list nat) => set_all_at f (snd mn) (fst mn)) news f) 0 = m.
Proof.
  intros W. revert news f. induction colors as [|[c cs] colors IH]; intros news f M L k e K H m E.
  - injection M as <-. cbn. destruct (H m E) as [[]|G]; exact G.
  - rewrite mapM_cons in M. destruct (mapM (fun o => position o cmap) (snd (c, cs))) as [new|] eqn:N; [|discriminate]. cbn [bind fst] in M. destruct (mapM _ colors) as [news'|] eqn:M'; [|discriminate]. injection M as <-. cbn [fold_left fst snd].
    eapply IH; [intros mc I; apply W; right; exact I|reflexivity|rewrite set_all_at_length; exact L|exact K| |exact E].
    intros m' E'. assert (m' = m) by congruence. subst m'. rewrite set_all_at_nth. specialize (W (c, cs) (or_introl eq_refl)). cbn [fst snd] in W, N. subst cs.
    assert (KB : k < length f) by (rewrite L; apply nth_error_Some; congruence). apply Nat.ltb_lt in KB. rewrite KB, andb_true_r.
    destruct (existsb (Nat.eqb k) new) eqn:X.
    + right. apply existsb_nat in X. apply mapM_ok_forall in N. assert (G : exists o, In o (where_eq values c) /\ position o cmap = Ok k).
      { clear - X N. induction N as [|o k' os ks A B IH]; [destruct X|]. destruct X as [->|X]; [exists o; split; [left; reflexivity|exact A]|]. destruct (IH X) as [o' [? ?]]. exists o'. split; [right; assumption|assumption]. }
      destruct G as [o [O1 O2]]. apply position_sound in O2. assert (o = e) by congruence. subst o. apply where_eq_In in O1. congruence.
    + destruct (H m E) as [[<-|G]|G]; [|left; exact G|right; exact G]. exfalso. apply mapM_ok_forall in N. cbn [fst] in *. assert (I : In e (where_eq values c)) by (apply where_eq_In; exact E).
      assert (I2 : In k new). { clear X. revert N I. generalize (where_eq values c). intros l N I. induction N as [|o k' os ks A B IHN]; [destruct I|]. destruct I as [->|I]; [left; rewrite (position_nth cmap k e NDC K) in A; congruence|right; exact (IHN I)]. }
      apply existsb_nat in I2. congruence.
Qed.
Lemma news_length (news : list (nat * list nat)) f : length (fold_left (fun f (mn : nat * list nat) => set_all_at f (snd mn) (fst mn)) news f) = length f.
Proof. revert f. induction news as [|mn news IH]; intros f; cbn [fold_left]; [reflexivity|]. rewrite IH. apply set_all_at_length. Qed.
Lemma Forall2_nth {A B} (R : A -> B -> Prop) la lb da : length la = length lb -> (forall k b, nth_error lb k = Some b -> R (nth k la da) b) -> Forall2 R la lb.
Proof.
  revert lb. induction la as [|a la IH]; intros [|b lb] L H; cbn in L; try discriminate; constructor; [exact (H 0 b eq_refl)|]. apply IH; [lia|]. intros k b' E. exact (H (S k) b' E).
Qed.
Lemma embed_cells_ok {X} submesh (base : @mesh X) values markers : marked base values -> markers <> [] ->
  submesh_ok base (marking values markers (length (conn base))) (submesh base (marking values markers (length (conn base)))) ->
  exists em, embed_cells submesh base values markers = Ok em /\ embeds base values markers em /\ StronglySorted lt (em_cmap em) /\ (forall m, In m (em_tags em) <-> In m markers).
Proof.
  intros [LV WF] NE SO. unfold embed_cells. fold (marking values markers (length (conn base))). set (one := marking values markers (length (conn base))) in *.
  destruct (submesh base one) as [[sub vmap] cmap] eqn:ES. destruct SO as [SS SC SI SX SN SV]. cbn [fst snd] in *.
  assert (CC : forall e, In e cmap <-> exists m, nth_error values e = Some m /\ In m markers) by (intros e; rewrite SC; apply marking_spec; exact LV).
  pose proof (sorted_NoDup _ SS) as NDC. pose proof (Forall2_len _ _ _ SI) as LC.
  assert (F : exists f, (if 1 <? length markers
           then (do news <- mapM (fun mc : nat * list nat => do new <- mapM (fun o => position o cmap) (snd mc); Ok (fst mc, new)) (color_cells values markers);
                 Ok (fold_left (fun f (mn : nat * list nat) => set_all_at f (snd mn) (fst mn)) news (repeat 0 (length (conn sub)))))
           else Ok (map (fun _ => hd 0 markers) (repeat 0 (length (conn sub))))) = Ok f /\ Forall2 (fun m e => nth_error values e = Some m) f cmap).
  { destruct (Nat.ltb_spec 1 (length markers)) as [G|G].
    - destruct (mapM_total (fun mc : nat * list nat => do new <- mapM (fun o => position o cmap) (snd mc); Ok (fst mc, new)) (color_cells values markers)) as [news M].
      { intros [m c] I. apply colors_In in I. cbn [fst snd] in I |- *. destruct I as [I ->]. destruct (mapM_total (fun o => position o cmap) (where_eq values m)) as [new N].
        - intros o O. apply where_eq_In in O. destruct (position_ok o cmap) as [k [K _]]; [apply CC; eauto|eauto].
        - rewrite N. eexists. reflexivity. }
      rewrite M. cbn [bind]. eexists. split; [reflexivity|]. apply (Forall2_nth _ _ _ 0); [rewrite news_length, repeat_length; exact LC|].
      intros k e K. destruct (proj1 (CC e) (nth_error_In _ _ K)) as [m [E I]]. rewrite E. f_equal. symmetry.
      eapply (news_marks values cmap NDC (color_cells values markers) news); [intros mc J; apply colors_In in J; apply J|exact M|rewrite repeat_length; exact LC|exact K| |exact E].
      intros m' E'. left. apply in_map_iff. exists (m', where_eq values m'). split; [reflexivity|]. apply colors_In. cbn. split; [congruence|reflexivity].
    - eexists. split; [reflexivity|]. destruct markers as [|m [|]]; cbn in G; try lia; [congruence|]. cbn [hd].
      apply (Forall2_nth _ _ _ 0); [rewrite map_length, repeat_length; exact LC|]. intros k e K. destruct (proj1 (CC e) (nth_error_In _ _ K)) as [m' [E [<-|[]]]]. rewrite E. f_equal. symmetry.
      assert (KB : k < length (conn sub)) by (rewrite LC; apply nth_error_Some; congruence). rewrite (nth_indep _ 0 ((fun _ : nat => m) 0)) by (rewrite map_length, repeat_length; exact KB). rewrite (map_nth (fun _ => m) _ 0). reflexivity. }
  destruct F as [f [F1 F2]]. cbn [bind] in F1 |- *. rewrite F1. cbn [bind]. eexists. split; [reflexivity|].
  split; [|split; [exact SS|intros m; apply nodup_In]]. constructor; cbn [em_vmap em_cmap em_mesh em_f]; assumption.
Qed.
