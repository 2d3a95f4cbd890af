(** The mesh of the common cells of two meshes: specification and lemmas (property C63) *)
From Verif Require Export OverlapModel.
From Verif Require Import BaseProofs FillModel FillProofs EmbedProofs GmshProofs UnionProofs LineProofs EmapProofs.
From Coq Require Import Psatz Permutation.
From Verif Require Import GeomProofs.
Local Open Scope R_scope.
Local Close Scope Q_scope.
Local Close Scope Qc_scope.

(** ** Specification *)
(** A vertex of a located cell of the second mesh next to the point *)
Definition next_to (mesh2 : subdomain) (locate : list R -> list nat) (delta : R) (p : list R) (w : nat) : Prop :=
  GeomProofs.dist p (nth w (coords (o_mesh mesh2)) []) < delta /\ exists c, In c (locate p) /\ In w (nth c (conn (o_mesh mesh2)) []).
(** A cell which is located from all the points *)
Definition around (locate : list R -> list nat) (ex : list (list R)) (vs : list nat) (c : nat) : Prop := forall v, In v vs -> In c (locate (nth v ex [])).
(** The cells of [em] are cells of the second mesh: [pv] and [pc] are their vertices and they
    themselves, and [locate] is right for the vertices *)
Definition shared (em : @emesh (list R)) (mesh2 : subdomain) (locate : list R -> list nat) (delta : R) (pv pc : nat -> nat) : Prop :=
  forall i vs, nth_error (conn (em_mesh em)) i = Some vs -> vs <> [] /\ (pc i < length (conn (o_mesh mesh2)))%nat /\ (forall w, In w (map pv vs) <-> In w (nth (pc i) (conn (o_mesh mesh2)) [])) /\
  forall v, In v vs -> (v < length (coords (em_mesh em)))%nat /\ GeomProofs.dist (nth v (coords (em_mesh em)) []) (nth (pv v) (coords (o_mesh mesh2)) []) < delta /\
    length (nth v (coords (em_mesh em)) []) = length (nth (pv v) (coords (o_mesh mesh2)) []) /\
    forall c, In c (locate (nth v (coords (em_mesh em)) [])) <-> (c < length (conn (o_mesh mesh2)))%nat /\ In (pv v) (nth c (conn (o_mesh mesh2)) []).
(** A mesh with vertices that are apart, where no cell has all the vertices of another *)
Definition spread (m : @mesh (list R)) (delta : R) : Prop :=
  (forall c w, In w (nth c (conn m) []) -> (w < length (coords m))%nat) /\
  (forall w w', (w < length (coords m))%nat -> (w' < length (coords m))%nat -> w <> w' -> length (nth w (coords m) []) = length (nth w' (coords m) []) /\ 2 * delta <= GeomProofs.dist (nth w (coords m) []) (nth w' (coords m) [])) /\
  (forall c c', incl (nth c (conn m) []) (nth c' (conn m) []) -> (c < length (conn m))%nat -> (c' < length (conn m))%nat -> c = c').

(** ** Intersections *)
Lemma meet_In a b c : a <> [] -> (In c (meet a b) <-> In c a /\ In c b).
Proof.
  intros H. unfold meet. destruct a as [|x a]; [contradiction|]. rewrite filter_In. unfold mem. rewrite existsb_exists. split.
  - intros [A [y [B1 B2]]]. apply Nat.eqb_eq in B2. subst y. split; assumption.
  - intros [A B]. split; [exact A|]. exists c. split; [exact B|apply Nat.eqb_refl].
Qed.
Lemma meet_start b c : In c (meet [] b) <-> In c b.
Proof. apply nodup_In. Qed.
Lemma meet_NoDup a b : NoDup a -> NoDup (meet a b).
Proof. intros H. unfold meet. destruct a; [apply NoDup_nodup|apply NoDup_filter; exact H]. Qed.
Lemma meets_NoDup Ss : forall a, NoDup a -> NoDup (fold_left meet Ss a).
Proof. induction Ss as [|b Ss IH]; intros a H; [exact H|]. apply IH, meet_NoDup, H. Qed.
(** If some cell is in all the sets the result is their intersection *)
Lemma meets_common Ss : forall a k, In k a -> (forall b, In b Ss -> In k b) -> forall c, In c (fold_left meet Ss a) <-> In c a /\ forall b, In b Ss -> In c b.
Proof.
  induction Ss as [|b Ss IH]; intros a k Ha Hs c; cbn [fold_left]; [split; [intros H; split; [exact H|intros b []]|intros [H _]; exact H]|].
  assert (N : a <> []) by (intros ->; destruct Ha).
  rewrite (IH (meet a b) k); [|apply meet_In; [exact N|split; [exact Ha|apply Hs; left; reflexivity]]|intros b' H; apply Hs; right; exact H]. rewrite (meet_In a b c N). split.
  - intros [[A B] C]. split; [exact A|]. intros b' [<- | H]; [exact B|exact (C _ H)].
  - intros [A B]. split; [split; [exact A|apply B; left; reflexivity]|]. intros b' H. apply B. right. exact H.
Qed.
Lemma meets_all Ss k : Ss <> [] -> (forall b, In b Ss -> In k b) -> forall c, In c (fold_left meet Ss []) <-> forall b, In b Ss -> In c b.
Proof.
  destruct Ss as [|b Ss]; [intros H; contradiction|]. intros _ H c. cbn [fold_left]. rewrite (meets_common Ss (meet [] b) k); [|apply meet_start; apply H; left; reflexivity|intros b' I; apply H; right; exact I]. rewrite meet_start. split.
  - intros [A B] b' [<- | I]; [exact A|exact (B _ I)].
  - intros A. split; [apply A; left; reflexivity|]. intros b' I. apply A. right. exact I.
Qed.
Lemma nonempty_start b : b <> [] -> meet [] b <> [].
Proof. destruct b as [|x b]; [intros H; contradiction|]. intros _ E. assert (I : In x (meet [] (x :: b))) by (apply meet_start; left; reflexivity). rewrite E in I. destruct I. Qed.
(** Two sets are never started again *)
Lemma meets_two Ss c : (length Ss <= 2)%nat -> (forall b, In b Ss -> b <> []) -> fold_left meet Ss [] = [c] -> forall b, In b Ss -> In c b.
Proof.
  intros L N E. destruct Ss as [|a [|b [|]]]; [discriminate| | |cbn in L; lia].
  - intros b [<- | []]. apply meet_start. cbn [fold_left] in E. rewrite E. left. reflexivity.
  - cbn [fold_left] in E. assert (I : In c (meet (meet [] a) b)) by (rewrite E; left; reflexivity). apply meet_In in I; [|apply nonempty_start, N; left; reflexivity]. destruct I as [I1 I2]. apply (proj1 (meet_start a c)) in I1. intros b' [<- | [<- | []]]; assumption.
Qed.
(** With three sets of two at least, starting again does no harm *)
Lemma meets_three Ss c : (length Ss <= 3)%nat -> (forall b, In b Ss -> exists x y, x <> y /\ In x b /\ In y b) -> fold_left meet Ss [] = [c] -> forall b, In b Ss -> In c b.
Proof.
  intros L N E. assert (NE : forall b, In b Ss -> b <> []) by (intros b I ->; destruct (N _ I) as [x [_ [_ [[] _]]]]).
  destruct Ss as [|a [|b [|d [|]]]]; [discriminate|apply meets_two; [cbn; lia|exact NE|exact E]|apply meets_two; [cbn; lia|exact NE|exact E]| |cbn in L; lia].
  cbn [fold_left] in E. assert (NA : meet [] a <> []) by (apply nonempty_start, NE; left; reflexivity).
  destruct (meet (meet [] a) b) as [|k l] eqn:EM.
  - destruct (N d) as [x [y [XY [X Y]]]]; [right; right; left; reflexivity|]. apply (proj2 (meet_start d x)) in X. apply (proj2 (meet_start d y)) in Y. rewrite E in X, Y. destruct X as [<- | []], Y as [<- | []]. contradiction XY. reflexivity.
  - assert (I : In c (meet (k :: l) d)) by (rewrite E; left; reflexivity). apply meet_In in I; [|discriminate]. rewrite <- EM in I. destruct I as [I1 I2]. apply meet_In in I1; [|exact NA]. destruct I1 as [I0 I1]. apply (proj1 (meet_start a c)) in I0. intros b' [<- | [<- | [<- | []]]]; assumption.
Qed.

(** ** The search *)
Section Search.
Variables (mesh2 : subdomain) (locate : list R -> list nat) (ex : list (list R)) (tol s : R).
Notation x2 := (coords (o_mesh mesh2)).
Notation c2v := (conn (o_mesh mesh2)).
Notation Lc := (fun v => locate (nth v ex [])).
Definition ongoing (st : progress) : Prop := length (vertex_map st) = length ex /\ (forall v m, dget v (collided st) = Some m -> m = Lc v /\ Lc v <> []) /\
  (forall v w, nth v (vertex_map st) None = Some w -> next_to mesh2 locate (tol * s) (nth v ex []) w).
Lemma dget_dset {B} k (b : B) d k' : dget k' (dset k b d) = if (k =? k')%nat then Some b else dget k' d.
Proof.
  induction d as [|[j x] d IH]; cbn [dset dget]; [reflexivity|]. destruct (j =? k)%nat eqn:E; cbn [dget].
  - apply Nat.eqb_eq in E. subst j. destruct (k =? k')%nat; reflexivity.
  - rewrite IH. destruct (j =? k')%nat eqn:E'; [|reflexivity]. apply Nat.eqb_eq in E'. subst j. rewrite Nat.eqb_sym, E. reflexivity.
Qed.
Lemma locate_sound st v st' m : 0 <= s -> ongoing st -> locate_vertex x2 c2v locate ex tol s st v = Ok (st', m) ->
  ongoing st' /\ m = Lc v /\ m <> [] /\ cell_map st' = cell_map st.
Proof.
  intros Hs [O1 [O2 O3]]. unfold locate_vertex. destruct (dget v (collided st)) as [m'|] eqn:ED.
  - intros E. injection E as <- <-. destruct (O2 _ _ ED) as [-> N]. split; [split; [exact O1|split; assumption]|]. split; [reflexivity|]. split; [exact N|reflexivity].
  - destruct (locate (nth v ex [])) as [|c mc] eqn:EL; [discriminate|]. cbn [hd_error opt_res bind]. destruct (py_min _ _) as [w|] eqn:EP; [cbn [bind]|discriminate].
    destruct (close_enough _ _ _) eqn:EC; [cbn [py_assert bind]|discriminate]. intros E. injection E as <- <-. rewrite <- EL. cbn [collided vertex_map cell_map].
    assert (NE : locate (nth v ex []) <> []) by (rewrite EL; discriminate).
    split; [|split; [reflexivity|split; [exact NE|reflexivity]]]. split; [cbn [vertex_map]; rewrite set_nth_length; exact O1|]. split.
    + intros v' m'. cbn [collided]. rewrite dget_dset. destruct (v =? v')%nat eqn:E; [|apply O2]. apply Nat.eqb_eq in E. subst v'. intros H. injection H as <-. split; [reflexivity|exact NE].
    + intros v' w'. cbn [vertex_map]. rewrite nth_set_nth. destruct ((v' =? v)%nat && (v <? length (vertex_map st))%nat) eqn:E; [|apply O3]. apply andb_prop in E. destruct E as [E _]. apply Nat.eqb_eq in E. subst v'. intros H. injection H as <-.
      apply close_sound in EC; [|exact Hs]. rewrite rnorm_dist in EC. split; [exact EC|]. exists c. split; [rewrite EL; left; reflexivity|]. apply py_min_spec in EP. apply EP.
Qed.
Lemma vertices_sound vs : forall st acc st' r, 0 <= s -> ongoing st -> overlap_vertices x2 c2v locate ex tol s st acc vs = Ok (st', r) ->
  ongoing st' /\ r = fold_left meet (map Lc vs) acc /\ (forall v, In v vs -> Lc v <> []) /\ cell_map st' = cell_map st.
Proof.
  induction vs as [|v vs IH]; intros st acc st' r Hs O H.
  - injection H as <- <-. split; [exact O|]. split; [reflexivity|]. split; [intros v []|reflexivity].
  - cbn [overlap_vertices] in H. destruct (locate_vertex x2 c2v locate ex tol s st v) as [[st1 m]|] eqn:E; [cbn [bind fst snd] in H|discriminate]. destruct (locate_sound _ _ _ _ Hs O E) as [O1 [-> [N C1]]].
    destruct (IH _ _ _ _ Hs O1 H) as [O' [R' [N' C']]]. split; [exact O'|]. split; [exact R'|]. split; [intros v' [<- | I]; [exact N|exact (N' _ I)]|congruence].
Qed.
Lemma cells_sound cells : forall st st', 0 <= s -> ongoing st -> NoDup (map fst cells) -> (forall i vs, In (i, vs) cells -> (i < length (cell_map st))%nat) -> overlap_cells x2 c2v locate ex tol s st cells = Ok st' ->
  ongoing st' /\ length (cell_map st') = length (cell_map st) /\ (forall i, ~ In i (map fst cells) -> nth i (cell_map st') None = nth i (cell_map st) None) /\
  forall i vs, In (i, vs) cells -> exists c, nth i (cell_map st') None = Some c /\ fold_left meet (map Lc vs) [] = [c] /\ forall v, In v vs -> Lc v <> [].
Proof.
  induction cells as [|[i vs] cells IH]; intros st st' Hs O ND HL H.
  - injection H as <-. split; [exact O|]. split; [reflexivity|]. split; [reflexivity|intros i vs []].
  - cbn [overlap_cells] in H. destruct (overlap_vertices x2 c2v locate ex tol s st [] vs) as [[st1 r]|] eqn:E; [cbn [bind fst snd] in H|discriminate]. destruct (vertices_sound _ _ _ _ _ Hs O E) as [O1 [ER [NE C1]]].
    destruct r as [|c [|]]; try discriminate. inversion ND as [|? ? N1 N2]. subst.
    assert (Hi := HL i vs (or_introl eq_refl)).
    apply IH in H; [|exact Hs|exact O1|exact N2|intros j ws I; cbn [cell_map]; rewrite set_nth_length, C1; apply (HL j ws); right; exact I]. cbn [cell_map] in H. rewrite set_nth_length, C1 in H.
    destruct H as [H1 [H2 [H3 H4]]]. split; [exact H1|]. split; [exact H2|]. split.
    + intros j Nj. rewrite H3 by (intros I; apply Nj; right; exact I). rewrite nth_set_nth. destruct (j =? i)%nat eqn:EJ; [|reflexivity]. apply Nat.eqb_eq in EJ. subst j. contradiction Nj. left. reflexivity.
    + intros j ws [EQ|I]; [|exact (H4 j ws I)]. injection EQ as <- <-. exists c. split; [|split; [symmetry; exact ER|exact NE]]. rewrite H3 by exact N1. rewrite nth_set_nth, Nat.eqb_refl. apply Nat.ltb_lt in Hi. rewrite Hi. reflexivity.
Qed.
End Search.
Lemma found_spec l r : all_found l = Ok r -> length r = length l /\ forall i v, nth_error r i = Some v -> nth i l None = Some v.
Proof.
  revert r. induction l as [|o l IH]; intros r H; [injection H as <-; split; [reflexivity|intros [|i] v E; discriminate]|].
  unfold all_found in H. rewrite mapM_cons in H. destruct o as [v|]; [cbn [bind] in H|discriminate]. fold (all_found l) in H. destruct (all_found l) as [r'|] eqn:E; [cbn [bind] in H|discriminate]. injection H as <-. destruct (IH _ eq_refl) as [A B].
  split; [cbn; rewrite A; reflexivity|]. intros [|i] w Hw; [exact Hw|]. apply B. exact Hw.
Qed.
Lemma found_ok l : (forall i, (i < length l)%nat -> nth i l None <> None) -> exists r, all_found l = Ok r.
Proof.
  induction l as [|o l IH]; intros H; [exists []; reflexivity|]. unfold all_found. rewrite mapM_cons. destruct o as [v|]; [cbn [bind]|contradiction (H 0%nat); [cbn; lia|reflexivity]].
  destruct IH as [r Hr]; [intros i Hi; apply (H (S i)); cbn; lia|]. fold (all_found l). rewrite Hr. cbn [bind]. eexists. reflexivity.
Qed.
Lemma indexed_In {A} (l : list A) a i x : In (i, x) (combine (seq a (length l)) l) <-> (a <= i)%nat /\ nth_error l (i - a) = Some x.
Proof.
  revert a. induction l as [|y l IH]; intros a; cbn [length seq combine]; [split; [intros []|intros [_ H]; destruct (i - a)%nat; discriminate]|].
  cbn [In]. rewrite IH. split.
  - intros [E|[H1 H2]]; [injection E as <- <-; split; [lia|rewrite Nat.sub_diag; reflexivity]|]. split; [lia|]. replace (i - a)%nat with (S (i - S a)) by lia. exact H2.
  - intros [H1 H2]. destruct (Nat.eq_dec a i) as [-> | N]; [rewrite Nat.sub_diag in H2; injection H2 as ->; left; reflexivity|]. right. split; [lia|]. replace (i - a)%nat with (S (i - S a)) in H2 by lia. exact H2.
Qed.
Lemma indexed_keys {A} (l : list A) a : map fst (combine (seq a (length l)) l) = seq a (length l).
Proof. revert a. induction l as [|y l IH]; intros a; [reflexivity|]. cbn. rewrite IH. reflexivity. Qed.
Lemma common_tags_one l1 l2 tag : common_tags l1 l2 = [tag] <-> forall t, (In t l1 /\ In t l2) <-> t = tag.
Proof.
  assert (G : forall t, In t (common_tags l1 l2) <-> In t l1 /\ In t l2). { intros t. unfold common_tags. rewrite filter_In, nodup_In. unfold mem. rewrite existsb_exists. split; [intros [A [y [B1 B2]]]; apply Nat.eqb_eq in B2; subst y; split; assumption|intros [A B]; split; [exact A|exists t; split; [exact B|apply Nat.eqb_refl]]]. }
  assert (ND : NoDup (common_tags l1 l2)) by (apply NoDup_filter, NoDup_nodup). split.
  - intros E t. rewrite <- G, E. cbn. split; [intros [-> | []]; reflexivity|intros ->; left; reflexivity].
  - intros H. assert (H' : forall t, In t (common_tags l1 l2) <-> t = tag) by (intros t; rewrite G; apply H). destruct (common_tags l1 l2) as [|a [|b l]].
    + destruct (proj2 (H' tag) eq_refl).
    + f_equal. apply H'. left. reflexivity.
    + assert (a = tag) by (apply H'; left; reflexivity). assert (b = tag) by (apply H'; right; left; reflexivity). subst. inversion ND as [|? ? N _]. contradiction N. left. reflexivity.
Qed.
(** ** Meshes with the same cells *)
Lemma embeds_vertex {X} (base : @mesh X) values markers em v : embeds base values markers em -> (v < length (coords (em_mesh em)))%nat -> exists i vs, nth_error (conn (em_mesh em)) i = Some vs /\ In v vs.
Proof.
  intros [_ _ EI EX EO EV _] Hv. assert (LV := Forall2_same_length _ _ _ EX). destruct (nth_error (em_vmap em) v) as [w|] eqn:EW; [|apply nth_error_None in EW; lia].
  destruct (proj1 (EV w) (nth_error_In _ _ EW)) as [e [vs [E1 [E2 E3]]]]. apply In_nth_error in E1. destruct E1 as [i E1].
  assert (Q : exists cell, nth_error (conn (em_mesh em)) i = Some cell /\ exists vs ws, nth_error (conn base) e = Some vs /\ Forall2 (sends (em_vmap em)) cell ws /\ Permutation ws vs).
  { clear -EI E1. revert i E1. induction EI as [|cell e' la lb H EI IH]; intros i E1; [destruct i; discriminate|]. destruct i as [|i]; [injection E1 as ->; exists cell; split; [reflexivity|exact H]|]. exact (IH i E1). }
  destruct Q as [cell [C1 [vs' [ws [C2 [C3 C4]]]]]]. rewrite E2 in C2. injection C2 as <-. exists i, cell. split; [exact C1|].
  assert (I : In w ws) by (apply (Permutation_in _ (Permutation_sym C4)); exact E3).
  assert (K : exists v', In v' cell /\ sends (em_vmap em) v' w). { clear -C3 I. induction C3 as [|a b la lb H C3 IH]; [destruct I|]. destruct I as [-> | I]; [exists a; split; [left; reflexivity|exact H]|]. destruct (IH I) as [v' [A B]]. exists v'. split; [right; exact A|exact B]. }
  destruct K as [v' [K1 K2]]. unfold sends in K2. assert (v = v') as ->; [|exact K1]. apply (proj1 (NoDup_nth_error (em_vmap em)) EO); [apply nth_error_Some; rewrite EW; discriminate|congruence].
Qed.
Section Shared.
Variables (em : @emesh (list R)) (mesh2 : subdomain) (locate : list R -> list nat) (tol s : R) (pv pc : nat -> nat).
Hypothesis Hs : 0 < s.
Hypothesis SP : spread (o_mesh mesh2) (tol * s).
Hypothesis SH : shared em mesh2 locate (tol * s) pv pc.
Notation ex := (coords (em_mesh em)).
Notation x2 := (coords (o_mesh mesh2)).
Notation c2v := (conn (o_mesh mesh2)).
Lemma near_unique i vs v w c : nth_error (conn (em_mesh em)) i = Some vs -> In v vs -> GeomProofs.dist (nth v ex []) (nth w x2 []) < tol * s -> In w (nth c c2v []) -> w = pv v.
Proof.
  intros Hi Hv D W. destruct (SH i vs Hi) as [_ [Hc [E V]]]. destruct (V v Hv) as [_ [D' [LN _]]]. destruct SP as [S1 [S2 _]]. destruct (Nat.eq_dec w (pv v)) as [|N]; [assumption|]. exfalso.
  assert (Hw := S1 _ _ W). assert (Hp : (pv v < length x2)%nat) by (apply (S1 (pc i)), E, in_map, Hv). destruct (S2 _ _ Hw Hp N) as [L1 L2].
  pose proof (UnionProofs.dist_triangle (nth w x2 []) (nth v ex []) (nth (pv v) x2 []) ltac:(congruence) LN) as T. rewrite (UnionProofs.dist_sym (nth w x2 []) (nth v ex [])) in T by congruence. lra.
Qed.
Definition advancing (st : progress) : Prop := length (vertex_map st) = length ex /\ (forall v, dget v (collided st) <> None <-> nth v (vertex_map st) None <> None) /\ (forall v m, dget v (collided st) = Some m -> m = locate (nth v ex [])) /\
  (forall v w, nth v (vertex_map st) None = Some w -> w = pv v).
Lemma locate_returns st i vs v : advancing st -> nth_error (conn (em_mesh em)) i = Some vs -> In v vs ->
  exists st', locate_vertex x2 c2v locate ex tol s st v = Ok (st', locate (nth v ex [])) /\ advancing st' /\ cell_map st' = cell_map st /\ nth v (vertex_map st') None <> None /\ forall v', nth v' (vertex_map st) None <> None -> nth v' (vertex_map st') None <> None.
Proof.
  intros [A1 [A2 [A3 A4]]] Hi Hv. destruct (SH i vs Hi) as [_ [Hc [E V]]]. destruct (V v Hv) as [Lv [D [LN LC]]]. unfold locate_vertex. destruct (dget v (collided st)) as [m|] eqn:ED.
  - exists st. rewrite (A3 _ _ ED). split; [reflexivity|]. split; [split; [exact A1|split; [exact A2|split; assumption]]|]. split; [reflexivity|]. split; [apply A2; congruence|intros v' H; exact H].
  - destruct (locate (nth v ex [])) as [|c mc] eqn:EL.
    { destruct (proj2 (LC (pc i))). split; [exact Hc|]. apply E, in_map, Hv. }
    cbn [hd_error opt_res bind]. destruct (proj1 (LC c) (or_introl eq_refl)) as [Hc' IC].
    destruct (py_min_ok (fun w => rnorm (rsub (nth v ex []) (nth w x2 []))) (nth c c2v [])) as [w EP]; [intros Z; rewrite Z in IC; destruct IC|]. rewrite EP. cbn [bind]. apply py_min_spec in EP. destruct EP as [P1 P2].
    specialize (P2 _ IC). rewrite !rnorm_dist in P2. assert (CL : close_enough tol s (rnorm (rsub (nth v ex []) (nth w x2 []))) = true) by (apply close_spec; [exact Hs|rewrite rnorm_dist; lra]). rewrite CL. cbn [py_assert bind].
    assert (w = pv v) as -> by (apply (near_unique i vs v w c); try assumption; lra).
    eexists. split; [reflexivity|]. split; [|split; [reflexivity|]].
    + split; [cbn [vertex_map]; rewrite set_nth_length; exact A1|]. assert (Lv' : (v <? length (vertex_map st))%nat = true) by (apply Nat.ltb_lt; lia). split; [|split].
      * intros v'. cbn [collided vertex_map]. rewrite dget_dset, nth_set_nth, Lv', andb_true_r, (Nat.eqb_sym v' v). destruct (v =? v')%nat; [split; intros _ H; discriminate|apply A2].
      * intros v' m. cbn [collided]. rewrite dget_dset. destruct (v =? v')%nat eqn:Ev; [|apply A3]. apply Nat.eqb_eq in Ev. subst v'. intros H. injection H as <-. symmetry. exact EL.
      * intros v' w'. cbn [vertex_map]. rewrite nth_set_nth, Lv', andb_true_r. destruct (v' =? v)%nat eqn:Ev; [|apply A4]. apply Nat.eqb_eq in Ev. subst v'. intros H. injection H as <-. reflexivity.
    + cbn [vertex_map]. assert (Lv' : (v <? length (vertex_map st))%nat = true) by (apply Nat.ltb_lt; lia). split; [rewrite nth_set_nth, Nat.eqb_refl, Lv'; discriminate|]. intros v' H. rewrite nth_set_nth. destruct ((v' =? v)%nat && (v <? length (vertex_map st))%nat); [discriminate|exact H].
Qed.
Lemma vertices_return i all : nth_error (conn (em_mesh em)) i = Some all -> forall vs st acc, incl vs all -> advancing st ->
  exists st' r, overlap_vertices x2 c2v locate ex tol s st acc vs = Ok (st', r) /\ r = fold_left meet (map (fun v => locate (nth v ex [])) vs) acc /\ advancing st' /\ cell_map st' = cell_map st /\ (forall v, In v vs -> nth v (vertex_map st') None <> None) /\ forall v, nth v (vertex_map st) None <> None -> nth v (vertex_map st') None <> None.
Proof.
  intros Hi vs. induction vs as [|v vs IH]; intros st acc I A.
  - exists st, acc. split; [reflexivity|]. split; [reflexivity|]. split; [exact A|]. split; [reflexivity|]. split; [intros v []|intros v H; exact H].
  - destruct (locate_returns st i all v A Hi (I v (or_introl eq_refl))) as [st1 [E1 [A1 [C1 [N1 M1]]]]]. cbn [overlap_vertices]. rewrite E1. cbn [bind fst snd].
    destruct (IH st1 (meet acc (locate (nth v ex []))) (fun x H => I x (or_intror H)) A1) as [st' [r [E [R' [A' [C' [N' M']]]]]]]. exists st', r. split; [exact E|]. split; [exact R'|]. split; [exact A'|]. split; [congruence|]. split; [intros v' [<- | H]; [apply M', N1|exact (N' _ H)]|]. intros v' H. apply M', M1, H.
Qed.
Lemma shared_meet i vs : nth_error (conn (em_mesh em)) i = Some vs -> fold_left meet (map (fun v => locate (nth v ex [])) vs) [] = [pc i].
Proof.
  intros Hi. destruct (SH i vs Hi) as [NE [Hc [E V]]]. set (Ss := map (fun v => locate (nth v ex [])) vs).
  assert (K : forall c, (forall b, In b Ss -> In c b) <-> c = pc i).
  { intros c. split.
    - intros H. assert (Q : forall v, In v vs -> (c < length c2v)%nat /\ In (pv v) (nth c c2v [])). { intros v Hv. apply (proj2 (proj2 (proj2 (V v Hv)))). apply H. unfold Ss. apply in_map_iff. exists v. split; [reflexivity|exact Hv]. }
      symmetry. apply SP; [|exact Hc|destruct vs as [|v vs]; [contradiction|apply (Q v); left; reflexivity]]. intros w Hw. apply E in Hw. apply in_map_iff in Hw. destruct Hw as [v [<- Hv]]. apply (Q v Hv).
    - intros -> b Hb. unfold Ss in Hb. apply in_map_iff in Hb. destruct Hb as [v [<- Hv]]. apply (proj2 (proj2 (proj2 (V v Hv)))). split; [exact Hc|]. apply E, in_map, Hv. }
  assert (M : forall c, In c (fold_left meet Ss []) <-> c = pc i). { intros c. rewrite (meets_all Ss (pc i)); [apply K|unfold Ss; destruct vs; [contradiction|discriminate]|apply K; reflexivity]. }
  assert (ND := meets_NoDup Ss [] (NoDup_nil _)). destruct (fold_left meet Ss []) as [|a [|b l]].
  - destruct (proj2 (M (pc i)) eq_refl).
  - f_equal. apply M. left. reflexivity.
  - assert (a = pc i) by (apply M; left; reflexivity). assert (b = pc i) by (apply M; right; left; reflexivity). subst. inversion ND as [|? ? N _]. contradiction N. left. congruence.
Qed.
Lemma cells_return cells : (forall i vs, In (i, vs) cells -> nth_error (conn (em_mesh em)) i = Some vs) -> forall st, advancing st -> exists st', overlap_cells x2 c2v locate ex tol s st cells = Ok st' /\ advancing st' /\
  (forall i vs v, In (i, vs) cells -> In v vs -> nth v (vertex_map st') None <> None) /\ forall v, nth v (vertex_map st) None <> None -> nth v (vertex_map st') None <> None.
Proof.
  induction cells as [|[i vs] cells IH]; intros HI st A.
  - exists st. split; [reflexivity|]. split; [exact A|]. split; [intros i vs v []|intros v H; exact H].
  - assert (Hi := HI i vs (or_introl eq_refl)). destruct (vertices_return i vs Hi vs st [] (incl_refl _) A) as [st1 [r [E [R' [A1 [C1 [N1 M1]]]]]]]. cbn [overlap_cells]. rewrite E. cbn [bind fst snd]. rewrite R', (shared_meet i vs Hi).
    destruct (IH (fun j ws H => HI j ws (or_intror H)) {| collided := collided st1; vertex_map := vertex_map st1; cell_map := set_nth (cell_map st1) i (Some (pc i)) |} A1) as [st' [E' [A' [N' M']]]]. cbn [vertex_map] in M'.
    exists st'. split; [exact E'|]. split; [exact A'|]. split; [|intros v H; apply M', M1, H]. intros j ws v [EQ|H] Hv; [injection EQ as <- <-; apply M', N1, Hv|exact (N' j ws v H Hv)].
Qed.
End Shared.
