(** The map of an embedded mesh into its parent: specification and lemmas (property C47) *)
From Verif Require Export EmapModel.
From Verif Require Import GmshProofs GeomProofs BaseProofs UnionProofs LineProofs.
From Coq Require Import Psatz.
Local Open Scope R_scope.

(** ** Specification *)
(** [s] is the largest difference of coordinates of the vertices *)
Definition widest (x : list (list R)) (s : R) : Prop :=
  (forall p q k, In p x -> In q x -> nth k p 0 - nth k q 0 <= s) /\ exists p q k, In p x /\ In q x /\ s = nth k p 0 - nth k q 0.
(** A dictionary from the keys *)
Definition dictionary {B} (d : list (nat * B)) (keys : nat -> Prop) : Prop := NoDup (map fst d) /\ forall k, In k (map fst d) <-> keys k.
(** Every vertex of a cell is in two of its entities *)
Definition branching (mesh : parent) : Prop :=
  forall c w, In w (nth c (p_c2v mesh) []) -> exists e e', e <> e' /\ In e (nth c (p_c2e mesh) []) /\ In e' (nth c (p_c2e mesh) []) /\ In w (nth e (p_e2v mesh) []) /\ In w (nth e' (p_e2v mesh) []).
(** The cells that are mapped *)
Definition selected (emesh : embedded) (subs : option (nat * list nat)) (tags : option (list nat)) (i : nat) : Prop :=
  (i < length (s_cells emesh))%nat /\ exists t, In t match tags with None => [0%nat] | Some l => l end /\ match subs with None => t = 0%nat | Some (_, values) => nth_error values i = Some t end.
(** Cells go to entities with the images of their vertices, vertices to near vertices *)
Definition embedding (emesh : embedded) (mesh : parent) (P : nat -> Prop) (delta : R) (vmap emap : list (nat * nat)) : Prop :=
  dictionary emap P /\ dictionary vmap (fun v => exists i, P i /\ In v (nth i (s_cells emesh) [])) /\
  (forall v w, In (v, w) vmap -> dist (nth v (s_x emesh) []) (nth w (p_x mesh) []) < delta /\ exists c, In w (nth c (p_c2v mesh) [])) /\
  forall i e v w, In (i, e) emap -> In v (nth i (s_cells emesh) []) -> In (v, w) vmap -> In w (nth e (p_e2v mesh) []).
(** The embedded mesh is made of entities of the parent: [pv] is its vertex in the parent, which
    [locate] finds, [pe] the entity of a cell *)
Definition made_of (emesh : embedded) (mesh : parent) (locate : list R -> list nat) (delta : R) (P : nat -> Prop) (pv pe : nat -> nat) : Prop :=
  forall i, P i -> (pe i < length (p_e2v mesh))%nat /\ nth i (s_cells emesh) [] <> [] /\ same_set (map pv (nth i (s_cells emesh) [])) (nth (pe i) (p_e2v mesh) []) /\
  forall v, In v (nth i (s_cells emesh) []) -> (v < length (s_x emesh))%nat /\ dist (nth v (s_x emesh) []) (nth (pv v) (p_x mesh) []) < delta /\
    length (nth v (s_x emesh) []) = length (nth (pv v) (p_x mesh) []) /\ forall c, In c (locate (nth v (s_x emesh) [])) <-> In (pv v) (nth c (p_c2v mesh) []).
(** The parent: vertices are apart, an entity belongs to a cell and has not the vertices of another *)
Definition wf_parent (mesh : parent) (delta : R) : Prop :=
  (forall c w, In w (nth c (p_c2v mesh) []) -> (w < length (p_x mesh))%nat) /\
  (forall w w', (w < length (p_x mesh))%nat -> (w' < length (p_x mesh))%nat -> w <> w' -> length (nth w (p_x mesh) []) = length (nth w' (p_x mesh) []) /\ 2 * delta <= dist (nth w (p_x mesh) []) (nth w' (p_x mesh) [])) /\
  (forall e, (e < length (p_e2v mesh))%nat -> exists c, In e (nth c (p_c2e mesh) []) /\ incl (nth e (p_e2v mesh) []) (nth c (p_c2v mesh) [])) /\
  (forall e e', incl (nth e (p_e2v mesh) []) (nth e' (p_e2v mesh) []) -> (e < length (p_e2v mesh))%nat -> e = e').

(** ** Dictionaries *)
Lemma dget_In {B} k (d : list (nat * B)) b : dget k d = Some b -> In (k, b) d.
Proof. induction d as [|[k' b'] d IH]; cbn; [discriminate|]. destruct (Nat.eqb_spec k' k) as [-> |N]; [intros H; injection H as ->; auto|]. intros H. right. exact (IH H). Qed.
Lemma dget_None {B} k (d : list (nat * B)) : dget k d = None -> ~ In k (map fst d).
Proof. induction d as [|[k' b'] d IH]; cbn; [auto|]. destruct (Nat.eqb_spec k' k) as [-> |N]; [discriminate|]. intros H [E|E]; [congruence|exact (IH H E)]. Qed.
Lemma dset_new {B} k (b : B) d : ~ In k (map fst d) -> dset k b d = d ++ [(k, b)].
Proof. induction d as [|[k' b'] d IH]; cbn; [auto|]. intros N. destruct (Nat.eqb_spec k' k) as [-> |E]; [tauto|]. rewrite IH by tauto. reflexivity. Qed.
Lemma dset_spec {B} k (b : B) d : NoDup (map fst d) -> NoDup (map fst (dset k b d)) /\ forall k' b', In (k', b') (dset k b d) <-> (k' = k /\ b' = b) \/ (k' <> k /\ In (k', b') d).
Proof.
  induction d as [|[k1 b1] d IH]; cbn.
  - intros _. split; [repeat constructor; auto|]. intros k' b'. split; [intros [E|[]]; injection E as -> ->; auto|intros [[-> ->]|[_ []]]; auto].
  - intros N. inversion N as [|x l N1 N2]; subst. destruct (IH N2) as [A B']. destruct (Nat.eqb_spec k1 k) as [-> |E]; cbn.
    + split; [constructor; assumption|]. intros k' b'. split; [intros [E|I]; [injection E as -> ->; auto|]|].
      * right. split; [|auto]. intros ->. apply N1, in_map_iff. exists (k, b'). auto.
      * intros [[-> ->]|[NE [E|I]]]; [auto|injection E as -> ->; congruence|auto].
    + split. { constructor; [|exact A]. intros I. apply in_map_iff in I. destruct I as [[k' b'] [E' I]]. cbn in E'. subst k'. apply B' in I. destruct I as [[-> _]|[_ I]]; [congruence|]. apply N1, in_map_iff. exists (k1, b'). auto. }
      intros k' b'. rewrite B'. split; [intros [E'|[H|H]]; [injection E' as -> ->; auto| |]; tauto|]. intros [H|[NE [E'|I]]]; auto.
Qed.
(** ** The extent *)
Lemma reduce_max l : forall a, let m := fold_left Rmax l a in (m = a \/ In m l) /\ a <= m /\ forall b, In b l -> b <= m.
Proof.
  induction l as [|c l IH]; intros a; cbn; [split; [auto|split; [lra|tauto]]|]. destruct (IH (Rmax a c)) as [A [B C]]. cbn zeta in A, B, C. pose proof (Rmax_l a c). pose proof (Rmax_r a c). split.
  - destruct A as [A|A]; [|tauto]. rewrite A. unfold Rmax. destruct (Rle_dec a c); tauto.
  - split; [lra|]. intros b [<- |I]; [lra|exact (C b I)].
Qed.
Lemma reduce_min l : forall a, let m := fold_left Rmin l a in (m = a \/ In m l) /\ m <= a /\ forall b, In b l -> m <= b.
Proof.
  induction l as [|c l IH]; intros a; cbn; [split; [auto|split; [lra|tauto]]|]. destruct (IH (Rmin a c)) as [A [B C]]. cbn zeta in A, B, C. pose proof (Rmin_l a c). pose proof (Rmin_r a c). split.
  - destruct A as [A|A]; [|tauto]. rewrite A. unfold Rmin. destruct (Rle_dec a c); tauto.
  - split; [lra|]. intros b [<- |I]; [lra|exact (C b I)].
Qed.
Lemma extent_spec x k : x <> [] -> exists d, extent x k = Ok d /\ (forall p q, In p x -> In q x -> nth k p 0 - nth k q 0 <= d) /\ exists p q, In p x /\ In q x /\ d = nth k p 0 - nth k q 0.
Proof.
  destruct x as [|p0 x]; [congruence|]. intros _. unfold extent, column. cbn [map reduceR bind]. eexists. split; [reflexivity|].
  destruct (reduce_max (map (fun p => nth k p 0) x) (nth k p0 0)) as [A [B C]]. destruct (reduce_min (map (fun p => nth k p 0) x) (nth k p0 0)) as [A' [B' C']]. cbn zeta in *.
  set (hi := fold_left Rmax _ _) in *. set (lo := fold_left Rmin _ _) in *.
  assert (U : forall p, In p (p0 :: x) -> lo <= nth k p 0 <= hi) by (intros p [<- |I]; [lra|]; split; [apply C'|apply C]; apply in_map_iff; exists p; auto).
  split; [intros p q P Q; apply U in P, Q; lra|].
  assert (E : exists p, In p (p0 :: x) /\ hi = nth k p 0) by (destruct A as [-> |A]; [exists p0; cbn; auto|apply in_map_iff in A; destruct A as [p [E I]]; exists p; cbn; auto]).
  assert (E' : exists p, In p (p0 :: x) /\ lo = nth k p 0) by (destruct A' as [-> |A']; [exists p0; cbn; auto|apply in_map_iff in A'; destruct A' as [p [F I]]; exists p; cbn; auto]).
  destruct E as [p [P ->]], E' as [q [Q ->]]. exists p, q. auto.
Qed.
Lemma scale_spec n x : (1 <= n)%nat -> x <> [] -> Forall (fun p => length p = n) x -> exists s, scale x = Ok s /\ widest x s.
Proof.
  intros N NE L. assert (HL : length (hd [] x) = n) by (destruct x as [|p x]; [congruence|]; inversion L; assumption). unfold scale. rewrite HL.
  assert (M : forall l, exists ds, mapM (extent x) l = Ok ds /\ Forall2 (fun k d => extent x k = Ok d) l ds).
  { induction l as [|k l [ds [E F]]]; [exists []; auto|]. destruct (extent_spec x k NE) as [d [D _]]. exists (d :: ds). rewrite mapM_cons, D. cbn. rewrite E. auto. }
  destruct (M (seq 0 n)) as [ds [E F]]. rewrite E. cbn [bind]. destruct x as [|p0 x]; [congruence|]. destruct n as [|n]; [lia|]. cbn [seq] in F. inversion F as [|k0 d0 ks ds' D0 F']; subst. cbn [reduceR]. eexists. split; [reflexivity|].
  destruct (reduce_max ds' d0) as [A [B C]]. cbn zeta in *. set (s := fold_left Rmax _ _) in *.
  assert (G : forall k d, In k (seq 0 (S n)) -> extent (p0 :: x) k = Ok d -> d <= s).
  { intros k d K K'. cbn [seq] in K. destruct K as [<- |K]; [congruence || (assert (d = d0) by congruence; lra)|]. apply C. clear - F' K K'. induction F' as [|k1 d1 l1 l2 H F IH]; [destruct K|]. destruct K as [<- |K]; [left; congruence|right; exact (IH K)]. }
  split.
  - intros p q k P Q. destruct (lt_dec k (S n)) as [K|K].
    + destruct (extent_spec (p0 :: x) k NE) as [d [D [U _]]]. specialize (U p q P Q). assert (d <= s) by (apply (G k); [apply in_seq; lia|exact D]). lra.
    + rewrite Forall_forall in L. pose proof (L p P) as LP. pose proof (L q Q) as LQ. rewrite !nth_overflow by lia.
      destruct (extent_spec (p0 :: x) 0 NE) as [d [D [U _]]]. specialize (U p0 p0 (or_introl eq_refl) (or_introl eq_refl)). assert (d <= s) by (apply (G 0%nat); [apply in_seq; lia|exact D]). lra.
  - assert (X : exists k, extent (p0 :: x) k = Ok s). { destruct A as [-> |A]; [exists 0%nat; exact D0|]. clearbody s. clear - F' A. induction F' as [|k1 d1 l1 l2 H F IH]; [destruct A|]. destruct A as [<- |A]; [exists k1; exact H|exact (IH A)]. }
    destruct X as [k K]. destruct (extent_spec (p0 :: x) k NE) as [d [D [_ [p [q [P [Q E']]]]]]]. exists p, q, k. split; [exact P|]. split; [exact Q|]. congruence.
Qed.
(** ** Finding a vertex *)
Lemma min_by_spec key l : forall best, let m := min_by key best l in (m = best \/ In m l) /\ key m <= key best /\ forall a, In a l -> key m <= key a.
Proof.
  induction l as [|a l IH]; intros best; cbn; [split; [auto|split; [lra|tauto]]|]. destruct (Rlt_dec (key a) (key best)) as [L|L].
  - destruct (IH a) as [A [B C]]. cbn zeta in *. split; [destruct A as [-> |A]; auto|]. split; [lra|]. intros b [<- |I]; [exact B|exact (C b I)].
  - destruct (IH best) as [A [B C]]. cbn zeta in *. split; [destruct A as [-> |A]; auto|]. split; [exact B|]. intros b [<- |I]; [lra|exact (C b I)].
Qed.
Lemma py_min_spec key l w : py_min key l = Ok w -> In w l /\ forall a, In a l -> key w <= key a.
Proof. destruct l as [|a l]; [discriminate|]. cbn [py_min]. intros E. injection E as <-. destruct (min_by_spec key l a) as [A [B C]]. cbn zeta in *. split; [destruct A as [-> |A]; cbn; auto|]. intros b [<- |I]; [exact B|exact (C b I)]. Qed.
Lemma py_min_ok key l : l <> [] -> exists w, py_min key l = Ok w.
Proof. destruct l; [congruence|]. eexists. reflexivity. Qed.
Lemma close_spec tol s err : 0 < s -> (close_enough tol s err = true <-> err < tol * s).
Proof.
  intros S. unfold close_enough. destruct (Req_EM_T s 0) as [E|_]; [lra|]. assert (I : 0 < / s) by (apply Rinv_0_lt_compat; exact S). split.
  - destruct (Rlt_dec (err / s) tol) as [L|L]; [|discriminate]. intros _. apply (Rmult_lt_compat_r s) in L; [|exact S]. unfold Rdiv in L. rewrite Rmult_assoc, Rinv_l in L; lra.
  - intros L. destruct (Rlt_dec (err / s) tol) as [L'|L']; [reflexivity|]. exfalso. apply L'. apply (Rmult_lt_compat_r (/ s)) in L; [|exact I]. rewrite Rmult_assoc, Rinv_r in L; [unfold Rdiv|]; lra.
Qed.
Lemma close_sound tol s err : 0 <= s -> close_enough tol s err = true -> err < tol * s.
Proof. intros S C. destruct (Rle_lt_or_eq_dec 0 s S) as [P|E]; [apply (close_spec tol s err P); exact C|]. unfold close_enough in C. destruct (Req_EM_T s 0); [discriminate C|congruence]. Qed.
Lemma vertex_set_In mesh w mc e : In e (vertex_set mesh w mc) <-> In w (nth e (p_e2v mesh) []) /\ exists c, In c mc /\ In e (nth c (p_c2e mesh) []).
Proof. unfold vertex_set. rewrite nodup_In, filter_In, in_flat_map, mem_spec. tauto. Qed.
Lemma vertex_set_NoDup mesh w mc : NoDup (vertex_set mesh w mc).
Proof. apply NoDup_nodup. Qed.
Lemma two_many (l : list nat) e e' : In e l -> In e' l -> e <> e' -> (2 <= length l)%nat.
Proof. destruct l as [|a [|b l]]; cbn; [tauto| |lia]. intros [<- |[]] [<- |[]]. congruence. Qed.

Lemma Forall2_same_length {A B} (P : A -> B -> Prop) l l' : Forall2 P l l' -> length l = length l'.
Proof. induction 1; cbn; congruence. Qed.
(** ** What is returned is right *)
Section Sound.
Variables (mesh : parent) (locate : list R -> list nat) (ex : list (list R)) (tol s : R).
Hypothesis BR : branching mesh.
(** The state: near vertices, which are in the first cell *)
Definition good (st : list (nat * (nat * list nat))) : Prop :=
  NoDup (map fst st) /\ forall v w mc, In (v, (w, mc)) st -> dist (nth v ex []) (nth w (p_x mesh) []) < tol * s /\ exists c mc', mc = c :: mc' /\ In w (nth c (p_c2v mesh) []).
Lemma find_sound st v r : 0 <= s -> good st -> find_vertex mesh locate ex tol s st v = Ok r ->
  good (fst r) /\ (forall k x, In (k, x) st -> In (k, x) (fst r)) /\ In (v, snd r) (fst r) /\ forall k x, In (k, x) (fst r) -> k = v \/ In (k, x) st.
Proof.
  intros S G. unfold find_vertex. destruct (dget v st) as [wc|] eqn:D.
  - intros E. injection E as <-. cbn. split; [exact G|]. split; [auto|]. split; [exact (dget_In _ _ _ D)|]. auto.
  - apply dget_None in D. destruct (locate (nth v ex [])) as [|c mc] eqn:LC; cbn [nth_error opt_res bind]; [discriminate|]. destruct (py_min _ _) as [w|] eqn:M; cbn [bind]; [|discriminate]. destruct (close_enough tol s _) eqn:CE; cbn [py_assert bind]; [|discriminate]. intros E. injection E as <-. cbn [fst snd].
    apply py_min_spec in M. destruct M as [MI _]. apply close_sound in CE; [|exact S]. rewrite rnorm_dist in CE. destruct G as [G1 G2]. rewrite (dset_new v _ _ D). split; [split|split; [|split]].
    + rewrite map_app. cbn. apply NoDup_app_intro; [exact G1|repeat constructor; auto|]. intros x X [<- |[]]. exact (D X).
    + intros v' w' mc' I. apply in_app_iff in I. destruct I as [I|[I|[]]]; [exact (G2 _ _ _ I)|]. injection I as <- <- <-. split; [exact CE|]. exists c, mc. auto.
    + intros k x I. apply in_app_iff. auto.
    + apply in_app_iff. right. left. reflexivity.
    + intros k x I. apply in_app_iff in I. destruct I as [I|[I|[]]]; [auto|]. injection I as <- _. auto.
Qed.
Lemma good_two st v w mc : good st -> In (v, (w, mc)) st -> (2 <= length (vertex_set mesh w mc))%nat.
Proof. intros [_ G] I. destruct (G _ _ _ I) as [_ [c [mc' [-> W]]]]. destruct (BR c w W) as [e [e' [N [A [B [C D]]]]]]. apply (two_many _ e e'); [apply vertex_set_In|apply vertex_set_In|exact N]; (split; [assumption|]; exists c; cbn; auto). Qed.
(** All vertices in turn, with the sets which the entity is narrowed to *)
Lemma cell_sound vs : forall st ent r, 0 <= s -> good st -> cell_entity mesh locate ex tol s st ent vs = Ok r ->
  good (fst r) /\ (forall k x, In (k, x) st -> In (k, x) (fst r)) /\ (forall k x, In (k, x) (fst r) -> In k vs \/ In (k, x) st) /\
  exists Ss, snd r = fold_left narrow Ss ent /\ Forall2 (fun v S => exists w mc, In (v, (w, mc)) (fst r) /\ S = vertex_set mesh w mc) vs Ss.
Proof.
  induction vs as [|v vs IH]; intros st ent r S G; cbn [cell_entity].
  - intros E. injection E as <-. cbn. split; [exact G|]. split; [auto|]. split; [auto|]. exists []. auto.
  - destruct (find_vertex mesh locate ex tol s st v) as [[st' wc]|] eqn:F; cbn [bind]; [|discriminate]. intros E. destruct (find_sound _ _ _ S G F) as [G' [K [I K']]]. cbn [fst snd] in *. destruct (IH _ _ _ S G' E) as [G'' [M [M' [Ss [E' F2]]]]].
    split; [exact G''|]. split; [auto|]. split. { intros k x X. destruct (M' k x X) as [X'|X']; [cbn; auto|]. destruct (K' k x X') as [-> |X'']; cbn; auto. }
    exists (vertex_set mesh (fst wc) (snd wc) :: Ss). cbn [fold_left]. split; [exact E'|]. constructor; [|exact F2]. destruct wc as [w mc]. exists w, mc. auto.
Qed.
(** With at most three vertices the reseeding of an empty set does no harm *)
Lemma narrow_sound Ss e : (length Ss <= 3)%nat -> Forall (fun S => 2 <= length S)%nat Ss -> fold_left narrow Ss [] = [e] -> Forall (In e) Ss.
Proof.
  intros L F E. assert (FI : forall a b, In e (filter (fun e => mem e b) a) -> In e a /\ In e b) by (intros a b H; apply filter_In in H; rewrite mem_spec in H; exact H).
  destruct Ss as [|A [|B [|C [|D Ss]]]]; [discriminate E| | | |cbn in L; lia]; cbn [fold_left narrow] in E; inversion F as [|x1 y1 FA F1]; subst.
  - cbn in FA. lia.
  - assert (N : narrow A B = filter (fun e => mem e B) A) by (destruct A; [cbn in FA; lia|reflexivity]). rewrite N in E. destruct (FI A B) as [X Y]; [rewrite E; cbn; auto|]. auto.
  - assert (N : narrow A B = filter (fun e => mem e B) A) by (destruct A; [cbn in FA; lia|reflexivity]). rewrite N in E. inversion F1 as [|x2 y2 FB F2]; subst. inversion F2 as [|x3 y3 FC F3]; subst.
    destruct (filter (fun e => mem e B) A) as [|a l] eqn:FL; cbn [narrow] in E; [subst C; cbn in FC; lia|]. destruct (FI (a :: l) C) as [X Y]; [rewrite E; cbn; auto|]. destruct (FI A B) as [X1 X2]; [rewrite FL; exact X|]. auto.
Qed.
Lemma map_sound cells : forall st emap r, 0 <= s -> good st -> NoDup (map fst emap) -> Forall (fun ic => length (snd ic) <= 3)%nat cells ->
  (forall i vs vs', In (i, vs) cells -> In (i, vs') cells -> vs = vs') ->
  map_cells mesh locate ex tol s st emap cells = Ok r ->
  good (fst r) /\ (forall k x, In (k, x) st -> In (k, x) (fst r)) /\ (forall k x, In (k, x) (fst r) -> (exists i vs, In (i, vs) cells /\ In k vs) \/ In (k, x) st) /\ NoDup (map fst (snd r)) /\
  (forall i vs v, In (i, vs) cells -> In v vs -> In v (map fst (fst r))) /\
  (forall i e, In (i, e) (snd r) -> (exists vs, In (i, vs) cells /\ forall v w mc, In v vs -> In (v, (w, mc)) (fst r) -> In w (nth e (p_e2v mesh) [])) \/ (In (i, e) emap /\ ~ In i (map fst cells))) /\
  (forall i, In i (map fst cells) \/ In i (map fst emap) -> In i (map fst (snd r))).
Proof.
  induction cells as [|[i vs] cells IH]; intros st emap r S G ND L FN; cbn [map_cells].
  - intros E. injection E as <-. cbn. split; [exact G|]. split; [auto|]. split; [auto|]. split; [exact ND|]. split; [tauto|]. split; [auto|]. intros i [[]|I]. exact I.
  - destruct (cell_entity mesh locate ex tol s st [] vs) as [[st' ent]|] eqn:CE; cbn [bind snd fst]; [|discriminate]. destruct ent as [|e [|]]; try discriminate. intros E. destruct (cell_sound _ _ _ _ S G CE) as [G' [K [K' [Ss [FE F2]]]]]. cbn [fst snd] in *. destruct (dset_spec i e emap ND) as [ND' DS].
    inversion L as [|x y LV L']; subst. cbn in LV. destruct (IH _ _ _ S G' ND' L' (fun i a b A B => FN i a b (or_intror A) (or_intror B)) E) as [GR [M [M' [NR [V [EI EK]]]]]].
    assert (TH : Forall (In e) Ss). { apply narrow_sound; [rewrite <- (Forall2_same_length _ _ _ F2); exact LV| |symmetry; exact FE]. clear - F2 G' BR. induction F2 as [|v S vs Ss [w [mc [I ->]]] F IH]; constructor; [exact (good_two _ _ _ _ G' I)|exact IH]. }
    assert (CN : forall v w mc, In v vs -> In (v, (w, mc)) (fst r) -> In w (nth e (p_e2v mesh) [])).
    { intros v w mc VI IR. assert (X : exists w' mc', In (v, (w', mc')) st' /\ In e (vertex_set mesh w' mc')). { clear - F2 TH VI. induction F2 as [|v' S vs Ss [w [mc [I ->]]] F IH]; [destruct VI|]. inversion TH; subst. destruct VI as [<- |VI]; [exists w, mc; auto|apply IH; assumption]. }
      destruct X as [w' [mc' [I' E']]]. apply M in I'. assert (U : (w, mc) = (w', mc')) by (destruct GR as [GN _]; exact (dict_unique (fst r) v _ _ GN IR I')). injection U as -> ->. apply vertex_set_In in E'. apply E'. }
    split; [exact GR|]. split; [auto|]. split. { intros k x X. destruct (M' k x X) as [[j [us [J U]]]|X']; [left; exists j, us; cbn; auto|]. destruct (K' k x X') as [X''|X'']; [left; exists i, vs; cbn; auto|auto]. }
    split; [exact NR|]. split. { intros j us v [J|J] U; [|exact (V j us v J U)]. injection J as <- <-. assert (X : exists w mc, In (v, (w, mc)) st'). { clear - F2 U. induction F2 as [|v' S vs Ss [w [mc [I _]]] F IH]; [destruct U|]. destruct U as [<- |U]; [exists w, mc; exact I|exact (IH U)]. } destruct X as [w [mc I]]. apply in_map_iff. exists (v, (w, mc)). auto. }
    split.
    + intros j e' J. destruct (EI j e' J) as [[us [U H]]|[H NI]]; [left; exists us; cbn; auto|]. apply DS in H. destruct H as [[-> ->]|[NE H]]; [left; exists vs; cbn; auto|]. right. split; [exact H|]. cbn. intros [X|X]; [congruence|exact (NI X)].
    + cbn. intros j [[<- |J]|J]; apply EK; auto; right; apply in_map_iff; [exists (i, e)|]; [split; [reflexivity|apply DS; auto]|]. apply in_map_iff in J. destruct J as [[j' e'] [<- J]]. destruct (Nat.eq_dec j' i) as [-> |NE]; [exists (i, e); split; [reflexivity|apply DS; auto]|exists (j', e'); split; [reflexivity|apply DS; auto]].
Qed.
End Sound.

(** ** It returns *)
Section Returns.
Variables (emesh : embedded) (mesh : parent) (locate : list R -> list nat) (tol s : R) (P : nat -> Prop) (pv pe : nat -> nat).
Hypothesis S0 : 0 < s.
Hypothesis WF : wf_parent mesh (tol * s).
Hypothesis MO : made_of emesh mesh locate (tol * s) P pv pe.
Definition known (st : list (nat * (nat * list nat))) : Prop := forall v w mc, In (v, (w, mc)) st -> w = pv v /\ forall c, In c mc <-> In (pv v) (nth c (p_c2v mesh) []).
(** The vertex near x is the nearest *)
Lemma nearest i v w c : P i -> In v (nth i (s_cells emesh) []) -> In (pv v) (nth c (p_c2v mesh) []) -> In w (nth c (p_c2v mesh) []) ->
  rnorm (rsub (nth v (s_x emesh) []) (nth w (p_x mesh) [])) <= rnorm (rsub (nth v (s_x emesh) []) (nth (pv v) (p_x mesh) [])) -> w = pv v.
Proof.
  intros PI V C W L. rewrite !rnorm_dist in L. destruct (MO i PI) as [_ [_ [_ M]]]. destruct (M v V) as [_ [D [LN _]]]. destruct WF as [W1 [W2 _]]. apply W1 in C, W. destruct (Nat.eq_dec w (pv v)) as [|N]; [assumption|]. exfalso.
  destruct (W2 w (pv v) W C N) as [L1 L2]. pose proof (dist_triangle (nth w (p_x mesh) []) (nth v (s_x emesh) []) (nth (pv v) (p_x mesh) []) ltac:(congruence) LN) as T. rewrite (dist_sym (nth w (p_x mesh) []) (nth v (s_x emesh) [])) in T by congruence. lra.
Qed.
Lemma find_returns st i v : P i -> In v (nth i (s_cells emesh) []) -> known st -> exists st' mc, find_vertex mesh locate (s_x emesh) tol s st v = Ok (st', (pv v, mc)) /\ known st' /\ forall c, In c mc <-> In (pv v) (nth c (p_c2v mesh) []).
Proof.
  intros PI V K. destruct (MO i PI) as [PE [NE [SS M]]]. destruct (M v V) as [_ [D [LN LC]]]. unfold find_vertex. destruct (dget v st) as [[w mc]|] eqn:G.
  - apply dget_In in G. destruct (K _ _ _ G) as [-> H]. exists st, mc. auto.
  - apply dget_None in G. destruct WF as [W1 [W2 [W3 W4]]].
    assert (IP : In (pv v) (nth (pe i) (p_e2v mesh) [])) by (apply SS, in_map, V). destruct (W3 _ PE) as [c0 [_ IC]]. apply IC, LC in IP.
    destruct (locate (nth v (s_x emesh) [])) as [|c mc] eqn:LO; [destruct IP|]. cbn [nth_error opt_res bind]. assert (CI : In (pv v) (nth c (p_c2v mesh) [])) by (apply LC; cbn; auto).
    destruct (py_min_ok (fun w => rnorm (rsub (nth v (s_x emesh) []) (nth w (p_x mesh) []))) (nth c (p_c2v mesh) [])) as [w E]; [intros X; rewrite X in CI; destruct CI|]. rewrite E. cbn [bind]. apply py_min_spec in E. destruct E as [E1 E2]. specialize (E2 (pv v) CI). cbn beta in E2. apply (nearest i v w c PI V CI E1) in E2. subst w.
    assert (CE : close_enough tol s (rnorm (rsub (nth v (s_x emesh) []) (nth (pv v) (p_x mesh) []))) = true) by (apply close_spec; [exact S0|rewrite rnorm_dist; exact D]). rewrite CE. cbn [py_assert bind]. rewrite (dset_new v _ _ G).
    exists (st ++ [(v, (pv v, c :: mc))]), (c :: mc). split; [reflexivity|]. split; [|exact LC]. intros v' w' mc' I. apply in_app_iff in I. destruct I as [I|[I|[]]]; [exact (K _ _ _ I)|]. injection I as <- <- <-. auto.
Qed.
Lemma set_char v mc : (forall c, In c mc <-> In (pv v) (nth c (p_c2v mesh) [])) -> forall e, In e (vertex_set mesh (pv v) mc) <-> In (pv v) (nth e (p_e2v mesh) []).
Proof.
  intros H e. rewrite vertex_set_In. split; [tauto|]. intros I. split; [exact I|]. destruct WF as [_ [_ [W3 _]]]. destruct (lt_dec e (length (p_e2v mesh))) as [L|L]; [|rewrite nth_overflow in I by lia; destruct I].
  destruct (W3 e L) as [c [C1 C2]]. exists c. split; [apply H, C2, I|exact C1].
Qed.
Lemma cell_returns i vs : P i -> incl vs (nth i (s_cells emesh) []) -> forall st ent seen, known st -> incl seen (nth i (s_cells emesh) []) -> (seen = [] /\ ent = [] \/ seen <> [] /\ NoDup ent /\ forall e, In e ent <-> forall v, In v seen -> In (pv v) (nth e (p_e2v mesh) [])) ->
  exists st' ent', cell_entity mesh locate (s_x emesh) tol s st ent vs = Ok (st', ent') /\ known st' /\ (seen ++ vs <> [] -> NoDup ent' /\ forall e, In e ent' <-> forall v, In v (seen ++ vs) -> In (pv v) (nth e (p_e2v mesh) [])).
Proof.
  intros PI. induction vs as [|v vs IH]; intros IV st ent seen K IS D; cbn [cell_entity].
  - exists st, ent. split; [reflexivity|]. split; [exact K|]. rewrite app_nil_r. intros N. destruct D as [[-> _]|[_ D]]; [congruence|exact D].
  - destruct (find_returns st i v PI (IV v (or_introl eq_refl)) K) as [st' [mc [F [K' C]]]]. rewrite F. cbn [bind fst snd]. pose proof (set_char v mc C) as SC.
    destruct (IH (fun x X => IV x (or_intror X)) st' (narrow ent (vertex_set mesh (pv v) mc)) (seen ++ [v]) K') as [st2 [ent2 [E [K2 R]]]].
    + intros x X. apply in_app_iff in X. destruct X as [X|[<- |[]]]; [exact (IS x X)|apply IV; cbn; auto].
    + right. split; [destruct seen; discriminate|]. destruct D as [[-> ->]|[N [ND D]]].
      * cbn [narrow app]. split; [apply vertex_set_NoDup|]. intros e. rewrite SC. split; [intros H x [<- |[]]; exact H|intros H; apply H; cbn; auto].
      * assert (IE : In (pe i) ent). { apply D. intros x X. destruct (MO i PI) as [_ [_ [SS _]]]. apply SS, in_map, IS, X. }
        assert (NR : narrow ent (vertex_set mesh (pv v) mc) = filter (fun e => mem e (vertex_set mesh (pv v) mc)) ent) by (destruct ent; [destruct IE|reflexivity]). rewrite NR. split; [apply NoDup_filter, ND|]. intros e. rewrite filter_In, mem_spec, D, SC. split; [intros [A B] x X; apply in_app_iff in X; destruct X as [X|[<- |[]]]; auto|]. intros H. split; [intros x X|]; apply H, in_app_iff; cbn; auto.
    + rewrite E. exists st2, ent2. split; [reflexivity|]. split; [exact K2|]. intros _. rewrite <- app_assoc in R. apply R. destruct seen; discriminate.
Qed.
Lemma map_returns cells : (forall i vs, In (i, vs) cells -> P i /\ vs = nth i (s_cells emesh) []) -> forall st emap, known st -> exists r, map_cells mesh locate (s_x emesh) tol s st emap cells = Ok r.
Proof.
  induction cells as [|[i vs] cells IH]; intros H st emap K; cbn [map_cells]; [eexists; reflexivity|]. destruct (H i vs (or_introl eq_refl)) as [PI ->]. destruct (MO i PI) as [PE [NE [SS M]]].
  destruct (cell_returns i (nth i (s_cells emesh) []) PI (incl_refl _) st [] [] K (incl_nil_l _)) as [st' [ent [E [K' R]]]]; [left; auto|]. rewrite E. cbn [bind snd fst]. destruct (R NE) as [ND C]. assert (SG : ent = [pe i]).
  { apply singleton; [exact ND|]. intros e. rewrite C. cbn [app]. split; [|intros -> v V; apply SS, in_map, V]. intros A. symmetry. destruct WF as [_ [_ [_ W4]]]. apply W4; [|exact PE]. intros w W. apply SS, in_map_iff in W. destruct W as [v [<- V]]. exact (A v V). }
  rewrite SG. apply IH; [intros j us J; apply H; cbn; auto|exact K'].
Qed.
End Returns.
(** ** Tags and checks *)
Lemma tagged_In values cells tags i vs : In (i, vs) (tagged_cells values cells tags) <-> exists t, In t tags /\ nth_error values i = Some t /\ nth_error cells i = Some vs.
Proof.
  unfold tagged_cells. rewrite in_flat_map. assert (X : forall (cells : list (list nat)) (values : list nat) a t, In (t, (i, vs)) (combine values (combine (seq a (length cells)) cells)) <-> (a <= i)%nat /\ nth_error values (i - a) = Some t /\ nth_error cells (i - a) = Some vs).
  { clear. induction cells as [|c cells IH]; intros values a t; cbn.
    - destruct values; cbn; [|]; (split; [tauto|]; intros [_ [_ H]]; destruct (i - a)%nat; discriminate H).
    - destruct values as [|t' values]; cbn; [split; [tauto|]; intros [_ [H _]]; destruct (i - a)%nat; discriminate H|]. rewrite IH. split.
      + intros [E|[L [A B]]]; [injection E as -> -> ->; rewrite Nat.sub_diag; auto|]. replace (i - a)%nat with (S (i - S a)) by lia. split; [lia|auto].
      + intros [L [A B]]. destruct (Nat.eq_dec i a) as [-> |N]; [rewrite Nat.sub_diag in A, B; cbn in A, B; injection A as ->; injection B as ->; auto|]. replace (i - a)%nat with (S (i - S a)) in A, B by lia. right. split; [lia|auto]. }
  split.
  - intros [t [T I]]. exists t. split; [exact T|]. apply in_map_iff in I. destruct I as [[t' ivs] [E I]]. cbn in E. subst ivs. apply filter_In in I. destruct I as [I E]. cbn in E. apply Nat.eqb_eq in E. subst t'. apply X in I. rewrite Nat.sub_0_r in I. tauto.
  - intros [t [T [A B]]]. exists t. split; [exact T|]. apply in_map_iff. exists (t, (i, vs)). split; [reflexivity|]. apply filter_In. split; [|cbn; apply Nat.eqb_refl]. apply X. rewrite Nat.sub_0_r. split; [lia|auto].
Qed.
Lemma diffs_seq n : forall a, diffs (seq a n) = repeat 1%nat (n - 1).
Proof. induction n as [|n IH]; intros a; [reflexivity|]. destruct n as [|n]; [reflexivity|]. specialize (IH (S a)). change (diffs (seq a (S (S n)))) with ((S a - a)%nat :: diffs (seq (S a) (S n))). rewrite IH. replace (S a - a)%nat with 1%nat by lia. cbn [Nat.sub repeat]. rewrite Nat.sub_0_r. reflexivity. Qed.
Lemma nodup_ones n : nodup Nat.eq_dec (repeat 1%nat (S n)) = [1%nat].
Proof. induction n as [|n IH]; [reflexivity|]. change (repeat 1%nat (S (S n))) with (1%nat :: repeat 1%nat (S n)). cbn [nodup]. destruct (in_dec Nat.eq_dec 1%nat (repeat 1%nat (S n))) as [I|N]; [exact IH|]. exfalso. apply N. cbn. auto. Qed.
Lemma keys_seq l n : NoDup l -> (forall v, In v l <-> (v < n)%nat) -> length l = n /\ is_1_sequence l = (2 <=? n)%nat.
Proof.
  intros ND H. split.
  - rewrite <- (seq_length n 0). apply Nat.le_antisymm; apply NoDup_incl_length; [exact ND| |apply seq_NoDup|]; intros v V; [apply in_seq; apply H in V; lia|apply H; apply in_seq in V; lia].
  - unfold is_1_sequence. rewrite (unique_initial l n H), diffs_seq. destruct n as [|[|n]]; [reflexivity|reflexivity|]. replace (S (S n) - 1)%nat with (S n) by lia. rewrite nodup_ones. reflexivity.
Qed.
(** The values and the list of cells *)
Lemma selected_tagged emesh subs tags values : match subs with None => values = repeat 0%nat (length (s_cells emesh)) | Some (_, v) => values = v end ->
  forall i, selected emesh subs tags i <-> exists vs, In (i, vs) (tagged_cells values (s_cells emesh) match tags with None => [0%nat] | Some l => l end).
Proof.
  intros HV i. unfold selected. split.
  - intros [L [t [T V]]]. destruct (nth_error (s_cells emesh) i) as [vs|] eqn:E; [|apply nth_error_None in E; lia]. exists vs. apply tagged_In. exists t. split; [exact T|]. split; [|exact E]. destruct subs as [[d v]|]; [subst; exact V|]. subst. rewrite <- (repeat_length 0%nat (length (s_cells emesh))) in L. rewrite (nth_error_nth' _ 0%nat L), nth_repeat. reflexivity.
  - intros [vs I]. apply tagged_In in I. destruct I as [t [T [V E]]]. split; [apply nth_error_Some; congruence|]. exists t. split; [exact T|]. destruct subs as [[d v]|]; [subst; exact V|]. subst. apply nth_error_In, repeat_spec in V. exact V.
Qed.
Lemma tagged_cell values cells tags i vs : In (i, vs) (tagged_cells values cells tags) -> vs = nth i cells [].
Proof. intros I. apply tagged_In in I. destruct I as [t [_ [_ E]]]. symmetry. apply nth_error_nth. exact E. Qed.
Lemma widest_nonneg x s : x <> [] -> widest x s -> 0 <= s.
Proof. destruct x as [|p x]; [congruence|]. intros _ [U _]. specialize (U p p 0%nat (or_introl eq_refl) (or_introl eq_refl)). lra. Qed.
(** The result of the search for any run *)
Lemma search_sound emesh mesh locate subs tags values tol s r : branching mesh -> 0 <= s -> Forall (fun vs => length vs <= 3)%nat (s_cells emesh) -> match subs with None => values = repeat 0%nat (length (s_cells emesh)) | Some (_, v) => values = v end ->
  map_cells mesh locate (s_x emesh) tol s [] [] (tagged_cells values (s_cells emesh) match tags with None => [0%nat] | Some l => l end) = Ok r ->
  embedding emesh mesh (selected emesh subs tags) (tol * s) (map (fun kv => (fst kv, fst (snd kv))) (fst r)) (snd r).
Proof.
  intros BR S L HV E. pose proof (selected_tagged emesh subs tags values HV) as SEL. set (cells := tagged_cells _ _ _) in *.
  assert (TC : forall i vs, In (i, vs) cells -> vs = nth i (s_cells emesh) []) by (intros i vs; apply tagged_cell).
  destruct (map_sound mesh locate (s_x emesh) tol s BR cells [] [] r S) as [G [_ [KI [ND [V [EI EK]]]]]].
  - split; [constructor|intros v w mc []].
  - constructor.
  - apply Forall_forall. intros [i vs] I. cbn. rewrite (TC i vs I). rewrite Forall_forall in L. destruct (nth_in_or_default i (s_cells emesh) []) as [H|H]; [exact (L _ H)|rewrite H; cbn; lia].
  - intros i vs vs' A B. apply TC in A, B. congruence.
  - exact E.
  - destruct G as [GN G]. assert (MF : map fst (map (fun kv => (fst kv, fst (snd kv))) (fst r)) = map fst (fst r)) by (rewrite map_map; apply map_ext; reflexivity).
    split; [split; [exact ND|]|split; [split; [rewrite MF; exact GN|]|split]].
    + intros i. rewrite SEL. split.
      * intros I. apply in_map_iff in I. destruct I as [[j e] [<- I]]. destruct (EI j e I) as [[vs [H _]]|[[] _]]. exists vs. exact H.
      * intros [vs I]. apply EK. left. apply in_map_iff. exists (i, vs). auto.
    + intros v. rewrite MF. split.
      * intros I. apply in_map_iff in I. destruct I as [[v' x] [<- I]]. destruct (KI _ _ I) as [[i [vs [H VI]]]|[]]. exists i. split; [apply SEL; exists vs; exact H|]. rewrite <- (TC i vs H). exact VI.
      * intros [i [SI VI]]. apply SEL in SI. destruct SI as [vs I]. rewrite <- (TC i vs I) in VI. exact (V i vs v I VI).
    + intros v w I. apply in_map_iff in I. destruct I as [[v' [w' mc]] [I' I]]. cbn in I'. injection I' as -> ->. destruct (G _ _ _ I) as [D [c [mc' [_ C]]]]. split; [exact D|]. exists c. exact C.
    + intros i e v w I VI IW. apply in_map_iff in IW. destruct IW as [[v' [w' mc]] [I' IW]]. cbn in I'. injection I' as -> ->. destruct (EI i e I) as [[vs [H C]]|[[] _]]. apply (C v w mc); [rewrite (TC i vs H); exact VI|exact IW].
Qed.
