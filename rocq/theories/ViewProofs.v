(** The view of an embedded mesh from another mesh: specification and lemmas (property C62) *)
From Verif Require Export ViewModel.
From Verif Require Import BaseProofs EmbedProofs GmshProofs UnionProofs LineProofs EmapProofs.
From Coq Require Import Psatz.
From Verif Require Import GeomProofs.
Local Open Scope R_scope.

(** ** Specification *)
Definition has_tag (other : tagging) (tags : list nat) (e : nat) : Prop := exists t, In t tags /\ nth_error (t_values other) e = Some t.
(** Every vertex of the cell is next to one of the entity *)
Definition lies_on (self : viewer) (other : tagging) (tol : R) (c e : nat) : Prop :=
  forall w, In w (nth c (v_c2v self) []) -> exists v, In v (nth e (t_e2v other) []) /\ dist (nth v (t_x other) []) (nth w (v_x self) []) < tol.
(** ... and every vertex of the entity next to one of the cell *)
Definition covered (self : viewer) (other : tagging) (tol : R) (c e : nat) : Prop :=
  forall v, In v (nth e (t_e2v other) []) -> exists w, In w (nth c (v_c2v self) []) /\ dist (nth v (t_x other) []) (nth w (v_x self) []) < tol.
(** A mesh of simplices with [n] vertices which are apart; no two have the same vertices *)
Definition simplices (x : list (list R)) (conn : list (list nat)) (n gdim : nat) (tol : R) : Prop :=
  (forall c, (c < length conn)%nat -> NoDup (nth c conn []) /\ length (nth c conn []) = n /\ forall w, In w (nth c conn []) -> (w < length x)%nat) /\
  (forall w, (w < length x)%nat -> length (nth w x []) = gdim) /\
  (forall w w', (w < length x)%nat -> (w' < length x)%nat -> w <> w' -> 2 * tol <= dist (nth w x []) (nth w' x [])) /\
  (forall c c', (c < length conn)%nat -> (c' < length conn)%nat -> (forall w, In w (nth c conn []) <-> In w (nth c' conn [])) -> c = c').

(** ** Reductions *)
Lemma intersection_In sets m : intersection sets = Ok m -> sets <> [] /\ forall c, In c m <-> forall s, In s sets -> In c s.
Proof.
  destruct sets as [|s sets]; [discriminate|]. intros E. injection E as E. split; [discriminate|]. intros c. subst m.
  assert (G : forall l a, In c (fold_left (fun a b => filter (fun c => mem c b) a) l a) <-> In c a /\ forall s, In s l -> In c s).
  { intros l. induction l as [|b l IH]; intros a; cbn [fold_left].
    - split; [intros H; split; [exact H|intros s' []]|intros [H _]; exact H].
    - rewrite IH, filter_In. unfold mem. rewrite existsb_exists. split.
      + intros [[A [y [B1 B2]]] C]. apply Nat.eqb_eq in B2. subst y. split; [exact A|]. intros s' [<- | H]; [exact B1|exact (C _ H)].
      + intros [A B]. split; [split; [exact A|]|intros s' H; apply B; right; exact H]. exists c. split; [apply B; left; reflexivity|apply Nat.eqb_refl]. }
  rewrite G. split.
  - intros [A B] s' [<- | H]; [exact A|exact (B _ H)].
  - intros H. split; [apply H; left; reflexivity|intros s' H'; apply H; right; exact H'].
Qed.
Lemma intersection_ok sets : sets <> [] -> exists m, intersection sets = Ok m.
Proof. destruct sets; [intros H; contradiction|]. intros _. eexists. reflexivity. Qed.
Lemma min_pair_spec l : forall best, let m := min_pair best l in (m = best \/ In m l) /\ snd m <= snd best /\ forall a, In a l -> snd m <= snd a.
Proof.
  induction l as [|a l IH]; intros best; cbn [min_pair].
  - split; [left; reflexivity|]. split; [lra|intros a []].
  - destruct (Rlt_dec (snd a) (snd best)) as [H|H].
    + destruct (IH a) as [A [B C]]. split; [right; destruct A as [-> | A]; [left; reflexivity|right; exact A]|]. split; [lra|]. intros b [<- | I]; [exact B|exact (C _ I)].
    + destruct (IH best) as [A [B C]]. split; [destruct A as [-> | A]; [left; reflexivity|right; right; exact A]|]. split; [exact B|]. intros b [<- | I]; [lra|exact (C _ I)].
Qed.
Lemma py_min_pair_spec l p : py_min_pair l = Ok p -> In p l /\ forall a, In a l -> snd p <= snd a.
Proof.
  destruct l as [|a l]; [discriminate|]. intros E. injection E as <-. destruct (min_pair_spec l a) as [A [B C]].
  split; [destruct A as [-> | A]; [left; reflexivity|right; exact A]|]. intros b [<- | I]; [exact B|exact (C _ I)].
Qed.
Lemma reduce_max_spec l m : reduceR Rmax l = Ok m -> In m l /\ forall b, In b l -> b <= m.
Proof.
  destruct l as [|a l]; [discriminate|]. intros E. injection E as <-. destruct (reduce_max l a) as [A [B C]].
  split; [destruct A as [-> | A]; [left; reflexivity|right; exact A]|]. intros b [<- | I]; [exact B|exact (C _ I)].
Qed.
Lemma reduce_min_spec l m : reduceR Rmin l = Ok m -> In m l /\ forall b, In b l -> m <= b.
Proof.
  destruct l as [|a l]; [discriminate|]. intros E. injection E as <-. destruct (reduce_min l a) as [A [B C]].
  split; [destruct A as [-> | A]; [left; reflexivity|right; exact A]|]. intros b [<- | I]; [exact B|exact (C _ I)].
Qed.
Lemma offset_lt ex cx d tol : offset ex cx = Ok d -> (d < tol <-> forall xp, In xp cx -> exists xe, In xe ex /\ dist xe xp < tol).
Proof.
  unfold offset. destruct (mapM _ cx) as [l|] eqn:E; [cbn [bind]|discriminate]. intros M. apply reduce_max_spec in M. destruct M as [M1 M2].
  pose proof (mapM_ok_forall _ _ _ E) as F. split.
  - intros H xp I.
    assert (Q : exists b, In b l /\ reduceR Rmin (map (fun xe => rnorm (rsub xe xp)) ex) = Ok b).
    { clear M1 M2 E. induction F; [destruct I|]. destruct I as [<- | I]; [eexists; split; [left; reflexivity|eassumption]|]. destruct (IHF I) as [b [B1 B2]]. exists b. split; [right; exact B1|exact B2]. }
    destruct Q as [b [B1 B2]]. apply reduce_min_spec in B2. destruct B2 as [B2 B3]. apply in_map_iff in B2. destruct B2 as [xe [B2 B4]]. exists xe. split; [exact B4|]. rewrite <- rnorm_dist, B2. specialize (M2 _ B1). lra.
  - intros H.
    assert (Q : exists xp, In xp cx /\ reduceR Rmin (map (fun xe => rnorm (rsub xe xp)) ex) = Ok d).
    { clear M2 E H. induction F; [destruct M1|]. destruct M1 as [<- | I]; [eexists; split; [left; reflexivity|eassumption]|]. destruct (IHF I) as [b [B1 B2]]. exists b. split; [right; exact B1|exact B2]. }
    destruct Q as [xp [Q1 Q2]]. destruct (H _ Q1) as [xe [X1 X2]]. apply reduce_min_spec in Q2. destruct Q2 as [_ Q2].
    specialize (Q2 (rnorm (rsub xe xp)) (in_map (fun xe => rnorm (rsub xe xp)) _ _ X1)). rewrite rnorm_dist in Q2. lra.
Qed.
Lemma reduce_ok f l : l <> [] -> exists m, reduceR f l = Ok m.
Proof. destruct l; [intros H; contradiction|]. intros _. eexists. reflexivity. Qed.
Lemma offset_ok ex cx : ex <> [] -> cx <> [] -> exists d, offset ex cx = Ok d.
Proof.
  intros He Hc. unfold offset. assert (G : forall l, exists r, mapM (fun xp => reduceR Rmin (map (fun xe => rnorm (rsub xe xp)) ex)) l = Ok r /\ length r = length l).
  { intros l. induction l as [|a l [r [IH1 IH2]]]; [exists []; split; reflexivity|]. rewrite mapM_cons. destruct (reduce_ok Rmin (map (fun xe => rnorm (rsub xe a)) ex)) as [m ->]; [destruct ex; [contradiction|discriminate]|].
    cbn [bind]. rewrite IH1. cbn [bind]. eexists. split; [reflexivity|]. cbn. rewrite IH2. reflexivity. }
  destruct (G cx) as [r [-> L]]. cbn [bind]. apply reduce_ok. destruct r; [destruct cx; [contradiction|discriminate]|discriminate].
Qed.

(** ** One entity *)
Section View.
Variables (self : viewer) (other : tagging) (locate : list R -> list nat) (tol : R).
(** The cell that is found for an entity, whatever the map is *)
Definition finds (e c : nat) : Prop := forall emap, view_entity self other locate tol emap e = Ok (dset c e emap).
Definition fresh (e c : nat) : Prop := (forall v, In v (nth e (t_e2v other) []) -> In c (locate (nth v (t_x other) []))) /\ nth e (t_e2v other) [] <> [] /\ nth c (v_c2v self) [] <> [] /\ lies_on self other tol c e.
Lemma dset_twice {B} k (b : B) d : dset k b (dset k b d) = dset k b d.
Proof.
  induction d as [|[k' b'] d IH]; cbn [dset]; [rewrite Nat.eqb_refl; reflexivity|]. destruct (k' =? k)%nat eqn:E; cbn [dset]; [rewrite Nat.eqb_refl; reflexivity|]. rewrite E, IH. reflexivity.
Qed.
Lemma offset_nonempty ex cx d : offset ex cx = Ok d -> cx <> [].
Proof. intros H ->. discriminate. Qed.
Lemma entity_sound emap e r : view_entity self other locate tol emap e = Ok r -> exists c, r = dset c e emap /\ finds e c /\ fresh e c.
Proof.
  unfold view_entity. set (vs := nth e (t_e2v other) []) in *. destruct (intersection _) as [maybe|] eqn:EM; [cbn [bind]|discriminate].
  match goal with |- context [mapM ?g maybe] => destruct (mapM g maybe) as [matching|] eqn:EF end; [cbn [bind]|discriminate].
  destruct (py_min_pair matching) as [[c d]|] eqn:EP; [cbn [bind]|discriminate]. cbn [fst snd]. destruct (Rlt_dec d tol) as [Hd|]; [cbn [py_assert bind]|discriminate].
  intros E. injection E as <-.
  destruct (intersection_In _ _ EM) as [Hvs HM]. pose proof (py_min_pair_spec _ _ EP) as [HP _]. pose proof (mapM_ok_forall _ _ _ EF) as F.
  assert (Q : In c maybe /\ offset (map (fun v => nth v (t_x other) []) vs) (map (fun w => nth w (v_x self) []) (nth c (v_c2v self) [])) = Ok d).
  { clear EF EM HM EP. induction F as [|a b la lb Fa F IH]; [destruct HP|]. destruct HP as [-> | HP].
    - destruct (offset _ _) as [d'|] eqn:EO in Fa; [cbn [bind] in Fa|discriminate]. injection Fa as -> ->. split; [left; reflexivity|exact EO].
    - destruct (IH HP) as [A B]. split; [right; exact A|exact B]. }
  destruct Q as [Q1 Q2].
  assert (G : forall emap, dset c e match maybe with [the_cell] => dset the_cell e emap | _ => emap end = dset c e emap).
  { intros em. destruct maybe as [|a [|b maybe]]; [reflexivity| |reflexivity]. destruct Q1 as [-> | []]. apply dset_twice. }
  exists c. split; [apply G|]. split.
  - intros em. unfold view_entity. fold vs. rewrite EM. cbn [bind]. rewrite EF. cbn [bind]. rewrite EP. cbn [bind fst snd]. destruct (Rlt_dec d tol); [cbn [py_assert bind]|contradiction]. rewrite G. reflexivity.
  - split; [|split; [|split]].
    + intros v Hv. apply (proj1 (HM c) Q1). apply in_map_iff. exists v. split; [reflexivity|exact Hv].
    + intros H. apply Hvs. fold vs in H. rewrite H. reflexivity.
    + intros H. apply offset_nonempty in Q2. rewrite H in Q2. apply Q2. reflexivity.
    + intros w Hw. destruct (proj1 (offset_lt _ _ _ tol Q2) Hd _ (in_map (fun w => nth w (v_x self) []) _ _ Hw)) as [xe [I1 I2]]. apply in_map_iff in I1. destruct I1 as [v [<- I1]]. exists v. split; [exact I1|exact I2].
Qed.
Lemma finds_fun e c c' : finds e c -> finds e c' -> c = c'.
Proof. intros H H'. specialize (H []). specialize (H' []). rewrite H in H'. cbn in H'. injection H' as ->. reflexivity. Qed.
Lemma entity_returns emap e c : fresh e c -> (forall c', (forall v, In v (nth e (t_e2v other) []) -> In c' (locate (nth v (t_x other) []))) -> nth c' (v_c2v self) [] <> []) ->
  exists r, view_entity self other locate tol emap e = Ok r.
Proof.
  intros [F1 [F2 [F3 F4]]] HC. unfold view_entity. set (vs := nth e (t_e2v other) []) in *.
  destruct (intersection_ok (map (fun v => locate (nth v (t_x other) [])) vs)) as [maybe EM]; [destruct vs; [contradiction|discriminate]|].
  destruct (intersection_In _ _ EM) as [_ HM]. rewrite EM. cbn [bind].
  assert (HM' : forall c', In c' maybe <-> forall v, In v vs -> In c' (locate (nth v (t_x other) []))).
  { intros c'. rewrite HM. split.
    - intros H v Hv. apply H. apply in_map_iff. exists v. split; [reflexivity|exact Hv].
    - intros H s Hs. apply in_map_iff in Hs. destruct Hs as [v [<- Hv]]. exact (H v Hv). }
  assert (G : forall l, incl l maybe -> exists m, mapM (fun cell => do d <- offset (map (fun v => nth v (t_x other) []) vs) (map (fun w => nth w (v_x self) []) (nth cell (v_c2v self) [])); Ok (cell, d)) l = Ok m /\
     forall c', In c' l -> exists d, In (c', d) m /\ offset (map (fun v => nth v (t_x other) []) vs) (map (fun w => nth w (v_x self) []) (nth c' (v_c2v self) [])) = Ok d).
  { intros l. induction l as [|a l IH]; intros I; [exists []; split; [reflexivity|intros c' []]|]. destruct IH as [m [M1 M2]]; [intros b Hb; apply I; right; exact Hb|].
    rewrite mapM_cons. destruct (offset_ok (map (fun v => nth v (t_x other) []) vs) (map (fun w => nth w (v_x self) []) (nth a (v_c2v self) []))) as [d Ed]; [destruct vs; [contradiction|discriminate]| |].
    { assert (Ha := HC a (proj1 (HM' a) (I a (or_introl eq_refl)))). destruct (nth a (v_c2v self) []); [contradiction|discriminate]. }
    rewrite Ed. cbn [bind]. rewrite M1. cbn [bind]. eexists. split; [reflexivity|]. intros c' [<- | H].
    - exists d. split; [left; reflexivity|exact Ed].
    - destruct (M2 c' H) as [d' [D1 D2]]. exists d'. split; [right; exact D1|exact D2]. }
  destruct (G maybe (incl_refl _)) as [m [M1 M2]]. rewrite M1. cbn [bind].
  destruct (M2 c (proj2 (HM' c) F1)) as [d [D1 D2]].
  assert (P : exists p, py_min_pair m = Ok p) by (destruct m; [destruct D1|eexists; reflexivity]). destruct P as [p P]. rewrite P. cbn [bind]. apply py_min_pair_spec in P. destruct P as [_ P]. specialize (P _ D1). cbn [snd] in P.
  assert (Hd : d < tol).
  { apply (offset_lt _ _ _ tol D2). intros xp Hx. apply in_map_iff in Hx. destruct Hx as [w [<- Hw]]. destruct (F4 w Hw) as [v [V1 V2]]. exists (nth v (t_x other) []). split; [apply in_map_iff; exists v; split; [reflexivity|exact V1]|exact V2]. }
  destruct (Rlt_dec (snd p) tol); [|lra]. cbn [py_assert bind]. eexists. reflexivity.
Qed.

(** ** All of them *)
Lemma foldM_app_ok {A B} (step : A -> B -> res A) l1 l2 a : foldM step (l1 ++ l2) a = do b <- foldM step l1 a; foldM step l2 b.
Proof. revert a. induction l1 as [|x l1 IH]; intros a; [reflexivity|]. cbn [app foldM]. destruct (step a x); [cbn [bind]; apply IH|reflexivity]. Qed.
(** The entities in the order in which they are mapped *)
Definition visited (tags : list nat) : list nat := flat_map (where_eq (t_values other)) tags.
Lemma visited_In tags e : In e (visited tags) <-> has_tag other tags e.
Proof.
  unfold visited. rewrite in_flat_map. split; intros [t [H1 H2]]; exists t; (split; [exact H1|]); apply where_eq_In in H2 || apply where_eq_In; exact H2.
Qed.
Lemma tags_fold tags : forall emap r, foldM (view_tag self other locate tol) tags emap = Ok r -> foldM (view_entity self other locate tol) (visited tags) emap = Ok r /\ forall t, In t tags -> exists e, nth_error (t_values other) e = Some t.
Proof.
  induction tags as [|t tags IH]; intros emap r H; [split; [exact H|intros t []]|]. cbn [foldM] in H. unfold view_tag at 1 in H. cbn [visited flat_map]. fold (visited tags).
  destruct (negb (length (where_eq (t_values other) t) =? 0)%nat) eqn:EL; [cbn [py_assert bind] in H|discriminate].
  rewrite foldM_app_ok. destruct (foldM _ (where_eq _ _) emap) as [em|]; [cbn [bind] in H |- *|discriminate]. apply IH in H. destruct H as [H1 H2]. split; [exact H1|].
  intros t' [<- | I]; [|exact (H2 _ I)]. destruct (where_eq (t_values other) t) as [|e l] eqn:EW; [discriminate|]. exists e. apply where_eq_In. rewrite EW. left. reflexivity.
Qed.
Lemma tags_fold_ok tags : (forall t, In t tags -> exists e, nth_error (t_values other) e = Some t) -> forall emap r, foldM (view_entity self other locate tol) (visited tags) emap = Ok r -> foldM (view_tag self other locate tol) tags emap = Ok r.
Proof.
  intros HT. induction tags as [|t tags IH]; intros emap r H; [exact H|]. cbn [visited flat_map] in H. fold (visited tags) in H. cbn [foldM]. unfold view_tag at 1.
  destruct (HT t (or_introl eq_refl)) as [e He]. apply where_eq_In in He. destruct (negb (length (where_eq (t_values other) t) =? 0)%nat) eqn:EL; [cbn [py_assert bind]|destruct (where_eq (t_values other) t); [destruct He|discriminate]].
  rewrite foldM_app_ok in H. destruct (foldM _ (where_eq _ _) emap) as [em|]; [cbn [bind] in H |- *|discriminate]. apply IH; [intros t' I; apply HT; right; exact I|exact H].
Qed.
Lemma entities_sound es : forall emap r, NoDup (map fst emap) -> foldM (view_entity self other locate tol) es emap = Ok r ->
  NoDup (map fst r) /\ (forall c e, In (c, e) r -> (In e es /\ finds e c /\ fresh e c) \/ In (c, e) emap) /\
  forall e, In e es -> exists c e', finds e c /\ fresh e c /\ In (c, e') r /\ In e' es /\ finds e' c /\ fresh e' c.
Proof.
  induction es as [|e es IH]; intros emap r ND H.
  - injection H as <-. split; [exact ND|]. split; [intros c e H; right; exact H|intros e []].
  - cbn [foldM] in H. destruct (view_entity _ _ _ _ emap e) as [em|] eqn:E; [cbn [bind] in H|discriminate]. apply entity_sound in E. destruct E as [c [-> [Fc Gc]]].
    destruct (dset_spec c e emap ND) as [ND' SP]. destruct (IH _ _ ND' H) as [A [B C]]. split; [exact A|]. split.
    + intros c' e' I. destruct (B _ _ I) as [[B1 B2]|B1]; [left; split; [right; exact B1|exact B2]|]. apply SP in B1. destruct B1 as [[-> ->]|[_ B1]]; [left; split; [left; reflexivity|split; assumption]|right; exact B1].
    + intros e' [<- | I].
      * assert (K : forall es m r, NoDup (map fst m) -> foldM (view_entity self other locate tol) es m = Ok r -> In c (map fst m) -> In c (map fst r)).
        { clear. intros es. induction es as [|e es IH]; intros m r ND H I; [injection H as <-; exact I|]. cbn [foldM] in H. destruct (view_entity _ _ _ _ m e) as [m'|] eqn:E; [cbn [bind] in H|discriminate].
          apply entity_sound in E. destruct E as [c' [-> _]]. destruct (dset_spec c' e m ND) as [ND' SP]. apply (IH _ _ ND' H). apply in_map_iff in I. destruct I as [[k b] [I1 I2]]. cbn [fst] in I1. subst k.
          destruct (Nat.eq_dec c c') as [-> | N]; apply in_map_iff; [exists (c', e)|exists (c, b)]; (split; [reflexivity|]); apply SP; [left; split; reflexivity|right; split; [exact N|exact I2]]. }
        assert (I : In c (map fst (dset c e emap))) by (apply in_map_iff; exists (c, e); split; [reflexivity|apply SP; left; split; reflexivity]).
        apply (K _ _ _ ND' H) in I. apply in_map_iff in I. destruct I as [[k e'] [I1 I2]]. cbn [fst] in I1. subst k. exists c, e'. split; [exact Fc|]. split; [exact Gc|]. split; [exact I2|].
        destruct (B _ _ I2) as [[B1 B2]|B1]; [split; [right; exact B1|exact B2]|]. apply SP in B1. destruct B1 as [[_ ->]|[B1 _]]; [|contradiction B1; reflexivity]. split; [left; reflexivity|split; assumption].
      * destruct (C e' I) as [c' [e2 [C1 [C2 [C3 [C4 C5]]]]]]. exists c', e2. split; [exact C1|]. split; [exact C2|]. split; [exact C3|]. split; [right; exact C4|exact C5].
Qed.
Lemma entities_return es : (forall e, In e es -> exists c, fresh e c) -> (forall e c', In e es -> (forall v, In v (nth e (t_e2v other) []) -> In c' (locate (nth v (t_x other) []))) -> nth c' (v_c2v self) [] <> []) ->
  forall emap, exists r, foldM (view_entity self other locate tol) es emap = Ok r.
Proof.
  intros HF HC. induction es as [|e es IH]; intros emap; [exists emap; reflexivity|]. destruct (HF e (or_introl eq_refl)) as [c Fc].
  destruct (entity_returns emap e c Fc) as [r Hr]; [intros c'; apply (HC e c' (or_introl eq_refl))|]. cbn [foldM]. rewrite Hr. cbn [bind]. apply IH; [intros e' I; apply HF; right; exact I|intros e' c' I; apply HC; right; exact I].
Qed.

(** ** Cells and entities that are apart *)
Lemma lies_on_covered n gdim c e : 0 < tol -> simplices (v_x self) (v_c2v self) n gdim tol -> simplices (t_x other) (t_e2v other) n gdim tol ->
  (c < length (v_c2v self))%nat -> (e < length (t_e2v other))%nat -> lies_on self other tol c e -> covered self other tol c e.
Proof.
  intros Ht [S1 [S2 [S3 _]]] [O1 [O2 _]] Hc He L. destruct (S1 c Hc) as [A1 [A2 A3]]. destruct (O1 e He) as [B1 [B2 B3]].
  assert (Q : forall ws, incl ws (nth c (v_c2v self) []) -> NoDup ws -> exists vs, NoDup vs /\ length vs = length ws /\ forall v, In v vs -> In v (nth e (t_e2v other) []) /\ exists w, In w ws /\ dist (nth v (t_x other) []) (nth w (v_x self) []) < tol).
  { intros ws. induction ws as [|w ws IH]; intros I ND; [exists []; split; [constructor|]; split; [reflexivity|intros v []]|].
    inversion ND as [|? ? N1 N2]. subst. destruct IH as [vs [V1 [V2 V3]]]; [intros a Ha; apply I; right; exact Ha|exact N2|]. destruct (L w (I w (or_introl eq_refl))) as [v [W1 W2]].
    exists (v :: vs). split; [constructor; [|exact V1]|split; [cbn; rewrite V2; reflexivity|]].
    - intros HV. destruct (V3 v HV) as [_ [w' [X1 X2]]]. assert (Hn : w <> w') by (intros ->; exact (N1 X1)).
      assert (Iw := A3 w (I w (or_introl eq_refl))). assert (Iw' := A3 w' (I w' (or_intror X1))).
      pose proof (S3 w w' Iw Iw' Hn) as D.
      pose proof (dist_triangle (nth w (v_x self) []) (nth v (t_x other) []) (nth w' (v_x self) [])) as T. rewrite (S2 w Iw), (O2 v (B3 v W1)), (S2 w' Iw') in T. specialize (T eq_refl eq_refl).
      rewrite (UnionProofs.dist_sym (nth w (v_x self) []) (nth v (t_x other) [])) in T by (rewrite (S2 w Iw), (O2 v (B3 v W1)); reflexivity). lra.
    - intros v' [<- | HV]; [split; [exact W1|exists w; split; [left; reflexivity|exact W2]]|]. destruct (V3 v' HV) as [X1 [w' [X2 X3]]]. split; [exact X1|]. exists w'. split; [right; exact X2|exact X3]. }
  destruct (Q _ (incl_refl _) A1) as [vs [V1 [V2 V3]]]. intros v Hv.
  assert (I : incl (nth e (t_e2v other) []) vs) by (apply NoDup_length_incl; [exact V1|lia|intros a Ha; apply (V3 a Ha)]). exact (proj2 (V3 v (I v Hv))).
Qed.
Lemma entity_unique n gdim c e e' : 0 < tol -> simplices (v_x self) (v_c2v self) n gdim tol -> simplices (t_x other) (t_e2v other) n gdim tol ->
  (c < length (v_c2v self))%nat -> (e < length (t_e2v other))%nat -> (e' < length (t_e2v other))%nat -> lies_on self other tol c e -> lies_on self other tol c e' -> e = e'.
Proof.
  intros Ht HS HO Hc He He' L L'. assert (C := lies_on_covered n gdim c e Ht HS HO Hc He L). assert (C' := lies_on_covered n gdim c e' Ht HS HO Hc He' L').
  destruct HS as [S1 [S2 _]]. destruct HO as [O1 [O2 [O3 O4]]].
  assert (G : forall a b, (a < length (t_e2v other))%nat -> (b < length (t_e2v other))%nat -> covered self other tol c a -> lies_on self other tol c b -> forall v, In v (nth a (t_e2v other) []) -> In v (nth b (t_e2v other) [])).
  { intros a b Ha Hb Ca Lb v Hv. destruct (Ca v Hv) as [w [W1 W2]]. destruct (Lb w W1) as [v' [V1 V2]]. destruct (Nat.eq_dec v v') as [-> | N]; [exact V1|].
    destruct (O1 a Ha) as [_ [_ Ra]]. destruct (O1 b Hb) as [_ [_ Rb]]. destruct (S1 c Hc) as [_ [_ Rc]].
    pose proof (O3 v v' (Ra v Hv) (Rb v' V1) N) as D. pose proof (dist_triangle (nth v (t_x other) []) (nth w (v_x self) []) (nth v' (t_x other) [])) as T.
    rewrite (O2 v (Ra v Hv)), (S2 w (Rc w W1)), (O2 v' (Rb v' V1)) in T. specialize (T eq_refl eq_refl). rewrite (UnionProofs.dist_sym (nth w (v_x self) [])) in T by (rewrite (O2 v' (Rb v' V1)), (S2 w (Rc w W1)); reflexivity). lra. }
  apply O4; [exact He|exact He'|]. intros v. split; [apply (G e e' He He' C L')|apply (G e' e He' He C' L)].
Qed.
End View.
(** Without a map of the vertices no marker is translated *)
Lemma translate_one_empty child par cmap pv f e : e2v par e <> [] -> translate_one child par [] cmap pv f e = Ok f.
Proof. intros H. unfold translate_one. destruct (e2v par e) as [|v vs]; [contradiction|]. reflexivity. Qed.
Lemma foldM_const {A B} (step : A -> B -> res A) l : (forall a b, In b l -> step a b = Ok a) -> forall a, foldM step l a = Ok a.
Proof. induction l as [|b l IH]; intros H a; [reflexivity|]. cbn [foldM]. rewrite (H a b (or_introl eq_refl)). cbn [bind]. apply IH. intros a' b' I. apply H. right. exact I. Qed.
