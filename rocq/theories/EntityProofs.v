(** Specification vocabulary and proofs for EntityModel.v. *)
From Verif Require Import Base BaseProofs EntityModel.

(** ** Specification vocabulary *)

(** The trace mesh knows that its entity [c] of dimension [dim] is the entity [e] of the
    mesh [mesh]. *)
Definition knows (tm : trace_mesh) (mesh dim c e : nat) : Prop :=
  exists maps em d, t_maps tm = Some maps /\ In (mesh, em) maps /\ In (dim, d) em /\ In (c, e) d.
Definition knows_mesh (tm : trace_mesh) (mesh : nat) : Prop := exists maps em, t_maps tm = Some maps /\ In (mesh, em) maps.
(** Dictionaries have distinct keys. *)
Definition dict {B} (d : list (nat * B)) : Prop := NoDup (map fst d).
(** A map has dictionaries for vertices and cells. *)
Definition map_ok (tdim : nat) (em : entity_map) : Prop :=
  dict em /\ (forall dim, (exists d, In (dim, d) em) <-> dim = 0 \/ dim = tdim) /\ forall dim d, In (dim, d) em -> dict d.
(** Everything the trace mesh knows is right. *)
Definition right (tdim : nat) (image : nat -> nat -> nat -> nat) (tm : trace_mesh) : Prop :=
  (forall maps, t_maps tm = Some maps -> dict maps /\ (t_tagged tm <> None) /\ forall mesh em, In (mesh, em) maps -> map_ok tdim em) /\
  forall mesh dim c e, knows tm mesh dim c e -> e = image mesh dim c.
(** What is asked of the search for the map: if it returns, then with right images of
    the entities it finds and with all cells of the given tags. *)
Definition searches (tdim : nat) (image : nat -> nat -> nat -> nat) (build : nat -> mesh_function -> list nat -> res entity_map) : Prop :=
  forall mesh f tags em, build mesh f tags = Ok em -> map_ok tdim em /\
    (forall dim d c e, In (dim, d) em -> In (c, e) d -> e = image mesh dim c) /\
    forall d c tag, In (tdim, d) em -> nth_error (mf_values f) c = Some tag -> In tag tags -> exists e, In (c, e) d.

(** ** Dictionaries *)

Lemma lookup_in {B} k (d : list (nat * B)) b : lookup k d = Some b -> In (k, b) d.
Proof. induction d as [|[k' b'] d IH]; cbn; [discriminate|]. destruct (k' =? k) eqn:E; [apply Nat.eqb_eq in E; subst; intros [= ->]; auto|auto]. Qed.
Lemma in_lookup {B} k (d : list (nat * B)) b : dict d -> In (k, b) d -> lookup k d = Some b.
Proof.
  unfold dict. induction d as [|[k' b'] d IH]; cbn; intros ND H; [contradiction|]. inversion ND as [|? ? N1 N2]; subst.
  destruct H as [H|H]; [injection H as -> ->; rewrite Nat.eqb_refl; reflexivity|].
  destruct (k' =? k) eqn:E; [|apply IH; assumption]. apply Nat.eqb_eq in E. subst. exfalso. apply N1, in_map_iff. exists (k, b). auto.
Qed.
Lemma lookup_none {B} k (d : list (nat * B)) : lookup k d = None <-> ~ In k (map fst d).
Proof.
  induction d as [|[k' b'] d IH]; cbn; [tauto|]. destruct (k' =? k) eqn:E.
  - apply Nat.eqb_eq in E. split; [discriminate|]. intros H. exfalso. apply H. auto.
  - apply Nat.eqb_neq in E. rewrite IH. tauto.
Qed.
Lemma keys_in {B} (d : list (nat * B)) k : In k (map fst d) <-> exists b, In (k, b) d.
Proof. rewrite in_map_iff. split; [intros ([k' b] & E & H); cbn in E; subst; eauto|]. intros [b H]. exists (k, b). auto. Qed.
Lemma lookup_assign {B} k (b : B) d k' : lookup k' (assign k b d) = if k =? k' then Some b else lookup k' d.
Proof.
  induction d as [|[k1 b1] d IH]; cbn; [reflexivity|]. destruct (k1 =? k) eqn:E; cbn.
  - apply Nat.eqb_eq in E. subst. destruct (k =? k'); reflexivity.
  - rewrite IH. destruct (k =? k') eqn:E2; [|reflexivity]. apply Nat.eqb_eq in E2. subst. rewrite E. reflexivity.
Qed.
Lemma assign_keys {B} k (b : B) d x : In x (map fst (assign k b d)) <-> x = k \/ In x (map fst d).
Proof.
  induction d as [|[k1 b1] d IH]; cbn; [intuition|]. destruct (k1 =? k) eqn:E; cbn.
  - apply Nat.eqb_eq in E. subst. intuition.
  - rewrite IH. intuition.
Qed.
Lemma assign_dict {B} k (b : B) d : dict d -> dict (assign k b d).
Proof.
  unfold dict. induction d as [|[k1 b1] d IH]; intros ND; [cbn; constructor; [intros []|constructor]|]. inversion ND as [|? ? N1 N2]; subst. cbn.
  destruct (k1 =? k) eqn:E; cbn.
  - apply Nat.eqb_eq in E. subst. exact ND.
  - constructor; [|apply IH; exact N2]. rewrite assign_keys. intros [H|H]; [subst; rewrite Nat.eqb_refl in E; discriminate|exact (N1 H)].
Qed.
Lemma assign_in {B} k (b : B) d k' b' : dict d -> In (k', b') (assign k b d) <-> (k' = k /\ b' = b) \/ (k' <> k /\ In (k', b') d).
Proof.
  intros D. split.
  - intros H. apply (in_lookup _ _ _ (assign_dict k b d D)) in H. rewrite lookup_assign in H. destruct (k =? k') eqn:E.
    + apply Nat.eqb_eq in E. injection H as <-. auto.
    + apply Nat.eqb_neq in E. right. split; [congruence|]. apply lookup_in, H.
  - intros H. apply lookup_in. rewrite lookup_assign. destruct H as [[-> ->]|[N H]]; [rewrite Nat.eqb_refl; reflexivity|].
    destruct (k =? k') eqn:E; [apply Nat.eqb_eq in E; congruence|]. apply in_lookup; assumption.
Qed.
Lemma update_dict {B} (e d : list (nat * B)) : dict d -> dict (dict_update d e).
Proof. unfold dict_update. revert d. induction e as [|kb e IH]; intros d D; [exact D|]. cbn. apply IH, assign_dict, D. Qed.
Lemma update_keys {B} (e d : list (nat * B)) x : In x (map fst (dict_update d e)) <-> In x (map fst d) \/ In x (map fst e).
Proof.
  unfold dict_update. revert d. induction e as [|kb e IH]; intros d; cbn; [tauto|]. rewrite IH, assign_keys. intuition.
Qed.
Lemma update_from {B} (e d : list (nat * B)) k b : dict d -> In (k, b) (dict_update d e) -> In (k, b) d \/ In (k, b) e.
Proof.
  unfold dict_update. revert d. induction e as [|[k1 b1] e IH]; intros d D H; [auto|]. cbn in H. apply IH in H; [|apply assign_dict, D].
  destruct H as [H|H]; [|right; right; exact H]. apply assign_in in H; [|exact D]. destruct H as [[-> ->]|[_ H]]; [right; left; reflexivity|auto].
Qed.
Lemma dict_fun {B} (d : list (nat * B)) k a b : dict d -> In (k, a) d -> In (k, b) d -> a = b.
Proof. intros D A C. apply (in_lookup _ _ _ D) in A, C. congruence. Qed.
Lemma memb_in x l : memb x l = true <-> In x l.
Proof. unfold memb. rewrite existsb_exists. split; [intros (y & H & E); apply Nat.eqb_eq in E; subst; exact H|]. intros H. exists x. split; [exact H|apply Nat.eqb_refl]. Qed.

(** ** Updates of maps *)

Lemma update_all_frame dims : forall old new out r y, update_all dims old new = (out, r) -> ~ In y dims -> lookup y out = lookup y old.
Proof.
  induction dims as [|z dims IH]; intros old new out r y E N; cbn in E; [injection E as <- <-; reflexivity|].
  destruct (lookup z old); [|injection E as <- <-; reflexivity]. destruct (lookup z new); [|injection E as <- <-; reflexivity].
  rewrite (IH _ _ _ _ y E) by (intros H; apply N; right; exact H). rewrite lookup_assign.
  destruct (z =? y) eqn:Z; [|reflexivity]. apply Nat.eqb_eq in Z. exfalso. apply N. left. exact Z.
Qed.
Lemma update_all_at dims : forall old new out r y, NoDup dims -> update_all dims old new = (out, r) ->
  lookup y out = lookup y old /\ (r = Ok tt -> ~ In y dims) \/ exists o e, lookup y old = Some o /\ lookup y new = Some e /\ lookup y out = Some (dict_update o e).
Proof.
  induction dims as [|z dims IH]; intros old new out r y ND E; cbn in E; [injection E as <- <-; left; split; [reflexivity|intros _ []]|].
  inversion ND as [|? ? N1 N2]; subst.
  destruct (lookup z old) as [o|] eqn:LO; [|injection E as <- <-; left; split; [reflexivity|discriminate]].
  destruct (lookup z new) as [e|] eqn:LN; [|injection E as <- <-; left; split; [reflexivity|discriminate]].
  destruct (Nat.eq_dec z y) as [-> |NE].
  - right. exists o, e. split; [exact LO|]. split; [exact LN|]. rewrite (update_all_frame _ _ _ _ _ y E N1), lookup_assign, Nat.eqb_refl. reflexivity.
  - destruct (IH _ _ _ _ y N2 E) as [[A B]|(o' & e' & A & B & C)].
    + left. rewrite A, lookup_assign. assert (Z : (z =? y) = false) by (apply Nat.eqb_neq; exact NE). rewrite Z. split; [reflexivity|]. intros R [H|H]; [exact (NE H)|exact (B R H)].
    + right. exists o', e'. rewrite lookup_assign in A. assert (Z : (z =? y) = false) by (apply Nat.eqb_neq; exact NE). rewrite Z in A. auto.
Qed.
Lemma update_all_dict dims : forall old new out r, update_all dims old new = (out, r) -> dict old -> dict out /\ forall x, In x (map fst out) <-> In x (map fst old).
Proof.
  induction dims as [|z dims IH]; intros old new out r E D; cbn in E; [injection E as <- <-; tauto|].
  destruct (lookup z old) as [o|] eqn:LO; [|injection E as <- <-; tauto]. destruct (lookup z new); [|injection E as <- <-; tauto].
  destruct (IH _ _ _ _ E (assign_dict _ _ _ D)) as [A B]. split; [exact A|]. intros x. rewrite B, assign_keys. split; [|auto]. intros [-> |H]; [|exact H].
  apply keys_in. exists o. apply lookup_in, LO.
Qed.
Lemma update_all_returns dims : forall old new, (forall x, In x dims -> In x (map fst old) /\ In x (map fst new)) -> snd (update_all dims old new) = Ok tt.
Proof.
  induction dims as [|z dims IH]; intros old new H; [reflexivity|]. cbn. destruct (H z (or_introl eq_refl)) as [A B].
  destruct (lookup z old) eqn:LO; [|apply lookup_none in LO; contradiction]. destruct (lookup z new) eqn:LN; [|apply lookup_none in LN; contradiction].
  apply IH. intros x Hx. destruct (H x (or_intror Hx)) as [C D]. split; [apply assign_keys; auto|exact D].
Qed.
Lemma map_ok_keys tdim em x : map_ok tdim em -> In x (map fst em) <-> x = 0 \/ x = tdim.
Proof. intros (_ & K & _). rewrite keys_in. apply K. Qed.
(** Updating a map with one of the same dimensions *)
Lemma update_map tdim old new out r : map_ok tdim old -> map_ok tdim new -> update_all (map fst old) old new = (out, r) ->
  r = Ok tt /\ map_ok tdim out /\
  (forall dim d c e, In (dim, d) out -> In (c, e) d -> exists d', (In (dim, d') old \/ In (dim, d') new) /\ In (c, e) d') /\
  (forall dim d, In (dim, d) old \/ In (dim, d) new -> exists d', In (dim, d') out /\ forall c, In c (map fst d) -> In c (map fst d')).
Proof.
  intros O N E. pose proof O as (OD & OK' & OV). pose proof N as (ND & NK & NV).
  destruct (update_all_dict _ _ _ _ _ E OD) as [D K].
  assert (R : r = Ok tt). { replace r with (snd (update_all (map fst old) old new)) by (rewrite E; reflexivity). apply update_all_returns. intros x Hx. split; [exact Hx|]. apply (map_ok_keys tdim new); [exact N|]. apply (map_ok_keys tdim old); assumption. }
  assert (AT : forall y d, In (y, d) out -> exists o e, In (y, o) old /\ In (y, e) new /\ d = dict_update o e).
  { intros y d H. pose proof (in_lookup _ _ _ D H) as L. destruct (update_all_at _ _ _ _ _ y OD E) as [[A B]|(o & e & A & B & C)].
    - exfalso. apply (B R). apply K, keys_in. eauto.
    - exists o, e. rewrite C in L. injection L as <-. split; [apply lookup_in, A|]. split; [apply lookup_in, B|reflexivity]. }
  split; [exact R|]. split; [|split].
  - split; [exact D|]. split; [intros dim; rewrite <- OK', <- !keys_in; apply K|].
    intros dim d H. destruct (AT dim d H) as (o & e & A & B & ->). apply update_dict. exact (OV _ _ A).
  - intros dim d c e H He. destruct (AT dim d H) as (o & e' & A & B & ->). apply update_from in He; [|exact (OV _ _ A)]. destruct He; eauto.
  - intros dim d H. assert (Hk : In dim (map fst out)). { apply K. apply (map_ok_keys tdim old); [exact O|]. destruct H as [H|H]; [apply OK'|apply NK]; eauto. }
    apply keys_in in Hk. destruct Hk as [d' Hd']. exists d'. split; [exact Hd'|]. destruct (AT dim d' Hd') as (o & e & A & B & ->). intros c Hc. apply update_keys.
    destruct H as [H|H].
    + left. rewrite <- (dict_fun _ _ _ _ OD H A). exact Hc.
    + right. rewrite <- (dict_fun _ _ _ _ ND H B). exact Hc.
Qed.

(** ** The trace mesh *)

(** [mesh] is mapped by [m'] afterwards. *)
Lemma knows_assign maps tagged mesh m' : dict maps -> forall mesh' dim c e, knows (TraceMesh (Some (assign mesh m' maps)) tagged) mesh' dim c e <->
  (mesh' = mesh /\ exists d, In (dim, d) m' /\ In (c, e) d) \/ (mesh' <> mesh /\ exists em d, In (mesh', em) maps /\ In (dim, d) em /\ In (c, e) d).
Proof.
  intros D mesh' dim c e. unfold knows. cbn. split.
  - intros (maps' & em & d & E & H1 & H2 & H3). injection E as <-. apply assign_in in H1; [|exact D]. destruct H1 as [[-> ->]|[N H1]]; [left; eauto|right; eauto 7].
  - intros [(-> & d & H1 & H2)|(N & em & d & H1 & H2 & H3)].
    + exists (assign mesh m' maps), m', d. split; [reflexivity|]. split; [apply assign_in; auto|auto].
    + exists (assign mesh m' maps), em, d. split; [reflexivity|]. split; [apply assign_in; auto|auto].
Qed.

Section Calls.
Variable tdim : nat.
Variable image : nat -> nat -> nat -> nat.
Variable build : nat -> mesh_function -> list nat -> res entity_map.
Hypothesis SE : searches tdim image build.

Lemma build_map_some mesh sub tags em : build_map build mesh sub tags = Ok em -> exists f, sub = Some f /\ build mesh f tags = Ok em.
Proof. destruct sub as [f|]; cbn; [eauto|discriminate]. Qed.

(** What one call does, whether or not it raises *)
Lemma call_spec mesh tm sub tags : right tdim image tm ->
  right tdim image (fst (get_entity_map build mesh tm sub tags)) /\
  (forall mesh' dim c e, knows tm mesh' dim c e -> knows (fst (get_entity_map build mesh tm sub tags)) mesh' dim c e) /\
  (forall mesh' dim c e, mesh' <> mesh -> knows (fst (get_entity_map build mesh tm sub tags)) mesh' dim c e -> knows tm mesh' dim c e).
Proof.
  intros RI. unfold get_entity_map. set (tg := match tags with None => [0] | Some l => l end). pose proof RI as [W V].
  assert (Z : forall r : res unit, right tdim image (fst (tm, r)) /\ (forall mesh' dim c e, knows tm mesh' dim c e -> knows (fst (tm, r)) mesh' dim c e) /\ (forall mesh' dim c e, mesh' <> mesh -> knows (fst (tm, r)) mesh' dim c e -> knows tm mesh' dim c e)) by (intros r; cbn; auto).
  destruct (t_maps tm) as [maps|] eqn:TM.
  - destruct (W maps eq_refl) as (D & TG & MO). destruct (t_tagged tm) as [tagged|] eqn:TT; [|apply Z].
    assert (KN : forall mesh' dim c e, knows tm mesh' dim c e <-> exists em d, In (mesh', em) maps /\ In (dim, d) em /\ In (c, e) d).
    { intros mesh' dim c e. unfold knows. rewrite TM. split; [intros (maps' & em & d & E & H); injection E as <-; eauto|intros (em & d & H); exists maps, em, d; auto]. }
    destruct (lookup mesh maps) as [old|] eqn:LM.
    + apply lookup_in in LM. pose proof (MO _ _ LM) as OO. destruct (must_compute tagged tg sub old) as [[|]|e]; [|apply Z|apply Z].
      destruct (build_map build mesh sub tg) as [m|e] eqn:BM; [|apply Z]. destruct (build_map_some _ _ _ _ BM) as (f & -> & BF). destruct (SE _ _ _ _ BF) as (MM & MV & _).
      destruct (update_all (map fst old) old m) as [m' r] eqn:UA. destruct (update_map tdim old m m' r OO MM UA) as (_ & M' & FR & TO). cbn [fst]. split; [|split].
      * split.
        -- cbn. intros maps' E. injection E as <-. split; [apply assign_dict, D|]. split; [discriminate|]. intros mesh' em H. apply assign_in in H; [|exact D]. destruct H as [[-> ->]|[_ H]]; [exact M'|exact (MO _ _ H)].
        -- intros mesh' dim c e H. apply knows_assign in H; [|exact D]. destruct H as [(-> & d & H1 & H2)|(_ & em & d & H1 & H2 & H3)].
           ++ destruct (FR _ _ _ _ H1 H2) as (d' & [H3|H3] & H4); [apply V, KN; eauto|exact (MV _ _ _ _ H3 H4)].
           ++ apply V, KN. eauto.
      * intros mesh' dim c e H. pose proof (V _ _ _ _ H) as HE. apply KN in H. destruct H as (em & d & H1 & H2 & H3). apply knows_assign; [exact D|]. destruct (Nat.eq_dec mesh' mesh) as [-> |N]; [|right; eauto 7].
        left. split; [reflexivity|]. rewrite (dict_fun _ _ _ _ D H1 LM) in H2. destruct (TO dim d (or_introl H2)) as (d' & A & B). exists d'. split; [exact A|].
        assert (Hc : In c (map fst d')) by (apply B, keys_in; eauto). apply keys_in in Hc. destruct Hc as [e' He']. destruct (FR _ _ _ _ A He') as (d2 & [H4|H4] & H5).
        -- assert (e' = image mesh dim c) by (apply V, KN; eauto). congruence.
        -- assert (e' = image mesh dim c) by exact (MV _ _ _ _ H4 H5). congruence.
      * intros mesh' dim c e N H. apply knows_assign in H; [|exact D]. apply KN. destruct H as [(-> & _)|(_ & H)]; [contradiction|exact H].
    + destruct (build_map build mesh sub tg) as [m|e] eqn:BM; [|apply Z]. destruct (build_map_some _ _ _ _ BM) as (f & -> & BF). destruct (SE _ _ _ _ BF) as (MM & MV & _). cbn [fst]. split; [|split].
      * split.
        -- cbn. intros maps' E. injection E as <-. split; [apply assign_dict, D|]. split; [discriminate|]. intros mesh' em H. apply assign_in in H; [|exact D]. destruct H as [[-> ->]|[_ H]]; [exact MM|exact (MO _ _ H)].
        -- intros mesh' dim c e H. apply knows_assign in H; [|exact D]. destruct H as [(-> & d & H1 & H2)|(_ & em & d & H1 & H2 & H3)]; [exact (MV _ _ _ _ H1 H2)|apply V, KN; eauto].
      * intros mesh' dim c e H. apply KN in H. destruct H as (em & d & H1 & H2 & H3). apply knows_assign; [exact D|]. right. split; [|eauto]. intros ->. apply lookup_none in LM. apply LM, keys_in. eauto.
      * intros mesh' dim c e N H. apply knows_assign in H; [|exact D]. apply KN. destruct H as [(-> & _)|(_ & H)]; [contradiction|exact H].
  - destruct (build_map build mesh sub tg) as [m|e] eqn:BM; [|apply Z]. destruct (build_map_some _ _ _ _ BM) as (f & -> & BF). destruct (SE _ _ _ _ BF) as (MM & MV & _).
    assert (NK : forall mesh' dim c e, ~ knows tm mesh' dim c e) by (intros mesh' dim c e (maps & em & d & E & _); congruence).
    assert (RS : forall l, right tdim image (TraceMesh (Some [(mesh, m)]) (Some l))).
    { intros l. split.
      - cbn. intros maps E. injection E as <-. split; [constructor; [intros []|constructor]|]. split; [discriminate|]. intros mesh' em [H|[]]. injection H as <- <-. exact MM.
      - intros mesh' dim c e (maps & em & d & E & H1 & H2 & H3). cbn in E. injection E as <-. destruct H1 as [H1|[]]. injection H1 as <- <-. exact (MV _ _ _ _ H2 H3). }
    assert (OTH : forall l mesh' dim c e, mesh' <> mesh -> ~ knows (TraceMesh (Some [(mesh, m)]) l) mesh' dim c e).
    { intros l mesh' dim c e N (maps & em & d & E & H1 & _). cbn in E. injection E as <-. destruct H1 as [H1|[]]. injection H1 as <- <-. contradiction. }
    destruct (t_tagged tm) as [[|t l]|]; cbn [fst]; (split; [apply RS|]); (split; [intros mesh' dim c e H; exfalso; exact (NK _ _ _ _ H)|]); intros mesh' dim c e N H; exfalso; exact (OTH _ _ _ _ _ N H).
Qed.
Lemma calls_spec cs : forall tm, right tdim image tm -> right tdim image (calls build tm cs) /\
  forall mesh dim c e, knows tm mesh dim c e -> knows (calls build tm cs) mesh dim c e.
Proof.
  unfold calls. induction cs as [|[[mesh sub] tags] cs IH]; intros tm RI; cbn [fold_left fst snd]; [auto|].
  destruct (call_spec mesh tm sub tags RI) as (A & B & _). destruct (IH _ A) as [C D]. split; [exact C|]. intros. apply D, B. assumption.
Qed.

(** The cells with the tags are found if a search is made. *)
Lemma searched mesh tm f tags tm' : right tdim image tm -> mf_dim f = tdim -> get_entity_map build mesh tm (Some f) (Some tags) = (tm', Ok tt) ->
  (t_maps tm = None \/ ~ knows_mesh tm mesh \/
   (forall tagged t c, t_tagged tm = Some tagged -> In t tagged -> ~ In t tags -> nth_error (mf_values f) c = Some t -> exists e, knows tm mesh tdim c e)) ->
  forall c tag, nth_error (mf_values f) c = Some tag -> In tag tags -> knows tm' mesh tdim c (image mesh tdim c).
Proof.
  intros RI FD E H c tag Hc Ht.
  assert (Q : exists e, knows tm' mesh tdim c e).
  { unfold get_entity_map in E. destruct (t_maps tm) as [maps|] eqn:TM.
    - pose proof RI as [W V]. destruct (W maps TM) as (D & TG & MO). destruct (t_tagged tm) as [tagged|] eqn:TT; [|congruence]. destruct (lookup mesh maps) as [old|] eqn:LM.
      + apply lookup_in in LM. pose proof (MO _ _ LM) as OO. pose proof OO as (OD & OK' & OV).
        assert (MC : must_compute tagged tags (Some f) old = Ok true).
        { unfold must_compute. destruct (filter _ tagged) as [|t0 needed] eqn:F; [reflexivity|]. destruct (proj2 (OK' tdim) (or_intror eq_refl)) as [d Hd]. rewrite FD, (in_lookup _ _ _ OD Hd). cbn [opt_res bind]. f_equal. apply forallb_forall. intros x Hx.
          apply in_flat_map in Hx. destruct Hx as (t & T1 & T2). rewrite <- F in T1. apply filter_In in T1. destruct T1 as [T1 T3]. apply Bool.negb_true_iff in T3.
          unfold where_equal in T2. apply filter_In in T2. destruct T2 as [T4 T5]. apply Nat.eqb_eq in T5. apply in_seq in T4.
          assert (XE : exists e, knows tm mesh tdim x e).
          { destruct H as [H|[H|H]]; [discriminate H|exfalso; apply H; exists maps, old; auto|]. apply (H tagged t x); try assumption; [reflexivity| |].
            - intros I. apply memb_in in I. congruence.
            - rewrite <- T5. apply nth_error_nth'. lia. }
          destruct XE as (e & maps' & em & d' & X1 & X2 & X3 & X4). assert (maps' = maps) as -> by congruence. rewrite (dict_fun _ _ _ _ D X2 LM) in X3. rewrite (dict_fun _ _ _ _ OD X3 Hd) in X4. apply memb_in, keys_in. eauto. }
        rewrite MC in E. destruct (build_map build mesh (Some f) tags) as [m|e] eqn:BM; [|discriminate]. destruct (SE _ _ _ _ BM) as (MM & MV & MT). destruct (update_all (map fst old) old m) as [m' r] eqn:UA. injection E as <- ->.
        destruct (update_map tdim old m m' (Ok tt) OO MM UA) as (_ & M' & FR & TO). destruct (proj2 (proj1 (proj2 MM) tdim) (or_intror eq_refl)) as [d Hd]. destruct (MT d c tag Hd Hc Ht) as [e He].
        destruct (TO tdim d (or_intror Hd)) as (d' & A & B). assert (Hk : In c (map fst d')) by (apply B, keys_in; eauto). apply keys_in in Hk. destruct Hk as [e' He']. exists e'. apply knows_assign; [exact D|]. left. eauto.
      + destruct (build_map build mesh (Some f) tags) as [m|e] eqn:BM; [|discriminate]. destruct (SE _ _ _ _ BM) as (MM & MV & MT). injection E as <-. destruct (proj2 (proj1 (proj2 MM) tdim) (or_intror eq_refl)) as [d Hd]. destruct (MT d c tag Hd Hc Ht) as [e He]. exists e. apply knows_assign; [exact D|]. left. eauto.
    - destruct (build_map build mesh (Some f) tags) as [m|e] eqn:BM; [|discriminate]. destruct (SE _ _ _ _ BM) as (MM & MV & MT). destruct (proj2 (proj1 (proj2 MM) tdim) (or_intror eq_refl)) as [d Hd]. destruct (MT d c tag Hd Hc Ht) as [e He].
      exists e, [(mesh, m)], m, d. split; [destruct (t_tagged tm) as [[|]|]; injection E as <-; reflexivity || discriminate|]. split; [left; reflexivity|auto]. }
  destruct Q as [e Q]. pose proof (proj1 (call_spec mesh tm (Some f) (Some tags) RI)) as RI'. rewrite E in RI'. rewrite <- (proj2 RI' _ _ _ _ Q). exact Q.
Qed.

(** A call that has returned does not raise AssertionError or IndexError when made again. *)
Lemma call_again mesh tm f tags tm' : right tdim image tm -> get_entity_map build mesh tm (Some f) (Some tags) = (tm', Ok tt) ->
  forall e, snd (get_entity_map build mesh tm' (Some f) (Some tags)) = Err e -> e = KeyError.
Proof.
  intros RI E e. pose proof (proj1 (call_spec mesh tm (Some f) (Some tags) RI)) as RI'. rewrite E in RI'. cbn [fst] in RI'.
  assert (AG : (exists em, build mesh f tags = Ok em) -> forall e, snd (get_entity_map build mesh tm' (Some f) (Some tags)) = Err e -> t_maps tm' <> None -> knows_mesh tm' mesh -> e = KeyError).
  { intros [em BE] e' X NN KM. unfold get_entity_map in X. destruct (t_maps tm') as [maps|] eqn:TM; [|congruence]. destruct RI' as [W V]. destruct (W maps TM) as (D & TG & MO). destruct (t_tagged tm') as [tagged|]; [|congruence].
    destruct (lookup mesh maps) as [old|] eqn:LM.
    - apply lookup_in in LM. destruct (must_compute tagged tags (Some f) old) as [[|]|e2] eqn:MC.
      + cbn [build_map] in X. rewrite BE in X. destruct (SE _ _ _ _ BE) as (MM & _). destruct (update_all (map fst old) old em) as [m' r] eqn:UA. destruct (update_map tdim old em m' r (MO _ _ LM) MM UA) as (-> & _). discriminate X.
      + discriminate X.
      + cbn in X. unfold must_compute in MC. destruct (filter _ tagged); [discriminate|]. destruct (lookup (mf_dim f) old); cbn in MC; congruence.
    - destruct KM as (maps' & em' & K1 & K2). assert (maps' = maps) as -> by congruence. exfalso. apply lookup_none in LM. apply LM, keys_in. eauto. }
  intros X. unfold get_entity_map in E. destruct (t_maps tm) as [maps|] eqn:TM.
  - destruct RI as [W V]. destruct (W maps TM) as (D & TG & MO). destruct (t_tagged tm) as [tagged|] eqn:TT; [|congruence]. destruct (lookup mesh maps) as [old|] eqn:LM.
    + destruct (must_compute tagged tags (Some f) old) as [[|]|e2] eqn:MC; [| |discriminate].
      * destruct (build_map build mesh (Some f) tags) as [m|] eqn:BM; [|discriminate]. destruct (update_all (map fst old) old m) as [m' r] eqn:UA. injection E as <- ->. apply (AG (ex_intro _ m BM) e X); [discriminate|]. eexists. exists m'. split; [reflexivity|]. apply assign_in; auto.
      * injection E as <-. unfold get_entity_map in X. rewrite TM, TT, LM, MC in X. discriminate X.
    + destruct (build_map build mesh (Some f) tags) as [m|] eqn:BM; [|discriminate]. injection E as <-. apply (AG (ex_intro _ m BM) e X); [discriminate|]. eexists. exists m. split; [reflexivity|]. apply assign_in; auto.
  - destruct (build_map build mesh (Some f) tags) as [m|] eqn:BM; [|discriminate]. assert (E' : tm' = TraceMesh (Some [(mesh, m)]) (Some tags)) by (destruct (t_tagged tm) as [[|]|]; congruence).
    apply (AG (ex_intro _ m BM) e X); rewrite E'; [discriminate|]. eexists. exists m. split; [reflexivity|]. left. reflexivity.
Qed.
End Calls.

(** The search is not made if a cell with another known tag is missing. *)
Lemma skipped build mesh tm f tags maps em d tagged t c : t_maps tm = Some maps -> dict maps -> In (mesh, em) maps -> dict em -> In (mf_dim f, d) em -> t_tagged tm = Some tagged ->
  In t tagged -> ~ In t tags -> nth_error (mf_values f) c = Some t -> (forall e, ~ In (c, e) d) -> get_entity_map build mesh tm (Some f) (Some tags) = (tm, Ok tt).
Proof.
  intros TM D IM DE ID TT T1 T2 HC NC. unfold get_entity_map. rewrite TM, TT, (in_lookup _ _ _ D IM). unfold must_compute.
  assert (TF : In t (filter (fun t => negb (memb t tags)) tagged)). { apply filter_In. split; [exact T1|]. destruct (memb t tags) eqn:M; [apply memb_in in M; contradiction|reflexivity]. }
  destruct (filter _ tagged) as [|t0 needed]; [destruct TF|]. rewrite (in_lookup _ _ _ DE ID). cbn [opt_res bind].
  destruct (forallb _ _) eqn:F; [|reflexivity]. exfalso. rewrite forallb_forall in F.
  assert (X : memb c (map fst d) = true).
  { apply F, in_flat_map. exists t. split; [exact TF|]. unfold where_equal. apply filter_In. split; [apply in_seq; assert (c < length (mf_values f)) by (apply nth_error_Some; congruence); lia|]. apply Nat.eqb_eq, nth_error_nth, HC. }
  apply memb_in, keys_in in X. destruct X as [e He]. exact (NC e He).
Qed.
