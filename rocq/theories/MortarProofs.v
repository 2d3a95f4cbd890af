(** Specification vocabulary and proofs for MortarModel.v. *)
From Verif Require Import Base BaseProofs FillModel FillProofs PatchProofs EmbedModel EmbedProofs TransferProofs MortarModel.
Local Open Scope nat_scope.
Local Close Scope Q_scope.
Local Close Scope Qc_scope.

(** ** Specification *)

(** Facet [f] is shared by the cells [c0] and [c1] of subdomains [t0] < [t1]. *)
Definition between (sub markers : list nat) (f2c : list (list nat)) (f t0 t1 c0 c1 : nat) : Prop :=
  (nth_error f2c f = Some [c0; c1] \/ nth_error f2c f = Some [c1; c0]) /\ nth_error sub c0 = Some t0 /\ nth_error sub c1 = Some t1 /\ t0 < t1 /\ In t0 markers /\ In t1 markers.
(** Facets and cells know each other, a facet has at most two cells. *)
Record mesh_ok (sub : list nat) (f2c c2f : list (list nat)) : Prop := {
  mo_tagged : length sub = length c2f;
  mo_cells : forall f cs c, nth_error f2c f = Some cs -> In c cs -> exists fs, nth_error c2f c = Some fs /\ In f fs;
  mo_back : forall c fs f, nth_error c2f c = Some fs -> In f fs -> exists cs, nth_error f2c f = Some cs /\ In c cs;
  mo_two : forall f cs, nth_error f2c f = Some cs -> NoDup cs /\ length cs <= 2 }.
(** What is claimed of the result, but for the maps to the submeshes *)
Record interface_ok (sub markers : list nat) (f2c : list (list nat)) (facets : list nat) (r : mortar) : Prop := {
  io_once : NoDup (mo_facets r);
  io_facets : forall f, In f (mo_facets r) <-> In f facets /\ exists t0 t1 c0 c1, between sub markers f2c f t0 t1 c0 c1;
  io_colors : length (mo_colors r) = length (mo_facets r);
  io_tags : forall k f t0 t1 c0 c1, nth_error (mo_facets r) k = Some f -> between sub markers f2c f t0 t1 c0 c1 ->
    exists color, nth_error (mo_colors r) k = Some color /\ nth_error (mo_tags r) color = Some (t0, t1) /\
    exists i0 i1, nth_error (mo_color_map r) color = Some [i0; i1] /\ nth_error markers i0 = Some t0 /\ nth_error markers i1 = Some t1 }.
(** The map of the submesh [t] sends the interface cell [k] to the facet it is. *)
Definition cell_paired (r : mortar) (k f t : nat) : Prop := mo_map r t k = Some f.
Definition all_paired (sub markers : list nat) (f2c : list (list nat)) (r : mortar) : Prop :=
  forall k f t0 t1 c0 c1, nth_error (mo_facets r) k = Some f -> between sub markers f2c f t0 t1 c0 c1 -> cell_paired r k f t0 /\ cell_paired r k f t1.

(** ** tagged_iface *)
Lemma key_eqb_eq a b : key_eqb a b = true <-> a = b.
Proof. destruct a, b. unfold key_eqb. cbn. rewrite andb_true_iff, !Nat.eqb_eq. split; [intros [-> ->]; reflexivity|intros [= -> ->]; auto]. Qed.
Lemma assign_In d k v k' v' : In (k', v') (assign d k v) -> (k' = k /\ v' = v) \/ (k' <> k /\ In (k', v') d) \/ (In (k', v') d /\ In k' (map fst d)).
Proof.
  induction d as [|[a b] d IH]; cbn; [intros [[= <- <-]|[]]; auto|]. destruct (Nat.eqb_spec a k) as [->|N]; cbn.
  - intros [[= <- <-]|H]; [auto|]. right. right. split; [auto|]. right. apply in_map_iff. exists (k', v'). auto.
  - intros [[= <- <-]|H]; [right; left; split; [congruence|auto]|]. destruct (IH H) as [?|[[? ?]|[? ?]]]; auto.
Qed.
Lemma assign_keys d k v x : In x (map fst (assign d k v)) <-> x = k \/ In x (map fst d).
Proof.
  induction d as [|[a b] d IH]; cbn; [intuition congruence|]. destruct (Nat.eqb_spec a k) as [->|N]; cbn; [intuition congruence|]. rewrite IH. intuition congruence.
Qed.
Lemma assign_NoDup d k v : NoDup (map fst d) -> NoDup (map fst (assign d k v)).
Proof.
  induction d as [|[a b] d IH]; cbn; intros N; [constructor; [intros []|constructor]|]. inversion N as [|? ? N1 N2]; subst. destruct (Nat.eqb_spec a k) as [->|NE]; cbn; [constructor; assumption|].
  constructor; [|apply IH; exact N2]. rewrite assign_keys. intuition congruence.
Qed.
Lemma lookup_In d k v : lookup d k = Some v -> In (k, v) d.
Proof. induction d as [|[a b] d IH]; cbn; [discriminate|]. destruct (Nat.eqb_spec a k) as [->|]; [intros [= ->]; auto|auto]. Qed.
Lemma lookup_some d k : In k (map fst d) -> exists v, lookup d k = Some v.
Proof. induction d as [|[a b] d IH]; cbn; [intros []|]. destruct (Nat.eqb_spec a k) as [->|]; [eauto|]. intros [H|H]; [congruence|auto]. Qed.
Lemma tag_add_keys d k f v x : In x (map fst (tag_add d k f v)) <-> x = k \/ In x (map fst d).
Proof.
  assert (Q : x = k <-> k = x) by (split; auto). rewrite Q. clear Q. induction d as [|[a b] d IH]; cbn [tag_add map fst In]; [tauto|]. destruct (key_eqb a k) eqn:E.
  - apply key_eqb_eq in E. subst a. cbn [map fst In]. tauto.
  - cbn [map fst In]. rewrite IH. tauto.
Qed.
Lemma tag_add_NoDup d k f v : NoDup (map fst d) -> NoDup (map fst (tag_add d k f v)).
Proof.
  induction d as [|[a b] d IH]; cbn [tag_add map fst]; intros N; [constructor; [intros []|constructor]|]. inversion N as [|? ? N1 N2]; subst. destruct (key_eqb a k) eqn:E; cbn [map fst]; [constructor; assumption|].
  constructor; [|apply IH; exact N2]. rewrite tag_add_keys. intros [->|H]; [|contradiction]. rewrite (proj2 (key_eqb_eq k k) eq_refl) in E. discriminate.
Qed.
Lemma tag_add_In d k f v k' p' : NoDup (map fst d) -> In (k', p') (tag_add d k f v) ->
  (k' <> k /\ In (k', p') d) \/ (k' = k /\ exists p, (In (k, p) d \/ p = [] /\ ~ In k (map fst d)) /\ p' = assign p f v).
Proof.
  induction d as [|[a b] d IH]; cbn [tag_add map fst]; intros N H.
  - destruct H as [[= <- <-]|[]]. right. split; [reflexivity|]. exists []. cbn. auto.
  - inversion N as [|? ? N1 N2]; subst. destruct (key_eqb a k) eqn:E.
    + apply key_eqb_eq in E. subst a. destruct H as [[= <- <-]|H]; [right; split; [reflexivity|]; exists b; split; [left; left; reflexivity|reflexivity]|].
      left. split; [|right; exact H]. intros ->. apply N1. apply in_map_iff. exists (k, p'). auto.
    + assert (NE : a <> k) by (intros ->; rewrite (proj2 (key_eqb_eq k k) eq_refl) in E; discriminate). destruct H as [[= <- <-]|H]; [left; split; [exact NE|left; reflexivity]|].
      destruct (IH N2 H) as [[A B]|[A [p [[B|[B C]] D]]]]; [left; split; [exact A|right; exact B]|right; split; [exact A|exists p; split; [left; right; exact B|exact D]]|].
      right. split; [exact A|]. exists p. split; [right; split; [exact B|]|exact D]. intros [G|G]; contradiction.
Qed.

Lemma tag_add_ne d k f v : (forall k p, In (k, p) d -> p <> []) -> forall k' p', In (k', p') (tag_add d k f v) -> p' <> [].
Proof.
  induction d as [|[a b] d IH]; cbn [tag_add]; intros H k' p'.
  - intros [[= <- <-]|[]]. discriminate.
  - destruct (key_eqb a k); intros [[= <- <-]|I].
    + destruct b as [|[x y] b]; cbn; [discriminate|]. destruct (x =? f); discriminate.
    + apply (H k' p'). right. exact I.
    + apply (H a b). left. reflexivity.
    + apply (IH (fun k p J => H k p (or_intror J)) k' p' I).
Qed.

Record tinv (ent : nat -> option ((nat * nat) * (nat * nat))) (done : list nat) (d : list ((nat * nat) * list (nat * (nat * nat)))) : Prop := {
  ti_keys : NoDup (map fst d);
  ti_in : forall k p f, In (k, p) d -> (In f (map fst p) <-> In f done /\ exists v, ent f = Some (k, v));
  ti_val : forall k p f v, In (k, p) d -> In (f, v) p -> ent f = Some (k, v);
  ti_all : forall f k v, In f done -> ent f = Some (k, v) -> In k (map fst d) }.
Lemma tinv_add ent done d f k v : tinv ent done d -> ent f = Some (k, v) -> tinv ent (done ++ [f]) (tag_add d k f v).
Proof.
  intros [K I V A] E. constructor.
  - apply tag_add_NoDup. exact K.
  - intros k' p' x H. apply tag_add_In in H; [|exact K]. rewrite in_app_iff. cbn [In]. destruct H as [[NE H]|[-> [p [H ->]]]].
    + rewrite (I k' p' x H). split; [intros [D ?]; auto|]. intros [[D|[->|[]]] [w W]]; [eauto|]. congruence.
    + rewrite assign_keys. destruct H as [H|[-> H]].
      * rewrite (I k p x H). split; [intros [->|[? ?]]; [split; [auto|eauto]|auto]|]. intros [[D|[->|[]]] W]; auto.
      * cbn. split; [intros [->|[]]; split; [auto|eauto]|]. intros [[D|[->|[]]] [w W]]; [exfalso; apply H; eapply A; eauto|auto].
  - intros k' p' x w H J. apply tag_add_In in H; [|exact K]. destruct H as [[NE H]|[-> [p [H ->]]]]; [eapply V; eauto|]. apply assign_In in J.
    destruct J as [[-> ->]|J]; [exact E|]. assert (J' : In (x, w) p) by (destruct J as [[_ J]|[J _]]; exact J). destruct H as [H|[-> H]]; [eapply V; eauto|destruct J'].
  - intros x k' w D W. apply tag_add_keys. apply in_app_iff in D. destruct D as [D|[<-|[]]]; [right; eapply A; eauto|left; congruence].
Qed.
Lemma tinv_skip ent done d f : tinv ent done d -> ent f = None -> tinv ent (done ++ [f]) d.
Proof.
  intros [K I V A] E. constructor; [exact K| |exact V|].
  - intros k p x H. rewrite (I k p x H), in_app_iff. cbn [In]. split; [intros [? ?]; auto|]. intros [[D|[->|[]]] [w W]]; [eauto|congruence].
  - intros x k w D W. apply in_app_iff in D. destruct D as [D|[<-|[]]]; [eapply A; eauto|congruence].
Qed.
Definition entry_of sub markers f2c f := match iface_entry sub markers f2c f with Ok e => e | Err _ => None end.
Lemma tagged_ok sub markers f2c facets : (forall f, In f facets -> exists e, iface_entry sub markers f2c f = Ok e) ->
  exists d, tagged_iface sub markers f2c facets = Ok d /\ tinv (entry_of sub markers f2c) facets d.
Proof.
  intros H. unfold tagged_iface. assert (G : forall fs done d, (forall f, In f fs -> exists e, iface_entry sub markers f2c f = Ok e) -> tinv (entry_of sub markers f2c) done d ->
    exists d', foldM (fun d facet => do e <- iface_entry sub markers f2c facet; Ok (match e with Some (k, v) => tag_add d k facet v | None => d end)) fs d = Ok d' /\ tinv (entry_of sub markers f2c) (done ++ fs) d').
  { clear H. induction fs as [|f fs IH]; intros done d H T; cbn [foldM]; [exists d; rewrite app_nil_r; auto|]. destruct (H f (or_introl eq_refl)) as [e E]. rewrite E. cbn [bind].
    replace (done ++ f :: fs) with ((done ++ [f]) ++ fs) by (rewrite <- app_assoc; reflexivity). apply IH; [intros g G; apply H; right; exact G|].
    assert (EO : entry_of sub markers f2c f = e) by (unfold entry_of; rewrite E; reflexivity). destruct e as [[k v]|]; [apply tinv_add; assumption|apply tinv_skip; assumption]. }
  apply (G facets [] []); [exact H|]. constructor; [constructor|intros ? ? ? []|intros ? ? ? ? []|intros ? ? ? []].
Qed.
Lemma entry_spec sub markers f2c c2f f t0 t1 c0 c1 : mesh_ok sub f2c c2f -> (entry_of sub markers f2c f = Some ((t0, t1), (c0, c1)) <-> between sub markers f2c f t0 t1 c0 c1).
Proof.
  intros M. assert (SUB : forall cs c, nth_error f2c f = Some cs -> In c cs -> nth_error sub c = Some (nth c sub 0)).
  { intros cs c E I. destruct (mo_cells _ _ _ M f cs c E I) as [fs [F _]]. apply nth_error_nth'. rewrite (mo_tagged _ _ _ M). apply nth_error_Some. congruence. }
  unfold entry_of, iface_entry, between. destruct (nth_error f2c f) as [cs|] eqn:E.
  - rewrite (nth_error_nth _ _ [] E). destruct cs as [|a [|b [|c cs]]]; try (split; [discriminate|intros [[[=]|[=]] _]]).
    destruct (negb (nth a sub 0 =? nth b sub 0) && existsb (Nat.eqb (nth a sub 0)) markers && existsb (Nat.eqb (nth b sub 0)) markers) eqn:B.
    + apply andb_true_iff in B. destruct B as [B B3]. apply andb_true_iff in B. destruct B as [B1 B2]. apply existsb_nat in B2, B3. apply negb_true_iff, Nat.eqb_neq in B1.
      assert (SA := SUB _ a eq_refl (or_introl eq_refl)). assert (SB := SUB _ b eq_refl (or_intror (or_introl eq_refl))). split.
      * destruct (Nat.ltb_spec (nth a sub 0) (nth b sub 0)); intros [= <- <- <- <-]; repeat split; auto; lia.
      * intros [[[= -> ->]|[= -> ->]] [S0 [S1 [L [I0 I1]]]]]; rewrite S0 in *; rewrite S1 in *; injection SA as SA; injection SB as SB; rewrite <- SA, <- SB.
        -- destruct (Nat.ltb_spec t0 t1); [reflexivity|lia].
        -- destruct (Nat.ltb_spec t1 t0); [lia|reflexivity].
    + split; [discriminate|]. intros [E' [S0 [S1 [L [I0 I1]]]]]. exfalso. apply existsb_nat in I0, I1. apply nth_error_nth with (d := 0) in S0, S1.
      assert (NE : (t0 =? t1) = false) by (apply Nat.eqb_neq; lia). assert (NE' : (t1 =? t0) = false) by (apply Nat.eqb_neq; lia).
      destruct E' as [[= -> ->]|[= -> ->]]; rewrite S0, S1, I0, I1 in B; [rewrite NE in B|rewrite NE' in B]; discriminate.
  - rewrite nth_overflow by (apply nth_error_None; exact E). split; [discriminate|]. intros [[[=]|[=]] _].
Qed.
Lemma between_fun sub markers f2c c2f f t0 t1 c0 c1 t0' t1' c0' c1' : mesh_ok sub f2c c2f -> between sub markers f2c f t0 t1 c0 c1 -> between sub markers f2c f t0' t1' c0' c1' -> (t0, t1, c0, c1) = (t0', t1', c0', c1').
Proof. intros M A B. apply (entry_spec _ _ _ _ _ _ _ _ _ M) in A, B. congruence. Qed.
Lemma entry_total sub markers f2c c2f f : mesh_ok sub f2c c2f -> exists e, iface_entry sub markers f2c f = Ok e.
Proof.
  intros M. unfold iface_entry. destruct (nth_error f2c f) as [cs|] eqn:E.
  - rewrite (nth_error_nth _ _ [] E). destruct (mo_two _ _ _ M f cs E) as [_ L]. destruct cs as [|a [|b [|c cs]]]; cbn in L; try lia; try (eexists; reflexivity). destruct (_ && _); eexists; reflexivity.
  - rewrite nth_overflow by (apply nth_error_None; exact E). eexists. reflexivity.
Qed.

(** ** Colouring of the facets *)
Definition paint (l : list (nat * ((nat * nat) * list (nat * (nat * nat))))) (v : list nat) : list nat :=
  fold_left (fun v (cp : nat * ((nat * nat) * list (nat * (nat * nat)))) => set_all_at v (map fst (snd (snd cp))) (fst cp)) l v.
Lemma paint_length l v : length (paint l v) = length v.
Proof. unfold paint. revert v. induction l as [|cp l IH]; intros v; cbn [fold_left]; [reflexivity|]. rewrite IH. apply set_all_at_length. Qed.
Lemma paint_miss l v j : (forall cp, In cp l -> ~ In j (map fst (snd (snd cp)))) -> nth j (paint l v) 0 = nth j v 0.
Proof.
  unfold paint. revert v. induction l as [|cp l IH]; intros v H; cbn [fold_left]; [reflexivity|]. rewrite IH by (intros; apply H; right; assumption). rewrite set_all_at_nth.
  destruct (existsb (Nat.eqb j) (map fst (snd (snd cp)))) eqn:E; [|reflexivity]. apply existsb_nat in E. exfalso. exact (H cp (or_introl eq_refl) E).
Qed.
Lemma paint_hit l v j c : j < length v -> (forall cp, In cp l -> In j (map fst (snd (snd cp))) -> fst cp = c) -> (exists cp, In cp l /\ In j (map fst (snd (snd cp)))) -> nth j (paint l v) 0 = c.
Proof.
  revert v. induction l as [|cp l IH]; intros v J U [cp0 [H I]]; [destruct H|]. change (nth j (paint l (set_all_at v (map fst (snd (snd cp))) (fst cp))) 0 = c).
  destruct (existsb (fun cp' : nat * ((nat * nat) * list (nat * (nat * nat))) => existsb (Nat.eqb j) (map fst (snd (snd cp')))) l) eqn:E.
  - apply existsb_exists in E. destruct E as [cp1 [E1 E2]]. apply existsb_nat in E2. apply IH; [rewrite set_all_at_length; exact J|intros cp' H'; apply U; right; exact H'|eauto].
  - assert (N : forall cp', In cp' l -> ~ In j (map fst (snd (snd cp')))).
    { intros cp' H' J'. assert (X : existsb (fun cp' : nat * ((nat * nat) * list (nat * (nat * nat))) => existsb (Nat.eqb j) (map fst (snd (snd cp')))) l = true) by (apply existsb_exists; exists cp'; split; [exact H'|apply existsb_nat; exact J']). congruence. }
    rewrite paint_miss by exact N. destruct H as [<-|H]; [|exfalso; exact (N cp0 H I)]. rewrite set_all_at_nth. apply existsb_nat in I. rewrite I. apply Nat.ltb_lt in J. rewrite J. cbn [andb]. apply U; [left; reflexivity|]. apply existsb_nat. exact I.
Qed.
Lemma combine_seq_nth {A} (l : list A) c x : In (c, x) (combine (seq 0 (length l)) l) <-> nth_error l c = Some x.
Proof.
  split.
  - intros H. apply In_nth_error in H. destruct H as [k H]. rewrite nth_error_combine in H. destruct (nth_error (seq 0 (length l)) k) as [c'|] eqn:E; [|discriminate]. destruct (nth_error l k) as [x'|] eqn:F; [|discriminate]. injection H as -> ->.
    assert (L : k < length l) by (apply nth_error_Some; congruence). rewrite (nth_error_nth' _ 0) in E by (rewrite seq_length; exact L). rewrite seq_nth in E by exact L. injection E as <-. exact F.
  - intros H. assert (L : c < length l) by (apply nth_error_Some; congruence). apply nth_error_In with (n := c). rewrite nth_error_combine, H. rewrite (nth_error_nth' _ 0) by (rewrite seq_length; exact L). rewrite seq_nth by exact L. reflexivity.
Qed.
Lemma NoDup_keys_nth {A B} (d : list (A * B)) c c' k p p' : NoDup (map fst d) -> nth_error d c = Some (k, p) -> nth_error d c' = Some (k, p') -> c = c'.
Proof.
  intros N A1 A2. eapply NoDup_nth_error; [exact N|apply nth_error_Some; rewrite nth_error_map, A1; discriminate|]. rewrite !nth_error_map, A1, A2. reflexivity.
Qed.
Lemma painted ent facets d n f : tinv ent facets d -> (forall f, ent f <> None -> f < n) ->
  forall c, c < length d -> (nth_error (paint (combine (seq 0 (length d)) d) (repeat (length d) n)) f = Some c <-> In f facets /\ exists k v p, nth_error d c = Some (k, p) /\ ent f = Some (k, v)).
Proof.
  intros T BD c C. set (l := combine (seq 0 (length d)) d). split.
  - intros H. apply nth_error_nth0 in H. rewrite paint_length, repeat_length in H. destruct H as [FN H].
    destruct (existsb (fun cp' : nat * ((nat * nat) * list (nat * (nat * nat))) => existsb (Nat.eqb f) (map fst (snd (snd cp')))) l) eqn:E.
    + apply existsb_exists in E. destruct E as [[c1 [k p]] [E1 E2]]. apply existsb_nat in E2. cbn [snd] in E2. pose proof E1 as E3. apply combine_seq_nth in E3.
      apply (ti_in _ _ _ T k p f (nth_error_In _ _ E3)) in E2 as E4. destruct E4 as [F [v V]].
      assert (X : nth f (paint l (repeat (length d) n)) 0 = c1). { apply paint_hit; [rewrite repeat_length; exact FN| |exists (c1, (k, p)); auto]. intros [c2 [k' p']] I J. cbn [snd fst] in *. apply combine_seq_nth in I. apply (ti_in _ _ _ T k' p' f (nth_error_In _ _ I)) in J. destruct J as [_ [v' V']]. assert (k' = k) by congruence. subst k'. eapply NoDup_keys_nth; [apply (ti_keys _ _ _ T)|exact I|exact E3]. }
      rewrite X in H. subst c1. split; [exact F|]. exists k, v, p. auto.
    + exfalso. rewrite paint_miss in H. { rewrite nth_repeat_in in H by exact FN. lia. } intros cp' H' J'. assert (X : existsb (fun cp' : nat * ((nat * nat) * list (nat * (nat * nat))) => existsb (Nat.eqb f) (map fst (snd (snd cp')))) l = true) by (apply existsb_exists; exists cp'; split; [exact H'|apply existsb_nat; exact J']). congruence.
  - intros [F [k [v [p [D V]]]]]. apply nth_error_nth0. rewrite paint_length, repeat_length. assert (FN : f < n) by (apply BD; congruence). split; [exact FN|]. apply paint_hit; [rewrite repeat_length; exact FN| |].
    + intros [c2 [k' p']] I J. cbn [snd fst] in *. apply combine_seq_nth in I. apply (ti_in _ _ _ T k' p' f (nth_error_In _ _ I)) in J. destruct J as [_ [v' V']]. assert (k' = k) by congruence. subst k'. eapply NoDup_keys_nth; [apply (ti_keys _ _ _ T)|exact I|exact D].
    + exists (c, (k, p)). split; [apply combine_seq_nth; exact D|]. cbn [snd]. apply (ti_in _ _ _ T k p f (nth_error_In _ _ D)). eauto.
Qed.

(** ** The maps to the submeshes *)
Section Pairing.
Variables (en : list nat -> list nat) (sub : list nat) (c2f : list (list nat)) (iface : list nat).
Let find := find_facet en sub c2f.
Let step := pair_cell en sub c2f iface.
Notation job := (((nat * nat) * list (nat * (nat * nat))) * nat)%type.
(** the submesh [t] and the facet and cell looked for when [j] is treated *)
Definition looks (j : job) (t f gc : nat) : Prop := exists gcs, nth_error iface (snd j) = Some f /\ lookup (snd (fst j)) f = Some gcs /\
  (t = fst (fst (fst j)) /\ gc = fst gcs \/ t = snd (fst (fst j)) /\ gc = snd gcs).
Lemma find_value f t gc v : find f t gc = Ok (Some v) -> v = f.
Proof. unfold find, find_facet. destruct (position gc _); cbn [bind]; [|discriminate]. destruct (existsb _ _); congruence. Qed.
Lemma update_same m t c v : update m t c v t c = v.
Proof. unfold update. rewrite !Nat.eqb_refl. reflexivity. Qed.
Lemma step_inv m j m' : step m j = Ok m' -> exists f gcs v0 v1, nth_error iface (snd j) = Some f /\ lookup (snd (fst j)) f = Some gcs /\
  find f (fst (fst (fst j))) (fst gcs) = Ok v0 /\ find f (snd (fst (fst j))) (snd gcs) = Ok v1 /\
  m' = (let m := match v0 with Some _ => update m (fst (fst (fst j))) (snd j) v0 | None => m end in match v1 with Some _ => update m (snd (fst (fst j))) (snd j) v1 | None => m end).
Proof.
  destruct j as [[tags ps] cell]. unfold step, pair_cell. cbn [fst snd]. destruct (nth_error iface cell) as [f|] eqn:E1; cbn [opt_res bind]; [|discriminate]. destruct (lookup ps f) as [gcs|] eqn:E2; cbn [opt_res bind]; [|discriminate].
  fold find. destruct (find f (fst tags) (fst gcs)) as [v0|] eqn:F0; cbn [bind]; [|discriminate]. destruct (find f (snd tags) (snd gcs)) as [v1|] eqn:F1; cbn [bind]; [|discriminate]. intros [= <-]. exists f, gcs, v0, v1. auto 10.
Qed.
Lemma update_some m t c x t' c' v : (match x with Some _ => update m t c x | None => m end) t' c' = Some v -> m t' c' = Some v \/ (t' = t /\ c' = c /\ x = Some v).
Proof. destruct x as [y|]; [|auto]. unfold update. destruct (Nat.eqb_spec t' t) as [->|], (Nat.eqb_spec c' c) as [->|]; cbn; auto. Qed.
Lemma update_mono m t c x t' c' v : m t' c' = Some v -> exists v', (match x with Some _ => update m t c x | None => m end) t' c' = Some v'.
Proof. destruct x as [y|]; [|eauto]. unfold update. destruct ((t' =? t) && (c' =? c)); eauto. Qed.
Lemma pairing_sound jobs m0 m t k v : foldM step jobs m0 = Ok m -> m t k = Some v -> m0 t k = Some v \/ exists j gc, In j jobs /\ snd j = k /\ looks j t v gc /\ find v t gc = Ok (Some v).
Proof.
  revert m0. induction jobs as [|j jobs IH]; intros m0 F M; cbn [foldM] in F; [injection F as ->; auto|]. destruct (step m0 j) as [m1|] eqn:S'; [|discriminate]. cbn [bind] in F.
  destruct (IH m1 F M) as [H|[j' [gc [A B]]]]; [|right; exists j', gc; split; [right; exact A|exact B]]. apply step_inv in S'. destruct S' as [f [gcs [v0 [v1 [E1 [E2 [F0 [F1 ->]]]]]]]]. cbn zeta in H.
  apply update_some in H. destruct H as [H|[-> [-> ->]]]; [apply update_some in H; destruct H as [H|[-> [-> ->]]]; [auto|]|].
  - pose proof (find_value _ _ _ _ F0) as ->. right. exists j, (fst gcs). split; [left; reflexivity|split; [reflexivity|split; [exists gcs; auto|exact F0]]].
  - pose proof (find_value _ _ _ _ F1) as ->. right. exists j, (snd gcs). split; [left; reflexivity|split; [reflexivity|split; [exists gcs; auto|exact F1]]].
Qed.
Lemma pairing_mono jobs m0 m t k v : foldM step jobs m0 = Ok m -> m0 t k = Some v -> exists v', m t k = Some v'.
Proof.
  revert m0 v. induction jobs as [|j jobs IH]; intros m0 v F M; cbn [foldM] in F; [injection F as <-; eauto|]. destruct (step m0 j) as [m1|] eqn:S'; [|discriminate]. cbn [bind] in F.
  apply step_inv in S'. destruct S' as [f [gcs [v0 [v1 [E1 [E2 [F0 [F1 ->]]]]]]]]. destruct (update_mono m0 (fst (fst (fst j))) (snd j) v0 t k v M) as [v' M']. destruct (update_mono _ (snd (fst (fst j))) (snd j) v1 t k v' M') as [v'' M'']. eapply IH; [exact F|exact M''].
Qed.
Lemma pairing_complete jobs m0 m j t f gc : foldM step jobs m0 = Ok m -> In j jobs -> looks j t f gc -> find f t gc = Ok (Some f) -> exists v, m t (snd j) = Some v.
Proof.
  revert m0. induction jobs as [|j' jobs IH]; intros m0 F I L G; [destruct I|]. cbn [foldM] in F. destruct (step m0 j') as [m1|] eqn:S'; [|discriminate]. cbn [bind] in F. destruct I as [->|I]; [|eapply IH; eauto].
  apply step_inv in S'. destruct S' as [f' [gcs [v0 [v1 [E1 [E2 [F0 [F1 ->]]]]]]]]. destruct L as [gcs' [L1 [L2 L3]]]. assert (f' = f) by congruence. subst f'. assert (gcs' = gcs) by congruence. subst gcs'.
  destruct L3 as [[-> ->]|[-> ->]].
  - assert (v0 = Some f) by congruence. subst v0. destruct (update_mono (update m0 (fst (fst (fst j))) (snd j) (Some f)) (snd (fst (fst j))) (snd j) v1 (fst (fst (fst j))) (snd j) f (update_same _ _ _ _)) as [v' M'].
    eapply pairing_mono; [exact F|exact M'].
  - assert (v1 = Some f) by congruence. subst v1. eapply pairing_mono; [exact F|]. cbn zeta. apply update_same.
Qed.
Lemma pairing_total jobs m0 : (forall j, In j jobs -> exists f gcs, nth_error iface (snd j) = Some f /\ lookup (snd (fst j)) f = Some gcs /\ (exists v, find f (fst (fst (fst j))) (fst gcs) = Ok v) /\ (exists v, find f (snd (fst (fst j))) (snd gcs) = Ok v)) ->
  exists m, foldM step jobs m0 = Ok m.
Proof.
  revert m0. induction jobs as [|j jobs IH]; intros m0 H; cbn [foldM]; [eauto|]. destruct (H j (or_introl eq_refl)) as [f [gcs [E1 [E2 [[v0 F0] [v1 F1]]]]]].
  assert (S' : exists m1, step m0 j = Ok m1). { destruct j as [[tags ps] cell]. cbn [fst snd] in *. unfold step, pair_cell. rewrite E1. cbn [opt_res bind]. rewrite E2. cbn [opt_res bind]. fold find. rewrite F0. cbn [bind]. rewrite F1. cbn [bind]. eexists. reflexivity. }
  destruct S' as [m1 S']. rewrite S'. cbn [bind]. apply IH. intros j' I. apply H. right. exact I.
Qed.
Lemma pairing_needs jobs m0 m : foldM step jobs m0 = Ok m -> forall j, In j jobs -> exists f gcs, nth_error iface (snd j) = Some f /\ lookup (snd (fst j)) f = Some gcs.
Proof.
  revert m0. induction jobs as [|j' jobs IH]; intros m0 F j I; [destruct I|]. cbn [foldM] in F. destruct (step m0 j') as [m1|] eqn:S'; [|discriminate]. cbn [bind] in F. destruct I as [->|I]; [|eapply IH; eauto].
  apply step_inv in S'. destruct S' as [f [gcs [v0 [v1 [E1 [E2 _]]]]]]. eauto.
Qed.
End Pairing.

(** ** Both variants *)
Lemma list_index_ok x l : In x l -> exists i, list_index x l = Ok i /\ nth_error l i = Some x.
Proof.
  induction l as [|y l IH]; intros H; [destruct H|]. cbn [list_index]. destruct (Nat.eqb_spec y x) as [->|N]; [exists 0; auto|]. destruct H as [H|H]; [congruence|]. destruct (IH H) as [i [E F]]. exists (S i). rewrite E. auto.
Qed.
Lemma Forall2_nth_same {A B} (R : A -> B -> Prop) a b k x y : Forall2 R a b -> nth_error a k = Some x -> nth_error b k = Some y -> R x y.
Proof. intros F A1 B1. destruct (Forall2_nth_l _ _ _ _ _ F A1) as [y' [E r]]. congruence. Qed.

(** Everything but the two maps does not depend on what is enumerated. *)
Lemma mortar_shape en sub markers f2c c2f facets strict continuous : mesh_ok sub f2c c2f -> 1 < length markers -> (strict = true -> continuous = true) ->
  (exists f t0 t1 c0 c1, In f facets /\ between sub markers f2c f t0 t1 c0 c1) ->
  exists (d : list ((nat * nat) * list (nat * (nat * nat)))) iface marks jobs cmap, mortar_with en sub markers f2c c2f facets strict continuous = (do m <- foldM (pair_cell en sub c2f iface) jobs (fun _ _ => None); Ok (Mortar iface marks (map fst d) m cmap)) /\
    (forall m, interface_ok sub markers f2c facets (Mortar iface marks (map fst d) m cmap)) /\
    (forall j, In j jobs -> exists f t0 t1 c0 c1, nth_error iface (snd j) = Some f /\ between sub markers f2c f t0 t1 c0 c1 /\ fst (fst j) = (t0, t1) /\ lookup (snd (fst j)) f = Some (c0, c1)) /\
    (forall k f, nth_error iface k = Some f -> exists j, In j jobs /\ snd j = k).
Proof.
  intros M LM ST NE. unfold mortar_with. apply Nat.ltb_lt in LM. rewrite LM. cbn [py_assert bind].
  destruct (tagged_ok sub markers f2c facets (fun f _ => entry_total sub markers f2c c2f f M)) as [d [D T]]. rewrite D. cbn [bind]. fold (paint (combine (seq 0 (length d)) d) (repeat (length d) (length f2c))).
  set (values := paint (combine (seq 0 (length d)) d) (repeat (length d) (length f2c))). set (colors := seq 0 (length d)). set (iface := concat (map (where_eq values) colors)).
  assert (BD : forall f, entry_of sub markers f2c f <> None -> f < length f2c). { intros f H. destruct (entry_of sub markers f2c f) as [[[t0 t1] [c0 c1]]|] eqn:E; [|congruence]. apply (entry_spec _ _ _ _ _ _ _ _ _ M) in E. apply nth_error_Some. destruct E as [[E|E] _]; congruence. }
  assert (P := fun f => painted (entry_of sub markers f2c) facets d (length f2c) f T BD). fold values in P.
  assert (ND : length d <> 0). { destruct NE as [f [t0 [t1 [c0 [c1 [F B]]]]]]. apply (entry_spec _ _ _ _ _ _ _ _ _ M) in B. pose proof (ti_all _ _ _ T f _ _ F B) as K. intros L. destruct d; [destruct K|discriminate]. }
  assert (PA1 : py_assert (negb (length d =? 0)) = Ok tt) by (apply Nat.eqb_neq in ND; rewrite ND; reflexivity). rewrite PA1. cbn [bind].
  assert (PA2 : py_assert (negb strict || continuous) = Ok tt) by (destruct strict; cbn; [rewrite (ST eq_refl)|]; reflexivity). rewrite PA2. cbn [bind].
  set (marks := sequential_marks colors (map (where_eq values) colors) (length iface)).
  assert (MK : Forall2 (fun m e => nth_error values e = Some m) marks iface). { apply sequential_marks_ok; [|reflexivity]. unfold colors. destruct (length d); [congruence|discriminate]. }
  assert (CI : forall e, In e iface <-> exists c, nth_error values e = Some c /\ c < length d). { intros e. unfold iface. rewrite tagged_In. split; intros [c [E C]]; exists c; (split; [exact E|]); [apply in_seq in C; lia|apply in_seq; lia]. }
  assert (KO : forall k p, In (k, p) d -> In (fst k) markers /\ In (snd k) markers).
  { intros k p H. destruct NE as [g [_ _]]. clear g. destruct k as [t0 t1]. 
    assert (Z : exists f v, entry_of sub markers f2c f = Some ((t0, t1), v)).
    { destruct p as [|[f v] p']; [|exists f, v; eapply (ti_val _ _ _ T); [exact H|left; reflexivity]].
      exfalso. revert D H. unfold tagged_iface. clear. intros D H.
      assert (G : forall fs d0 d1, (forall k p, In (k, p) d0 -> p <> []) -> foldM (fun d facet => do e <- iface_entry sub markers f2c facet; Ok (match e with Some (k, v) => tag_add d k facet v | None => d end)) fs d0 = Ok d1 -> forall k p, In (k, p) d1 -> p <> []).
      { clear. induction fs as [|f fs IH]; intros d0 d1 H0 E; cbn [foldM] in E; [injection E as <-; exact H0|]. destruct (iface_entry sub markers f2c f) as [[[k v]|]|] eqn:I; cbn [bind] in E; [|eapply IH; eauto|discriminate]. eapply IH; [|exact E].
        apply tag_add_ne. exact H0. }
      exact (G facets [] d ltac:(intros ? ? []) D _ _ H eq_refl). }
    destruct Z as [f [[c0 c1] Z]]. apply (entry_spec _ _ _ _ _ _ _ _ _ M) in Z. destruct Z as [_ [_ [_ [_ [A B]]]]]. auto. }
  assert (CM : exists cmap, mapM (fun tp : (nat * nat) * list (nat * (nat * nat)) => mapM (fun t => list_index t markers) [fst (fst tp); snd (fst tp)]) d = Ok cmap /\
            Forall2 (fun tp l => exists i0 i1, l = [i0; i1] /\ nth_error markers i0 = Some (fst (fst tp)) /\ nth_error markers i1 = Some (snd (fst tp))) d cmap).
  { revert KO. clear. induction d as [|[k p] d IH]; intros KO; [exists []; split; [reflexivity|constructor]|]. destruct IH as [cmap [E F]]; [intros k' p' I; apply (KO k' p'); right; exact I|].
    destruct (KO k p (or_introl eq_refl)) as [K0 K1]. destruct (list_index_ok _ _ K0) as [i0 [A0 B0]]. destruct (list_index_ok _ _ K1) as [i1 [A1 B1]]. exists ([i0; i1] :: cmap). assert (IN : mapM (fun t => list_index t markers) [fst k; snd k] = Ok [i0; i1]) by (rewrite !mapM_cons, A0; cbn [bind]; rewrite A1; reflexivity). rewrite mapM_cons. cbn [fst snd]. rewrite IN. cbn [bind]. rewrite E. split; [reflexivity|]. constructor; [|exact F]. exists i0, i1. auto. }
  destruct CM as [cmap [CM1 CM2]]. rewrite CM1.
  set (jobs := flat_map (fun cp : nat * ((nat * nat) * list (nat * (nat * nat))) => map (fun cell => (snd cp, cell)) (where_eq marks (fst cp))) (combine (seq 0 (length d)) d)).
  assert (FM : forall k f, nth_error iface k = Some f -> exists c, nth_error marks k = Some c /\ nth_error values f = Some c /\ c < length d).
  { intros k f E. destruct (Forall2_nth_r _ _ _ _ _ MK E) as [c [A B]]. exists c. split; [exact A|split; [exact B|]]. apply nth_error_In in E. apply CI in E. destruct E as [c' [E1 E2]]. congruence. }
  exists d, iface, marks, jobs, cmap. split; [|split; [|split]].
  - match goal with |- bind ?x _ = bind ?y _ => change x with y; destruct y; reflexivity end.
  - intros m. constructor; cbn [mo_facets mo_colors mo_tags mo_map mo_color_map].
    + apply trace_cells_NoDup. apply seq_NoDup.
    + intros f. rewrite CI. split.
      * intros [c [E C]]. apply (P f c C) in E. destruct E as [F [[t0 t1] [[c0 c1] [p [_ V]]]]]. split; [exact F|]. exists t0, t1, c0, c1. apply (entry_spec _ _ _ _ _ _ _ _ _ M). exact V.
      * intros [F [t0 [t1 [c0 [c1 B]]]]]. apply (entry_spec _ _ _ _ _ _ _ _ _ M) in B. pose proof (ti_all _ _ _ T f _ _ F B) as K. apply in_map_iff in K. destruct K as [[k p] [K K']]. cbn in K. subst k. apply In_nth_error in K'. destruct K' as [c K'].
        exists c. assert (C : c < length d) by (apply nth_error_Some; congruence). split; [|exact C]. apply (P f c C). split; [exact F|]. exists (t0, t1), (c0, c1), p. auto.
    + eapply Forall2_len. exact MK.
    + intros k f t0 t1 c0 c1 E B. destruct (FM k f E) as [c [A [A' C]]]. exists c. split; [exact A|]. apply (P f c C) in A'. destruct A' as [F [k' [v [p [K V]]]]]. apply (entry_spec _ _ _ _ _ _ _ _ _ M) in B. assert (k' = (t0, t1)) by congruence. subst k'.
      split; [rewrite nth_error_map, K; reflexivity|]. destruct (Forall2_nth_l _ _ _ _ _ CM2 K) as [l [L [i0 [i1 [-> [I0 I1]]]]]]. exists i0, i1. auto.
  - intros j I. apply in_flat_map in I. destruct I as [[c [k p]] [I J]]. apply combine_seq_nth in I. apply in_map_iff in J. destruct J as [cell [<- J]]. cbn [fst snd] in *. apply where_eq_In in J.
    destruct (Forall2_nth_l _ _ _ _ _ MK J) as [f [F V]]. assert (C : c < length d) by (apply nth_error_Some; congruence). apply (P f c C) in V. destruct V as [G [k' [v [p' [K V]]]]]. assert (k' = k) by congruence. subst k'. assert (p' = p) by congruence. subst p'.
    destruct k as [t0 t1]. destruct v as [c0 c1]. exists f, t0, t1, c0, c1. split; [exact F|split; [apply (entry_spec _ _ _ _ _ _ _ _ _ M); exact V|split; [reflexivity|]]].
    assert (FP : In f (map fst p)) by (apply (ti_in _ _ _ T _ p f (nth_error_In _ _ K)); split; [exact G|eauto]). destruct (lookup_some p f FP) as [v' L]. rewrite L. f_equal. apply lookup_In in L. pose proof (ti_val _ _ _ T _ p f v' (nth_error_In _ _ K) L) as E. congruence.
  - intros k f E. destruct (FM k f E) as [c [A [A' C]]]. destruct (nth_error d c) as [tp|] eqn:K; [|apply nth_error_None in K; lia]. exists (tp, k). split; [|reflexivity]. apply in_flat_map. exists (c, tp). split; [apply combine_seq_nth; exact K|]. apply in_map_iff. exists k. split; [reflexivity|]. apply where_eq_In. exact A.
Qed.
