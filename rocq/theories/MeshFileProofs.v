(** Spec vocabulary and lemmas for the mesh files. *)
From Coq Require Import List ZArith QArith String Ascii DecimalString Bool Lia.
From Verif Require Import Base MeshFileModel.
Local Open Scope string_scope.
Local Open Scope nat_scope.
Local Open Scope string_scope.

(** * Spec *)
(** the directory lists every name once *)
Definition uniq (d : fs) : Prop := NoDup (map fst d).
(** the files the code takes for its own intermediate ones *)
Definition scratch (f : string) : Prop := exists x, f = "domain" ++ x /\ exists y, f = y ++ ".xml" \/ f = y ++ ".msh".
Definition scratch_xml (f : string) : Prop := exists x, f = "domain" ++ x /\ exists y, f = y ++ ".xml".
Definition absent (P : string -> Prop) (d : fs) : Prop := forall f, P f -> fs_get d f = None.
(** a file with everything for one mesh *)
Definition complete (m : mesh) : content := H5 [("mesh", ("mesh", m)); ("facet", ("facet", m)); ("physical", ("physical", m))].
(** a file with the mesh, and nothing of another mesh *)
Definition only_of (m : mesh) (c : content) : Prop :=
  exists s, c = H5 s /\ In ("mesh", ("mesh", m)) s /\ forall k x, In (k, x) s -> x = (k, m).
(** programs that do what they should: gmsh says success only when it has written, the other two come to the end *)
Definition reliable (t : tools) : Prop := (t_gmsh t = 0 -> t_msh t = true) /\ 3 <= t_files t /\ 7 <= t_stmts t.
Definition well_run (e : event) : Prop := match e with Load t _ => reliable t | Edit _ => False end.

(** * Strings *)
Lemma prefix_app p x : starts_with p (p ++ x) = true.
Proof. unfold starts_with. induction p; cbn; [destruct x; reflexivity |]. destruct (ascii_dec a a); [exact IHp | congruence]. Qed.
Lemma prefix_inv p : forall s, starts_with p s = true -> exists x, s = p ++ x.
Proof.
  unfold starts_with. induction p; intros s; cbn.
  - intros _. now exists s.
  - destruct s as [| c s]; [discriminate |]. cbn. destruct (ascii_dec a c) as [<- | N]; intros H; [| discriminate H]. destruct (IHp _ H) as [x ->]. now exists x.
Qed.
Lemma length_app a b : String.length (a ++ b) = String.length a + String.length b.
Proof. induction a; cbn; congruence. Qed.
Lemma substring_all s : substring 0 (String.length s) s = s.
Proof. induction s; cbn; congruence. Qed.
Lemma substring_app a b : substring (String.length a) (String.length b) (a ++ b) = b.
Proof. induction a; cbn; [apply substring_all | exact IHa]. Qed.
Lemma substring_head a b : substring 0 (String.length a) (a ++ b) = a.
Proof. induction a; cbn; [destruct b; reflexivity | congruence]. Qed.
Lemma suffix_app p y : ends_with p (y ++ p) = true.
Proof.
  unfold ends_with. rewrite length_app. replace (String.length y + String.length p - String.length p) with (String.length y) by lia.
  rewrite substring_app, String.eqb_refl, andb_true_r. apply Nat.leb_le. lia.
Qed.
Lemma split_at k : forall s, k <= String.length s -> s = substring 0 k s ++ substring k (String.length s - k) s.
Proof.
  induction k; intros s H.
  - rewrite Nat.sub_0_r, substring_all. destruct s; reflexivity.
  - destruct s; cbn in *; [lia |]. f_equal. apply IHk. lia.
Qed.
Lemma suffix_inv p s : ends_with p s = true -> exists y, s = y ++ p.
Proof.
  unfold ends_with. rewrite andb_true_iff. intros [L E]. apply Nat.leb_le in L. apply String.eqb_eq in E.
  set (k := String.length s - String.length p) in *. exists (substring 0 k s). rewrite (split_at k s) at 1 by lia.
  f_equal. replace (String.length s - k) with (String.length p) by lia. exact E.
Qed.
Lemma app_assoc_s a b c : (a ++ b) ++ c = a ++ b ++ c.
Proof. induction a; cbn; congruence. Qed.

Fixpoint no_us (s : string) : Prop := match s with EmptyString => True | String c s' => c <> "_"%char /\ no_us s' end.
Lemma no_us_app a b : no_us a -> no_us b -> no_us (a ++ b).
Proof. induction a; cbn; tauto. Qed.
Lemma no_us_uint u : no_us (NilEmpty.string_of_uint u).
Proof. induction u; cbn; try split; try discriminate; auto. Qed.
Lemma digit_us z : digit z <> "_"%char.
Proof.
  unfold digit. pose proof (Z.mod_pos_bound z 10 eq_refl) as B. remember (Z.to_nat (z mod 10)) as k. assert (k < 10) as K by lia. clear - K.
  do 10 (destruct k as [| k]; [discriminate |]). lia.
Qed.
Lemma no_us_list l : Forall (fun c => c <> "_"%char) l -> no_us (string_of_list_ascii l).
Proof. induction 1; cbn; auto. Qed.
Lemma strip0_In l : forall c, In c (strip0 l) -> In c l.
Proof.
  induction l as [| a l IH]; intros c; cbn; [tauto |]. destruct (strip0 l) eqn:E.
  - destruct (Ascii.eqb a "0"); cbn; tauto.
  - cbn [In] in *. intros [-> | H]; [now left | right; now apply IH].
Qed.
Lemma no_us_point a b : Forall (fun c => c <> "_"%char) a -> Forall (fun c => c <> "_"%char) b -> no_us (with_point a b).
Proof.
  intros A B. unfold with_point. apply no_us_app; [now apply no_us_list |].
  assert (Forall (fun c => c <> "_"%char) (strip0 b)) as C. { apply Forall_forall. intros c I. apply strip0_In in I. rewrite Forall_forall in B. auto. }
  destruct (strip0 b); [exact I |]. apply (no_us_app "."); [cbn; split; [discriminate | exact I] | now apply no_us_list].
Qed.
Lemma six_us m : Forall (fun c => c <> "_"%char) (six m).
Proof. unfold six. apply Forall_forall. intros c I. apply in_map_iff in I. destruct I as [k [<- _]]. apply digit_us. Qed.
Lemma firstn_us n l : Forall (fun c => c <> "_"%char) l -> Forall (fun c => c <> "_"%char) (firstn n l).
Proof. intros H. rewrite <- (firstn_skipn n l), Forall_app in H. tauto. Qed.
Lemma skipn_us n l : Forall (fun c => c <> "_"%char) l -> Forall (fun c => c <> "_"%char) (skipn n l).
Proof. intros H. rewrite <- (firstn_skipn n l), Forall_app in H. tauto. Qed.
Lemma no_us_exp e : no_us (exp_str e).
Proof.
  unfold exp_str. apply no_us_app; [destruct (e <? 0)%Z; cbn; split; try discriminate; exact I |].
  destruct (Z.abs e); try (cbn; repeat split; discriminate).
  apply no_us_app; [destruct (Z.pos p <? 10)%Z; cbn; try split; try discriminate; exact I | apply no_us_uint].
Qed.
Lemma no_us_pos n d : no_us (fmt_pos n d).
Proof.
  unfold fmt_pos. destruct (six_digits n d) as [m e]. pose proof (six_us m) as S6.
  destruct ((-4 <=? e)%Z && (e <? 6)%Z)%bool; [destruct (0 <=? e)%Z |].
  - apply no_us_point; [apply firstn_us | apply skipn_us]; exact S6.
  - apply no_us_point; [repeat constructor; discriminate |]. apply Forall_app. split; [| exact S6].
    apply Forall_forall. intros c I. apply repeat_spec in I. subst c. discriminate.
  - apply no_us_app; [apply no_us_point; [apply firstn_us | apply skipn_us]; exact S6 |].
    apply (no_us_app "e"); [cbn; split; [discriminate | exact I] | apply no_us_exp].
Qed.
Lemma fmt_no_us x : no_us (fmt_g x).
Proof.
  unfold fmt_g. destruct (Qnum x); [cbn; split; [discriminate | exact I] | apply no_us_pos |].
  apply (no_us_app "-"); [cbn; split; [discriminate | exact I] | apply no_us_pos].
Qed.
Lemma app_inv_tail_s a b t : a ++ t = b ++ t -> a = b.
Proof.
  intros H. assert (String.length a = String.length b) as L.
  { apply (f_equal String.length) in H. rewrite !length_app in H. lia. }
  rewrite <- (substring_head a t), <- (substring_head b t), H, L. reflexivity.
Qed.
Lemma us_split a : forall a' b b', no_us a -> no_us a' -> a ++ "_" ++ b = a' ++ "_" ++ b' -> a = a' /\ b = b'.
Proof.
  induction a as [| c a IH]; intros [| c' a'] b b'; cbn; intros H H' E.
  - injection E as E. auto.
  - injection E as E1 E2. subst c'. now destruct H'.
  - injection E as E1 E2. subst c. now destruct H.
  - injection E as -> E. destruct (IH a' b b' (proj2 H) (proj2 H') E) as [-> ->]. auto.
Qed.

Lemma has_us a b : ~ no_us (a ++ "_" ++ b).
Proof. induction a; cbn; tauto. Qed.

(** * Names *)
Lemma name_dec p : exists x, h5_file_name p = "mesh_" ++ x ++ ".h5".
Proof. destruct p as [s i | s]; cbn [h5_file_name]; [exists (fmt_g s ++ "_" ++ fmt_g i); now rewrite !app_assoc_s | now exists (fmt_g s)]. Qed.
Lemma name_not_domain p x : h5_file_name p <> "domain" ++ x.
Proof. destruct (name_dec p) as [y ->]. discriminate. Qed.
Lemma last_dot_h5 s : forall i, last_dot (s ++ ".h5") i = Some (i + String.length s).
Proof. induction s; intros i; cbn [append last_dot]; [cbn; f_equal; lia |]. rewrite IHs. cbn. f_equal. lia. Qed.
Lemma ext_h5 y : only_dots y = false -> snd (splitext (y ++ ".h5")) = ".h5".
Proof.
  intros D. unfold splitext. rewrite last_dot_h5, Nat.add_0_l, substring_head, D. unfold snd. rewrite length_app.
  replace (String.length y + String.length ".h5" - String.length y) with (String.length ".h5") by lia. apply substring_app.
Qed.
Lemma name_ext p : snd (splitext (h5_file_name p)) = ".h5".
Proof. destruct (name_dec p) as [x ->]. rewrite <- app_assoc_s. now apply ext_h5. Qed.
Lemma same_name p q : h5_file_name p = h5_file_name q -> command p = command q.
Proof.
  destruct p as [s i | s], q as [s' i' | s']; cbn [h5_file_name command]; intros E; injection E as E.
  - destruct (us_split _ _ _ _ (fmt_no_us s) (fmt_no_us s') E) as [-> E2]. apply app_inv_tail_s in E2. now rewrite E2.
  - exfalso. apply (has_us (fmt_g s) (fmt_g i ++ ".h5")). change (no_us (fmt_g s ++ "_" ++ fmt_g i ++ ".h5")). cbn [append] in E |- *. rewrite E.
    apply no_us_app; [apply fmt_no_us | cbn; repeat split; discriminate].
  - exfalso. apply (has_us (fmt_g s') (fmt_g i' ++ ".h5")). cbn [append] in E |- *. rewrite <- E.
    apply no_us_app; [apply fmt_no_us | cbn; repeat split; discriminate].
  - apply app_inv_tail_s in E. now rewrite E.
Qed.

(** * The directory *)
Lemma get_rm_other d f g : f <> g -> fs_get (fs_rm d g) f = fs_get d f.
Proof.
  intros N. unfold fs_rm. induction d as [| [k c] d IH]; cbn; [reflexivity |]. destruct (String.eqb_spec k g) as [-> | K]; cbn.
  - destruct (String.eqb_spec g f); [congruence | exact IH].
  - now rewrite IH.
Qed.
Lemma get_rm_same d f : fs_get (fs_rm d f) f = None.
Proof. unfold fs_rm. induction d as [| [k c] d IH]; cbn; [reflexivity |]. destruct (String.eqb_spec k f) as [-> | K]; cbn; [exact IH |]. destruct (String.eqb_spec k f); [congruence | exact IH]. Qed.
Lemma get_set_same d f c : fs_get (fs_set d f c) f = Some c.
Proof. unfold fs_set. cbn. now rewrite String.eqb_refl. Qed.
Lemma get_set_other d f g c : f <> g -> fs_get (fs_set d g c) f = fs_get d f.
Proof. intros N. unfold fs_set. cbn. destruct (String.eqb_spec g f); [congruence |]. now apply get_rm_other. Qed.
Lemma get_In d f : fs_get d f <> None <-> In f (map fst d).
Proof.
  induction d as [| [k c] d IH]; cbn; [tauto |]. destruct (String.eqb_spec k f) as [-> | K]; [split; [now left | discriminate] |].
  rewrite IH. intuition congruence.
Qed.
Lemma exists_spec d f : exists_ d f = true <-> fs_get d f <> None.
Proof. unfold exists_. destruct (fs_get d f); split; congruence. Qed.
Lemma exists_false d f : exists_ d f = false <-> fs_get d f = None.
Proof. unfold exists_. destruct (fs_get d f); split; congruence. Qed.
Lemma keys_rm d f k : In k (map fst (fs_rm d f)) -> In k (map fst d) /\ k <> f.
Proof.
  intros H. assert (fs_get (fs_rm d f) k <> None) as G by now apply get_In.
  destruct (string_dec k f) as [-> | N]; [now rewrite get_rm_same in G |]. rewrite get_rm_other in G by exact N. split; [now apply get_In | exact N].
Qed.
Lemma uniq_rm d f : uniq d -> uniq (fs_rm d f).
Proof.
  unfold uniq. induction d as [| [k c] d IH]; cbn; intros H; [constructor |]. inversion H as [| a b N U]; subst.
  destruct (String.eqb k f); cbn; [now apply IH |]. constructor; [| now apply IH]. intros I. apply (keys_rm d f k) in I. tauto.
Qed.
Lemma uniq_set d f c : uniq d -> uniq (fs_set d f c).
Proof. intros U. unfold uniq, fs_set. cbn. constructor; [intros I; apply keys_rm in I; tauto | now apply uniq_rm]. Qed.

(** ** Removing files *)
Lemma each_frame ks : forall d f, ~ In f ks -> fs_get (fst (each os_remove ks d)) f = fs_get d f.
Proof.
  induction ks as [| k ks IH]; intros d f N; cbn; [reflexivity |]. unfold pbind, os_remove at 1.
  destruct (exists_ d k); cbn; [| reflexivity]. rewrite IH by (cbn in N; tauto). apply get_rm_other. cbn in N. intuition congruence.
Qed.
Lemma each_ok ks : forall d, NoDup ks -> (forall k, In k ks -> fs_get d k <> None) -> uniq d ->
  exists d', each os_remove ks d = (d', Ok tt) /\ uniq d' /\ (forall k, In k ks -> fs_get d' k = None) /\ (forall f, ~ In f ks -> fs_get d' f = fs_get d f).
Proof.
  induction ks as [| k ks IH]; intros d ND E U; cbn.
  - exists d. repeat split; tauto.
  - inversion ND as [| a b N ND']; subst. unfold pbind, os_remove at 1.
    assert (exists_ d k = true) as -> by (apply exists_spec, E; now left). cbn.
    destruct (IH (fs_rm d k) ND') as [d' [R [U' [G F]]]].
    + intros j J. rewrite get_rm_other; [apply E; now right |]. intros ->. tauto.
    + now apply uniq_rm.
    + exists d'. rewrite R. repeat split; auto.
      * intros j [<- | J]; [| auto]. rewrite F by exact N. apply get_rm_same.
      * intros f NF. rewrite F by tauto. apply get_rm_other. intuition congruence.
Qed.
Lemma cleanup_frame ext d f : ~ (ends_with ext f = true /\ starts_with "domain" f = true) -> fs_get (fst (cleanup ext d)) f = fs_get d f.
Proof. intros N. unfold cleanup. apply each_frame. rewrite filter_In, andb_true_iff. tauto. Qed.
Lemma cleanup_ok ext d : uniq d -> exists d', cleanup ext d = (d', Ok tt) /\ uniq d' /\
  (forall f, ends_with ext f = true -> starts_with "domain" f = true -> fs_get d' f = None) /\
  (forall f, ~ (ends_with ext f = true /\ starts_with "domain" f = true) -> fs_get d' f = fs_get d f) /\
  (forall f, fs_get d f = None -> fs_get d' f = None).
Proof.
  intros U. unfold cleanup. set (ks := filter _ _).
  assert (forall f, In f ks <-> In f (map fst d) /\ ends_with ext f = true /\ starts_with "domain" f = true) as K.
  { intros f. unfold ks. rewrite filter_In, andb_true_iff. tauto. }
  destruct (each_ok ks d) as [d' [R [U' [G F]]]].
  - apply NoDup_filter. exact U.
  - intros k I. apply get_In. now apply K.
  - exact U.
  - exists d'. repeat split; auto.
    + intros f E S. destruct (fs_get d f) eqn:X.
      * apply G, K. repeat split; auto. apply get_In. congruence.
      * rewrite F; [exact X |]. rewrite K, <- get_In, X. tauto.
    + intros f N. apply F. rewrite K. tauto.
    + intros f X. rewrite F; [exact X |]. rewrite K, <- get_In, X. tauto.
Qed.

(** ** The child python *)
Definition writes_to (h5 : string) (s : stmt) : Prop :=
  match s with SMesh _ | SFunction _ => True | SOpen h | SWriteMesh h _ | SWriteF h _ => h = h5 end.
Lemma h5_write_frame d h n m d' f : h5_write d h n m = Some d' -> f <> h -> fs_get d' f = fs_get d f.
Proof. unfold h5_write. destruct (fs_get d h) as [[] |]; try discriminate. intros E N. injection E as <-. now apply get_set_other. Qed.
Lemma h5_write_uniq d h n m d' : h5_write d h n m = Some d' -> uniq d -> uniq d'.
Proof. unfold h5_write. destruct (fs_get d h) as [[] |]; try discriminate. intros E N. injection E as <-. now apply uniq_set. Qed.
Lemma exec1_frame h5 s d e d' e' : writes_to h5 s -> exec1 s d e = Some (d', e') -> (forall f, f <> h5 -> fs_get d' f = fs_get d f) /\ (uniq d -> uniq d').
Proof.
  destruct s as [xml | h | h n | xml | h n]; cbn; intros W.
  - destruct (fs_get d xml) as [[] |]; try discriminate. intros E. injection E as <- <-. auto.
  - subst h. intros E. injection E as <- <-. split; [intros; now apply get_set_other | apply uniq_set].
  - subst h. destruct (e_mesh e); [| discriminate]. destruct (h5_write d h5 n _) eqn:H; cbn; [| discriminate]. intros E. injection E as <- <-.
    split; [intros; eapply h5_write_frame; eauto | eapply h5_write_uniq; eauto].
  - destruct (fs_get d xml) as [[] |]; try discriminate. intros E. injection E as <- <-. auto.
  - subst h. destruct (e_f e); [| discriminate]. destruct (h5_write d h5 n _) eqn:H; cbn; [| discriminate]. intros E. injection E as <- <-.
    split; [intros; eapply h5_write_frame; eauto | eapply h5_write_uniq; eauto].
Qed.
Lemma exec_frame h5 l : forall n d e, Forall (writes_to h5) l ->
  (forall f, f <> h5 -> fs_get (fst (exec n l d e)) f = fs_get d f) /\ (uniq d -> uniq (fst (exec n l d e))).
Proof.
  induction l as [| s l IH]; intros n d e W; cbn; [auto |]. pose proof (Forall_inv W) as W1. pose proof (Forall_inv_tail W) as W2.
  destruct n; [cbn; auto |]. destruct (exec1 s d e) as [[d' e'] |] eqn:E; [| cbn; auto].
  destruct (exec1_frame _ _ _ _ _ _ W1 E) as [F U]. destruct (IH n d' e' W2) as [F2 U2]. split; [| auto].
  intros f N. now rewrite F2, F by exact N.
Qed.
(** the statements for regions of the mesh m *)
Lemma exec_regions h5 m rs : forall n d e s d', Forall (fun r => fst r <> h5 /\ fs_get d (fst r) = Some (XmlRegion (snd r) m)) rs ->
  fs_get d h5 = Some (H5 s) -> exec n (flat_map (fun r => [SFunction (fst r); SWriteF h5 (snd r)]) rs) d e = (d', 0) ->
  fs_get d' h5 = Some (H5 (s ++ map (fun r => (snd r, (snd r, m))) rs)%list).
Proof.
  induction rs as [| [x k] rs IH]; intros n d e s d' R G; cbn.
  - intros E. injection E as <-. now rewrite app_nil_r.
  - pose proof (Forall_inv_tail R) as R2. destruct (Forall_inv R) as [N X]. cbn in N, X. rewrite X. destruct n; [discriminate |]. destruct n; [discriminate |]. cbn.
    unfold h5_write. rewrite G. cbn. intros E. eapply IH with (s := (s ++ [(k, (k, m))])%list) in E.
    + rewrite E, <- app_assoc. reflexivity.
    + eapply Forall_impl; [| exact R2]. intros r [N2 X2]. split; [exact N2 |]. rewrite get_set_other by exact N2. exact X2.
    + apply get_set_same.
Qed.
Lemma exec_regions_ends h5 m rs : forall n d e s, 2 * List.length rs <= n -> Forall (fun r => fst r <> h5 /\ fs_get d (fst r) = Some (XmlRegion (snd r) m)) rs ->
  fs_get d h5 = Some (H5 s) -> snd (exec n (flat_map (fun r => [SFunction (fst r); SWriteF h5 (snd r)]) rs) d e) = 0.
Proof.
  induction rs as [| [x k] rs IH]; intros n d e s L R G; cbn; [reflexivity |].
  pose proof (Forall_inv_tail R) as R2. destruct (Forall_inv R) as [N X]. cbn in N, X, L. rewrite X. destruct n; [lia |]. destruct n; [lia |]. cbn.
  unfold h5_write. rewrite G. cbn. eapply IH; [lia | | apply get_set_same].
  eapply Forall_impl; [| exact R2]. intros r [N2 X2]. split; [exact N2 |]. rewrite get_set_other by exact N2. exact X2.
Qed.

(** ** Programs *)
Lemma bind_ok {A B} (x : prog A) (k : A -> prog B) d d' b : pbind x k d = (d', Ok b) -> exists d1 a, x d = (d1, Ok a) /\ k a d1 = (d', Ok b).
Proof. unfold pbind. destruct (x d) as [d1 [a | e]]; [eauto | discriminate]. Qed.
Lemma bind_run {A B} (x : prog A) (k : A -> prog B) d d1 a : x d = (d1, Ok a) -> pbind x k d = k a d1.
Proof. unfold pbind. now intros ->. Qed.
Lemma assert_ok b d d1 u : p_assert b d = (d1, Ok u) -> d1 = d /\ b d = true.
Proof. unfold p_assert, py_assert. destruct (b d); [| discriminate]. intros E. injection E as <-. auto. Qed.
Lemma assert_run b d : b d = true -> p_assert b d = (d, Ok tt).
Proof. unfold p_assert. now intros ->. Qed.

(** what a program keeps, whatever happens *)
Definition keeps {A} (P : string -> Prop) (x : prog A) : Prop :=
  forall d, (forall f, P f -> fs_get (fst (x d)) f = fs_get d f) /\ (uniq d -> uniq (fst (x d))).
Lemma keeps_bind {A B} P (x : prog A) (k : A -> prog B) :
  keeps P x -> (forall d d1 a, x d = (d1, Ok a) -> keeps P (k a)) -> keeps P (pbind x k).
Proof.
  intros X K d. unfold pbind. destruct (X d) as [F U]. destruct (x d) as [d1 [a | e]] eqn:E; cbn in *; [| auto].
  destruct (K _ _ _ E d1) as [F2 U2]. split; [| auto]. intros f N. now rewrite F2, F.
Qed.
Lemma keeps_assert P b : keeps P (p_assert b).
Proof. intros d. unfold p_assert. cbn. auto. Qed.
Lemma keeps_ret {A} P (a : A) : keeps P (ret a).
Proof. intros d. cbn. auto. Qed.
Lemma each_uniq ks : forall d, uniq d -> uniq (fst (each os_remove ks d)).
Proof.
  induction ks as [| k ks IH]; intros d U; cbn; [exact U |]. unfold pbind, os_remove at 1. destruct (exists_ d k); cbn; [| exact U]. now apply IH, uniq_rm.
Qed.
Lemma keeps_cleanup (P : string -> Prop) ext : (forall f, P f -> ~ (ends_with ext f = true /\ starts_with "domain" f = true)) -> keeps P (cleanup ext).
Proof. intros H d. split; [intros f N; now apply cleanup_frame, H | apply each_uniq]. Qed.
Lemma fold_sets l : forall d, (forall f, ~ In f (map fst l) -> fs_get (fold_left (fun d kc => fs_set d (fst kc) (snd kc)) l d) f = fs_get d f) /\
  (uniq d -> uniq (fold_left (fun d kc => fs_set d (fst kc) (snd kc)) l d)).
Proof.
  induction l as [| [k c] l IH]; intros d; cbn; [auto |]. destruct (IH (fs_set d k c)) as [F U]. split.
  - intros f N. rewrite F by tauto. apply get_set_other. intuition congruence.
  - intros H. now apply U, uniq_set.
Qed.

Definition R2 : list (string * string) := [("domain_facet_region.xml", "facet"); ("domain_physical_region.xml", "physical")].
Definition reg_stmts (h5 : string) (rs : list (string * string)) : list stmt := flat_map (fun r => [SFunction (fst r); SWriteF h5 (snd r)]) rs.
Lemma region_cmds_eq h5 d : region_cmds "domain" h5 ["facet_region.xml"; "physical_region.xml"] d = Ok (reg_stmts h5 (filter (fun r => exists_ d (fst r)) R2)).
Proof. unfold R2. cbn [region_cmds split_us Ascii.eqb Bool.eqb bind append filter fst]. destruct (exists_ d "domain_facet_region.xml"), (exists_ d "domain_physical_region.xml"); reflexivity. Qed.
Lemma reg_stmts_to h5 rs : Forall (writes_to h5) (reg_stmts h5 rs).
Proof. unfold reg_stmts. induction rs; cbn; repeat constructor; auto. Qed.
Lemma files_scratch m f k : In f (map fst (firstn k (convert_files "domain" "domain.xml" m))) -> scratch_xml f.
Proof.
  intros H. assert (In f (map fst (convert_files "domain" "domain.xml" m))) as I.
  { rewrite <- (firstn_skipn k (convert_files _ _ _)), map_app, in_app_iff. now left. }
  cbn in I. destruct I as [<- | [<- | [<- | []]]].
  - exists ".xml". split; [reflexivity | now exists "domain"].
  - exists "_facet_region.xml". split; [reflexivity | now exists "domain_facet_region"].
  - exists "_physical_region.xml". split; [reflexivity | now exists "domain_physical_region"].
Qed.
Lemma scratch_xml_scratch f : scratch_xml f -> scratch f.
Proof. intros [x [E [y H]]]. exists x. split; [exact E |]. exists y. now left. Qed.
Lemma dolfin_keeps t h5 : keeps (fun f => f <> h5 /\ ~ scratch f) (dolfin_convert t "domain" "domain.msh" "domain.xml").
Proof.
  intros d. unfold dolfin_convert. destruct (fs_get d "domain.msh") as [[] |]; cbn [fst]; try (split; [reflexivity | auto]).
  destruct (fold_sets (firstn (t_files t) (convert_files "domain" "domain.xml" m)) d) as [F U]. split; [| exact U].
  intros f [_ N]. apply F. intros I. apply N, scratch_xml_scratch. eapply files_scratch; eauto.
Qed.
Lemma not_scratch f : ~ scratch f -> ~ (ends_with ".xml" f = true /\ starts_with "domain" f = true) /\ ~ (ends_with ".msh" f = true /\ starts_with "domain" f = true).
Proof.
  intros N. split; intros [E S]; apply N; apply prefix_inv in S; destruct S as [x S]; exists x; split; auto; apply suffix_inv in E; destruct E as [y E]; exists y; auto.
Qed.
Lemma python_keeps t h5 l : Forall (writes_to h5) l -> keeps (fun f => f <> h5 /\ ~ scratch f) (python t l).
Proof.
  intros W d. unfold python. destruct (exec_frame h5 l (t_stmts t) d {| e_mesh := None; e_f := None |} W) as [F U].
  destruct (exec _ _ _ _) as [d' st]. cbn in *. split; [intros f [N _]; now apply F | exact U].
Qed.
Lemma convert_keeps t h5 : keeps (fun f => f <> h5 /\ ~ scratch f) (convert t "domain.msh" h5).
Proof.
  unfold convert. change (fst (splitext "domain.msh")) with "domain". cbv zeta.
  apply keeps_bind; [apply keeps_assert | intros _ _ _ _].
  apply keeps_bind; [apply keeps_assert | intros _ _ _ _].
  apply keeps_bind; [apply dolfin_keeps | intros _ _ _ _].
  apply keeps_bind; [apply keeps_assert | intros _ _ _ _].
  apply keeps_bind; [intros d; cbn; auto | intros d0 d1 rs E].
  rewrite region_cmds_eq in E. injection E as _ <-.
  apply keeps_bind; [apply python_keeps; repeat (constructor; [cbn; auto |]); apply reg_stmts_to | intros _ _ status _].
  apply keeps_bind; [apply keeps_assert | intros _ _ _ _].
  apply keeps_bind; [apply keeps_assert | intros _ _ _ _].
  apply keeps_bind; [apply keeps_cleanup; intros f [_ N]; now apply not_scratch in N | intros _ _ _ _].
  apply keeps_bind; [apply keeps_cleanup; intros f [_ N]; now apply not_scratch in N | intros _ _ _ _].
  apply keeps_ret.
Qed.
Lemma msh_scratch : scratch "domain.msh".
Proof. exists ".msh". split; [reflexivity |]. exists "domain". now right. Qed.
Lemma gmsh_keeps t cmd h5 : keeps (fun f => f <> h5 /\ ~ scratch f) (gmsh t cmd).
Proof.
  intros d. unfold gmsh. destruct (fs_get d "domain.geo") as [[] |]; cbn [fst]; try (split; [reflexivity | auto]).
  destruct (t_msh t); [| split; [reflexivity | auto]]. split; [| apply uniq_set].
  intros f [_ N]. apply get_set_other. intros ->. apply N, msh_scratch.
Qed.
Lemma generate_keeps t p : keeps (fun f => f <> h5_file_name p /\ ~ scratch f) (generate t p).
Proof.
  intros d. unfold generate. destruct (exists_ d (h5_file_name p)); [cbn; auto |]. revert d.
  change (keeps (fun f => f <> h5_file_name p /\ ~ scratch f) (run status <- gmsh t (command p);
          run _ <- p_assert (fun _ => (status =? 0)%nat); run _ <- p_assert (fun d => exists_ d "domain.msh");
          run ok <- convert t "domain.msh" (h5_file_name p); run _ <- p_assert (fun _ => ok); ret (h5_file_name p))).
  apply keeps_bind; [apply gmsh_keeps | intros _ _ status _].
  apply keeps_bind; [apply keeps_assert | intros _ _ _ _].
  apply keeps_bind; [apply keeps_assert | intros _ _ _ _].
  apply keeps_bind; [apply convert_keeps | intros _ _ ok _].
  apply keeps_bind; [apply keeps_assert | intros _ _ _ _].
  apply keeps_ret.
Qed.

(** ** One run *)
Lemma exec_all h5 xml m rs n d e : xml <> h5 -> fs_get d xml = Some (XmlMesh m) ->
  Forall (fun r => fst r <> h5 /\ fs_get d (fst r) = Some (XmlRegion (snd r) m)) rs ->
  let r := exec n (SMesh xml :: SOpen h5 :: SWriteMesh h5 "mesh" :: reg_stmts h5 rs) d e in
  (snd r = 0 -> fs_get (fst r) h5 = Some (H5 (("mesh", ("mesh", m)) :: map (fun r => (snd r, (snd r, m))) rs))) /\
  (3 + 2 * List.length rs <= n -> snd r = 0).
Proof.
  intros N X R. cbn -[reg_stmts Nat.mul]. destruct n as [| [| [| n]]]; try (split; [discriminate | lia]).
  - rewrite X. split; [discriminate | lia].
  - rewrite X. split; [discriminate | lia].
  - rewrite X. cbn -[reg_stmts Nat.mul]. unfold h5_write. rewrite get_set_same. cbn -[reg_stmts Nat.mul].
    set (d2 := fs_set (fs_set d h5 (H5 [])) h5 (H5 [("mesh", ("mesh", m))])).
    assert (Forall (fun r => fst r <> h5 /\ fs_get d2 (fst r) = Some (XmlRegion (snd r) m)) rs) as R'.
    { eapply Forall_impl; [| exact R]. intros r [N2 K]. split; [exact N2 |]. unfold d2. now rewrite !get_set_other by exact N2. }
    assert (fs_get d2 h5 = Some (H5 [("mesh", ("mesh", m))])) as G by apply get_set_same. split.
    + intros Z. destruct (exec n _ _ _) as [d' st] eqn:E. cbn in Z |- *. subst st. exact (exec_regions h5 m rs n d2 _ _ d' R' G E).
    + intros L. refine (exec_regions_ends h5 m rs n d2 _ _ _ R' G). lia.
Qed.
Lemma fold_sets_In l : forall d, NoDup (map fst l) -> forall f c, In (f, c) l -> fs_get (fold_left (fun d kc => fs_set d (fst kc) (snd kc)) l d) f = Some c.
Proof.
  induction l as [| [k c0] l IH]; intros d ND f c; cbn; [tauto |]. inversion ND as [| a b N ND']; subst. intros [E | I].
  - injection E as -> ->. destruct (fold_sets l (fs_set d f c)) as [F _]. rewrite F by exact N. apply get_set_same.
  - now apply IH.
Qed.
(** the directory after dolfin-convert *)
Lemma after_dolfin t d m : fs_get d "domain.msh" = Some (Msh m) -> absent scratch_xml d ->
  exists d2, dolfin_convert t "domain" "domain.msh" "domain.xml" d = (d2, Ok tt) /\
  (t_files t = 0 -> exists_ d2 "domain.xml" = false) /\
  (1 <= t_files t -> fs_get d2 "domain.xml" = Some (XmlMesh m) /\
    filter (fun r => exists_ d2 (fst r)) R2 = firstn (t_files t - 1) R2 /\
    Forall (fun r => fs_get d2 (fst r) = Some (XmlRegion (snd r) m)) (firstn (t_files t - 1) R2)).
Proof.
  intros M A. unfold dolfin_convert. rewrite M.
  assert (forall f, scratch_xml f -> exists_ d f = false) as X by (intros f S; apply exists_false, A, S).
  assert (exists_ d "domain.xml" = false) as X1 by (apply X; exists ".xml"; split; [reflexivity | now exists "domain"]).
  assert (exists_ d "domain_facet_region.xml" = false) as X2 by (apply X; exists "_facet_region.xml"; split; [reflexivity | now exists "domain_facet_region"]).
  assert (exists_ d "domain_physical_region.xml" = false) as X3 by (apply X; exists "_physical_region.xml"; split; [reflexivity | now exists "domain_physical_region"]).
  eexists. split; [reflexivity |]. destruct (t_files t) as [| [| [| k]]].
  - cbn. split; [auto | lia].
  - split; [discriminate |]. intros _. cbn [firstn convert_files fold_left fst snd append].
    split; [apply get_set_same | split; [| constructor] ].
    apply exists_false in X2, X3. cbn [filter R2 fst]. unfold exists_. rewrite !get_set_other by discriminate. now rewrite X2, X3.
  - split; [discriminate |]. intros _. cbn [firstn convert_files fold_left fst snd append].
    split; [| split].
    + rewrite get_set_other by discriminate. apply get_set_same.
    + apply exists_false in X2, X3. cbn [filter R2 fst]. unfold exists_. rewrite get_set_same. rewrite !get_set_other by discriminate. now rewrite X3.
    + constructor; [| constructor]. cbn [fst snd]. apply get_set_same.
  - split; [discriminate |]. intros _. replace (firstn (Datatypes.S (Datatypes.S (Datatypes.S k)) - 1) R2) with R2 by (cbn; now rewrite firstn_nil).
    replace (firstn (Datatypes.S (Datatypes.S (Datatypes.S k))) (convert_files "domain" "domain.xml" m)) with (convert_files "domain" "domain.xml" m) by (cbn; now rewrite firstn_nil).
    cbn [convert_files fold_left fst snd append]. split; [| split].
    + rewrite !get_set_other by discriminate. apply get_set_same.
    + cbn [filter R2 fst]. unfold exists_. rewrite get_set_same. rewrite get_set_other by discriminate. now rewrite get_set_same.
    + constructor; [cbn [fst snd]; rewrite get_set_other by discriminate; apply get_set_same |].
      constructor; [cbn [fst snd]; apply get_set_same | constructor].
Qed.
Lemma R2_not h5 k : (forall x, h5 <> "domain" ++ x) -> Forall (fun r => fst r <> h5) (firstn k R2).
Proof.
  intros N. apply Forall_forall. intros r I. assert (In r R2) as J by (rewrite <- (firstn_skipn k R2), in_app_iff; now left).
  destruct J as [<- | [<- | []]]; cbn; intros <-; [apply (N "_facet_region.xml") | apply (N "_physical_region.xml")]; reflexivity.
Qed.
Lemma convert_spec t h5 d m : (forall x, h5 <> "domain" ++ x) -> snd (splitext h5) = ".h5" ->
  fs_get d "domain.msh" = Some (Msh m) -> absent scratch_xml d -> uniq d ->
  (forall d' b, convert t "domain.msh" h5 d = (d', Ok b) -> b = true /\ absent scratch d' /\
     fs_get d' h5 = Some (H5 (("mesh", ("mesh", m)) :: map (fun r => (snd r, (snd r, m))) (firstn (t_files t - 1) R2)))) /\
  (3 <= t_files t -> 7 <= t_stmts t -> exists d', convert t "domain.msh" h5 d = (d', Ok true)).
Proof.
  intros N X M A U. destruct (after_dolfin t d m M A) as [d2 [D [D0 D1]]].
  assert (uniq d2) as U2. { pose proof (proj2 (dolfin_keeps t h5 d) U) as K. rewrite D in K. exact K. }
  assert (forall k, Forall (fun r => fs_get d2 (fst r) = Some (XmlRegion (snd r) m)) (firstn k R2) -> Forall (fun r => fst r <> h5 /\ fs_get d2 (fst r) = Some (XmlRegion (snd r) m)) (firstn k R2)) as FN.
  { intros k F. pose proof (R2_not h5 k N) as G. rewrite Forall_forall in *. auto. }
  assert ("domain.xml" <> h5) as NX by (intros <-; now apply (N ".xml")).
  assert (~ (ends_with ".xml" h5 = true /\ starts_with "domain" h5 = true)) as K1 by (intros [_ S]; apply prefix_inv in S; destruct S as [x S]; now apply (N x)).
  assert (~ (ends_with ".msh" h5 = true /\ starts_with "domain" h5 = true)) as K2 by (intros [_ S]; apply prefix_inv in S; destruct S as [x S]; now apply (N x)).
  unfold convert. change (fst (splitext "domain.msh")) with "domain". cbv zeta. split.
  - intros d' b E.
    apply bind_ok in E. destruct E as [e1 [u1 [E1 E]]]. apply assert_ok in E1. destruct E1 as [-> _].
    apply bind_ok in E. destruct E as [e2 [u2 [E2 E]]]. apply assert_ok in E2. destruct E2 as [-> _].
    apply bind_ok in E. destruct E as [e3 [u3 [E3 E]]]. change ("domain" ++ "." ++ "xml") with "domain.xml" in *. rewrite D in E3. injection E3 as <- <-.
    apply bind_ok in E. destruct E as [e4 [u4 [E4 E]]]. apply assert_ok in E4. destruct E4 as [-> E4].
    assert (1 <= t_files t) as L. { destruct (t_files t); [| lia]. rewrite D0 in E4 by reflexivity. discriminate. }
    destruct (D1 L) as [G [FI FA]].
    apply bind_ok in E. destruct E as [e5 [rs [E5 E]]]. rewrite region_cmds_eq, FI in E5. injection E5 as <- <-.
    apply bind_ok in E. destruct E as [e6 [st [E6 E]]].
    apply bind_ok in E. destruct E as [e7 [u7 [E7 E]]]. apply assert_ok in E7. destruct E7 as [-> E7]. apply Nat.eqb_eq in E7. subst st.
    apply bind_ok in E. destruct E as [e8 [u8 [E8 E]]]. apply assert_ok in E8. destruct E8 as [-> _].
    assert (uniq e6) as U6.
    { assert (Forall (writes_to h5) (SMesh "domain.xml" :: SOpen h5 :: SWriteMesh h5 "mesh" :: reg_stmts h5 (firstn (t_files t - 1) R2))) as W
        by (do 3 (constructor; [cbn; auto |]); apply reg_stmts_to).
      pose proof (proj2 (python_keeps t h5 _ W d2) U2) as K. rewrite E6 in K. exact K. }
    assert (fs_get e6 h5 = Some (H5 (("mesh", ("mesh", m)) :: map (fun r => (snd r, (snd r, m))) (firstn (t_files t - 1) R2)))) as G6.
    { unfold python in E6. destruct (exec_all h5 "domain.xml" m (firstn (t_files t - 1) R2) (t_stmts t) d2 {| e_mesh := None; e_f := None |} NX G (FN _ FA)) as [H _].
      cbv zeta in H. destruct (exec _ _ _ _) as [d6 s6]. injection E6 as -> ->. now apply H. }
    apply bind_ok in E. destruct E as [e9 [u9 [E9 E]]]. destruct (cleanup_ok ".xml" e6 U6) as [c1 [C1 [V1 [A1 [F1 N1]]]]]. rewrite C1 in E9. injection E9 as <- <-.
    apply bind_ok in E. destruct E as [e10 [u10 [E10 E]]]. destruct (cleanup_ok ".msh" c1 V1) as [c2 [C2 [V2 [A2 [F2 N2]]]]]. rewrite C2 in E10. injection E10 as <- <-.
    injection E as <- <-. split; [reflexivity |]. split.
    + intros f [x [Ex [y [Ey | Ey]]]].
      * apply N2, A1; [rewrite Ey; apply suffix_app | rewrite Ex; apply prefix_app].
      * apply A2; [rewrite Ey; apply suffix_app | rewrite Ex; apply prefix_app].
    + now rewrite F2, F1 by assumption.
  - intros L3 L7. destruct (D1 ltac:(lia)) as [G [FI FA]].
    destruct (exec_all h5 "domain.xml" m (firstn (t_files t - 1) R2) (t_stmts t) d2 {| e_mesh := None; e_f := None |} NX G (FN _ FA)) as [H1 H2]. cbv zeta in H1, H2.
    assert (firstn (t_files t - 1) R2 = R2) as FR. { destruct (t_files t) as [| [| [| k]]]; try lia. cbn. now rewrite firstn_nil. }
    rewrite FR in *. specialize (H2 L7).
    destruct (exec (t_stmts t) (SMesh "domain.xml" :: SOpen h5 :: SWriteMesh h5 "mesh" :: reg_stmts h5 R2) d2 {| e_mesh := None; e_f := None |}) as [d6 s6] eqn:E6. cbn [fst snd] in H1, H2. subst s6. specialize (H1 eq_refl).
    assert (uniq d6) as U6.
    { assert (Forall (writes_to h5) (SMesh "domain.xml" :: SOpen h5 :: SWriteMesh h5 "mesh" :: reg_stmts h5 R2)) as W
        by (do 3 (constructor; [cbn; auto |]); apply reg_stmts_to).
      pose proof (proj2 (exec_frame h5 _ (t_stmts t) d2 {| e_mesh := None; e_f := None |} W) U2) as K. rewrite E6 in K. exact K. }
    destruct (cleanup_ok ".xml" d6 U6) as [c1 [C1 [V1 _]]]. destruct (cleanup_ok ".msh" c1 V1) as [c2 [C2 _]]. exists c2.
    rewrite (bind_run _ _ _ d tt) by now apply assert_run.
    rewrite (bind_run _ _ _ d tt) by (apply assert_run; now rewrite X).
    change ("domain" ++ "." ++ "xml") with "domain.xml". rewrite (bind_run _ _ _ d2 tt) by exact D.
    rewrite (bind_run _ _ _ d2 tt) by (apply assert_run, exists_spec; rewrite G; discriminate).
    rewrite (bind_run _ _ _ d2 (reg_stmts h5 R2)) by (rewrite region_cmds_eq, FI; reflexivity).
    rewrite (bind_run _ _ _ d6 0) by (unfold python; now rewrite E6).
    rewrite (bind_run _ _ _ d6 tt) by now apply assert_run.
    rewrite (bind_run _ _ _ d6 tt) by (apply assert_run, exists_spec; rewrite H1; discriminate).
    rewrite (bind_run _ _ _ c1 tt) by exact C1. rewrite (bind_run _ _ _ c2 tt) by exact C2. reflexivity.
Qed.

(** ** generate and load *)
Definition loaded (p : params) (m : mesh) : list dset := map (fun k => (k, m)) (match p with D123 _ _ => ["mesh"; "facet"; "physical"] | Enumath _ => ["mesh"] end).
Lemma geo_not_name p : "domain.geo" <> h5_file_name p.
Proof. intros E. symmetry in E. now apply (name_not_domain p ".geo") in E. Qed.
Lemma geo_not_scratch : ~ scratch "domain.geo".
Proof.
  intros [x [_ [y [E | E]]]].
  - pose proof (suffix_app ".xml" y) as H. rewrite <- E in H. discriminate.
  - pose proof (suffix_app ".msh" y) as H. rewrite <- E in H. discriminate.
Qed.
Lemma name_not_scratch p : ~ scratch (h5_file_name p).
Proof. intros [x [E _]]. now apply (name_not_domain p x) in E. Qed.
Lemma xml_not_msh f : scratch_xml f -> f <> "domain.msh".
Proof. intros [x [_ [y E]]] ->. pose proof (suffix_app ".xml" y) as H. rewrite <- E in H. discriminate. Qed.

Lemma generate_ok t p d d' f g : uniq d -> fs_get d "domain.geo" = Some (Geo g) -> absent scratch_xml d ->
  (t_gmsh t = 0 -> t_msh t = true \/ fs_get d "domain.msh" = None) -> fs_get d (h5_file_name p) = None ->
  generate t p d = (d', Ok f) ->
  f = h5_file_name p /\ absent scratch d' /\ t_gmsh t = 0 /\
  fs_get d' f = Some (H5 (("mesh", ("mesh", (g, command p))) :: map (fun r => (snd r, (snd r, (g, command p)))) (firstn (t_files t - 1) R2))).
Proof.
  intros U G A T X. unfold generate. apply exists_false in X. rewrite X. intros E.
  apply bind_ok in E. destruct E as [d1 [st [E1 E]]]. unfold gmsh in E1. rewrite G in E1. injection E1 as E1 <-.
  apply bind_ok in E. destruct E as [d2 [u2 [E2 E]]]. apply assert_ok in E2. destruct E2 as [-> E2]. apply Nat.eqb_eq in E2.
  apply bind_ok in E. destruct E as [d3 [u3 [E3 E]]]. apply assert_ok in E3. destruct E3 as [-> E3].
  assert (t_msh t = true) as W.
  { destruct (T E2) as [W | W]; [exact W |]. destruct (t_msh t); [reflexivity |]. subst d1. apply exists_spec in E3. congruence. }
  rewrite W in E1. subst d1.
  apply bind_ok in E. destruct E as [d4 [ok [E4 E]]].
  destruct (convert_spec t (h5_file_name p) (fs_set d "domain.msh" (Msh (g, command p))) (g, command p)) as [C _].
  - apply name_not_domain.
  - apply name_ext.
  - apply get_set_same.
  - intros k K. rewrite get_set_other; [now apply A | now apply xml_not_msh].
  - now apply uniq_set.
  - destruct (C _ _ E4) as [-> [C1 C2]]. apply bind_ok in E. destruct E as [d5 [u5 [E5 E]]]. apply assert_ok in E5. destruct E5 as [-> _].
    injection E as <- <-. repeat split; auto.
Qed.
Lemma generate_runs t p d g : uniq d -> fs_get d "domain.geo" = Some (Geo g) -> absent scratch_xml d -> reliable t -> fs_get d (h5_file_name p) = None ->
  (t_gmsh t = 0 -> exists d', generate t p d = (d', Ok (h5_file_name p))) /\
  (t_gmsh t <> 0 -> generate t p d = (if t_msh t then fs_set d "domain.msh" (Msh (g, command p)) else d, Err AssertionError)).
Proof.
  intros U G A [T1 [T2 T3]] X. unfold generate. apply exists_false in X. rewrite X. split.
  - intros Z. specialize (T1 Z).
    rewrite (bind_run _ _ d (fs_set d "domain.msh" (Msh (g, command p))) (t_gmsh t)) by (unfold gmsh; now rewrite G, T1).
    rewrite (bind_run _ _ _ (fs_set d "domain.msh" (Msh (g, command p))) tt) by (apply assert_run; now rewrite Z).
    rewrite (bind_run _ _ _ (fs_set d "domain.msh" (Msh (g, command p))) tt) by (apply assert_run, exists_spec; rewrite get_set_same; discriminate).
    destruct (convert_spec t (h5_file_name p) (fs_set d "domain.msh" (Msh (g, command p))) (g, command p)) as [_ C].
    + apply name_not_domain.
    + apply name_ext.
    + apply get_set_same.
    + intros k K. rewrite get_set_other; [now apply A | now apply xml_not_msh].
    + now apply uniq_set.
    + destruct (C T2 T3) as [d' C']. exists d'. rewrite (bind_run _ _ _ d' true) by exact C'. reflexivity.
  - intros Z. unfold pbind at 1, gmsh. rewrite G. unfold pbind, p_assert. destruct (t_gmsh t); [congruence |]. reflexivity.
Qed.

(** the directories of sessions in which the programs do what they should *)
Definition sound (g : nat) (d : fs) : Prop :=
  uniq d /\ fs_get d "domain.geo" = Some (Geo g) /\ absent scratch_xml d /\
  forall p, fs_get d (h5_file_name p) = None \/ fs_get d (h5_file_name p) = Some (complete (g, command p)).
Lemma load_fst t p d : fst (load t p d) = fst (generate t p d).
Proof. unfold load, pbind. destruct (generate t p d) as [d' [f | e]]; reflexivity. Qed.
Lemma read_complete p m : mapM (h5_read [("mesh", ("mesh", m)); ("facet", ("facet", m)); ("physical", ("physical", m))]) (match p with D123 _ _ => ["mesh"; "facet"; "physical"] | Enumath _ => ["mesh"] end) = Ok (loaded p m).
Proof. destruct p; reflexivity. Qed.
Lemma sound_load g t p d : sound g d -> reliable t ->
  sound g (fst (load t p d)) /\
  (snd (load t p d) = Ok (loaded p (g, command p)) \/ t_gmsh t <> 0 /\ snd (load t p d) = Err AssertionError).
Proof.
  intros [U [G [A C]]] R. rewrite load_fst.
  assert (uniq (fst (generate t p d))) as U' by (apply (generate_keeps t p d), U).
  assert (fs_get (fst (generate t p d)) "domain.geo" = Some (Geo g)) as G'.
  { destruct (generate_keeps t p d) as [F _]. rewrite F; [exact G |]. split; [apply geo_not_name | apply geo_not_scratch]. }
  destruct (C p) as [N | Y].
  - destruct (generate_runs t p d g U G A R N) as [R0 R1]. destruct (Nat.eq_dec (t_gmsh t) 0) as [Z | Z].
    + destruct (R0 Z) as [d' E].
      destruct (generate_ok t p d d' _ g U G A (fun z => or_introl (proj1 R z)) N E) as [_ [S1 [_ S2]]].
      assert (firstn (t_files t - 1) R2 = R2) as FR. { destruct R as [_ [L _]]. destruct (t_files t) as [| [| [| k]]]; try lia. cbn. now rewrite firstn_nil. }
      rewrite FR in S2. rewrite E in *. cbn [fst] in *. split.
      * repeat split; auto; [intros f F; now apply S1, scratch_xml_scratch |]. intros q. destruct (string_dec (h5_file_name q) (h5_file_name p)) as [Q | Q].
        -- right. rewrite Q, S2, (same_name _ _ Q). reflexivity.
        -- destruct (generate_keeps t p d) as [F _]. rewrite E in F. cbn [fst] in F. rewrite F; [apply C |]. split; [exact Q | apply name_not_scratch].
      * left. unfold load. rewrite (bind_run _ _ _ _ _ E). cbn [snd]. rewrite S2. apply read_complete.
    + specialize (R1 Z). rewrite R1 in *. cbn [fst] in *. split.
      * repeat split; auto.
        -- intros f F. destruct (t_msh t); [rewrite get_set_other by now apply xml_not_msh |]; now apply A.
        -- intros q. destruct (t_msh t); [| apply C]. rewrite get_set_other; [apply C |]. intros Q. apply (name_not_domain q ".msh"). exact Q.
      * right. split; [exact Z |]. unfold load, pbind. now rewrite R1.
  - assert (generate t p d = (d, Ok (h5_file_name p))) as E. { unfold generate. assert (exists_ d (h5_file_name p) = true) as -> by (apply exists_spec; rewrite Y; discriminate). reflexivity. }
    rewrite E. cbn [fst]. split; [repeat split; auto |]. left. unfold load. rewrite (bind_run _ _ _ _ _ E). cbn [snd]. rewrite Y. apply read_complete.
Qed.
Lemma sound_session g l : forall d, sound g d -> Forall well_run l -> sound g (session d l).
Proof.
  induction l as [| e l IH]; intros d S W; cbn; [exact S |]. pose proof (Forall_inv W) as W1. pose proof (Forall_inv_tail W) as W2.
  destruct e as [t p | g']; cbn in W1; [| tauto]. apply IH; [| exact W2]. cbn. now apply sound_load.
Qed.
