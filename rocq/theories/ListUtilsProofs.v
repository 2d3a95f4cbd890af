(** Specification vocabulary for nested lists and the lemmas behind C01, C02. *)
From Verif Require Import Base BaseProofs ListUtilsModel.

(** * Specification *)
Section Spec.
Context {A : Type}.

(** Row-major enumeration of the entries. *)
Fixpoint leaves (t : tree A) : list A :=
  match t with Leaf a => [a] | Node l => flat_map leaves l end.

(** [t] is a rectangular nested list of shape [s], all extents positive. *)
Fixpoint rect (s : list nat) (t : tree A) : Prop :=
  match s with
  | [] => exists a, t = Leaf a
  | n :: s' => exists l, t = Node l /\ length l = n /\ 0 < n /\ Forall (rect s') l
  end.

(** Entry at a multi-index: t[i0][i1]... *)
Fixpoint get (t : tree A) (idx : list nat) : option A :=
  match idx, t with
  | [], Leaf a => Some a
  | i :: idx', Node l => match nth_error l i with Some u => get u idx' | None => None end
  | _, _ => None
  end.

(** Two items of one list, somewhere in [t], are rectangular of different shapes. *)
Inductive ragged : tree A -> Prop :=
| ragged_here l u v su sv :
    In u l -> In v l -> rect su u -> rect sv v -> su <> sv -> ragged (Node l)
| ragged_below l u : In u l -> ragged u -> ragged (Node l).

End Spec.

Definition prod_shape (s : list nat) : nat := fold_right Nat.mul 1 s.

(** Row-major linear index of a multi-index in shape [s]. *)
Fixpoint linear_index (s idx : list nat) : nat :=
  match s, idx with
  | _ :: s', i :: idx' => i * prod_shape s' + linear_index s' idx'
  | _, _ => 0
  end.

(** * Lemmas *)
Section Lemmas.
Context {A : Type}.
Implicit Types (t u : tree A) (l : list (tree A)) (s : list nat).

Lemma tree_ind_nested (P : tree A -> Prop) :
  (forall a, P (Leaf a)) -> (forall l, Forall P l -> P (Node l)) -> forall t, P t.
Proof.
  intros HL HN. fix IH 1. intros [a|l]; [apply HL|].
  apply HN. induction l as [|x l IHl]; constructor; [apply IH | apply IHl].
Qed.

Lemma eqb_shape_refl s : eqb_shape s s = true.
Proof. induction s; [reflexivity|]. cbn. rewrite Nat.eqb_refl. assumption. Qed.

Lemma eqb_shape_eq s s' : eqb_shape s s' = true <-> s = s'.
Proof.
  split; [|intros ->; apply eqb_shape_refl].
  revert s'. induction s as [|x s IH]; intros [|y s']; cbn; try discriminate; [reflexivity|].
  intros H. apply andb_true_iff in H as [H1 H2]. apply Nat.eqb_eq in H1. f_equal; auto.
Qed.

Lemma shape_list_node_cons x l :
  shape_list (Node (x :: l)) =
  do sx <- shape_list x; do ss <- mapM shape_list l;
  do _ <- py_assert (forallb (eqb_shape sx) ss); Ok (S (length l) :: sx).
Proof.
  change (shape_list (Node (x :: l))) with
    (do shapes <- mapM shape_list (x :: l);
      match shapes with
      | [] => Ok []
      | s :: rest =>
        do _ <- py_assert (forallb (eqb_shape s) rest);
        Ok (length (x :: l) :: s)
      end).
  rewrite mapM_cons. destruct (shape_list x); cbn [bind]; [|reflexivity].
  destruct (mapM shape_list l); cbn [bind]; reflexivity.
Qed.

Lemma shape_list_rect s t : rect s t -> shape_list t = Ok s.
Proof.
  revert t. induction s as [|n s IH]; intros t.
  - intros [a ->]. reflexivity.
  - intros (l & -> & <- & Hpos & Hl).
    destruct l as [|x l]; [cbn in Hpos; lia|].
    rewrite shape_list_node_cons.
    inversion Hl as [|? ? Hx Hl']; subst.
    rewrite (IH x Hx). cbn [bind].
    rewrite (mapM_map shape_list (fun _ => s) l).
    2:{ eapply Forall_impl; [|exact Hl']. intros y Hy. apply IH, Hy. }
    cbn [bind].
    assert (forallb (eqb_shape s) (map (fun _ => s) l) = true) as ->.
    { apply forallb_forall. intros z Hz. apply in_map_iff in Hz as (y & <- & _). apply eqb_shape_refl. }
    reflexivity.
Qed.

Lemma shape_list_err t e : shape_list t = Err e -> e = AssertionError.
Proof.
  revert e. induction t as [a|l IH] using tree_ind_nested; intros e H; [discriminate|].
  destruct l as [|x l]; [discriminate|].
  rewrite shape_list_node_cons in H. inversion IH as [|? ? Hx Hl]; subst.
  destruct (shape_list x) as [sx|ex] eqn:Ex; cbn [bind] in H.
  - destruct (mapM shape_list l) as [ss|es] eqn:Es; cbn [bind] in H.
    + unfold py_assert in H. destruct (forallb _ ss); cbn [bind] in H; congruence.
    + inversion H; subst. apply mapM_err_in in Es as (y & Hy & Hey).
      rewrite Forall_forall in Hl. eapply Hl; eauto.
  - inversion H; subst. apply Hx. reflexivity.
Qed.

Lemma ragged_shape_list t : ragged t -> shape_list t = Err AssertionError.
Proof.
  induction 1 as [l u v su sv Hu Hv Hru Hrv Hne | l u Hu Hr IH].
  - destruct (shape_list (Node l)) as [s|e] eqn:E; [|f_equal; eapply shape_list_err; eauto].
    exfalso. destruct l as [|x l]; [inversion Hu|].
    rewrite shape_list_node_cons in E.
    destruct (shape_list x) as [sx|ex] eqn:Ex; cbn [bind] in E; [|discriminate].
    destruct (mapM shape_list l) as [ss|es] eqn:Es; cbn [bind] in E; [|discriminate].
    destruct (forallb (eqb_shape sx) ss) eqn:Ef; cbn in E; [|discriminate].
    assert (Hall : forall y, In y (x :: l) -> shape_list y = Ok sx).
    { intros y [<-|Hy]; [assumption|].
      apply mapM_ok_forall in Es.
      clear -Es Ef Hy. induction Es as [|a b l ss Hab Es IH]; [inversion Hy|].
      cbn in Ef. apply andb_true_iff in Ef as [E1 E2]. apply eqb_shape_eq in E1. subst b.
      destruct Hy as [<-|Hy]; [assumption|auto]. }
    apply Hne. apply Hall in Hu. apply Hall in Hv.
    apply shape_list_rect in Hru. apply shape_list_rect in Hrv. congruence.
  - destruct (shape_list (Node l)) as [s|e] eqn:E; [|f_equal; eapply shape_list_err; eauto].
    exfalso. destruct l as [|x l]; [inversion Hu|].
    rewrite shape_list_node_cons in E.
    destruct Hu as [<-|Hu].
    + rewrite IH in E. discriminate.
    + destruct (shape_list x) as [sx|ex] eqn:Ex; cbn [bind] in E; [|discriminate].
      destruct (mapM_err_from shape_list l u AssertionError Hu IH) as [e' He'].
      rewrite He' in E. discriminate.
Qed.

(** ** Flattening *)

Lemma flat_map_leaves_concat (ls : list (list (tree A))) :
  flat_map leaves (concat ls) = flat_map (fun l => flat_map leaves l) ls.
Proof.
  induction ls as [|l ls IH]; [reflexivity|]. cbn. rewrite flat_map_app, IH. reflexivity.
Qed.

Lemma flatten_loop_rect s : forall n l,
  rect (n :: s) (Node l) ->
  flatten_loop s (Node l) = Ok (Node (map Leaf (leaves (Node l)))).
Proof.
  induction s as [|m s IH]; intros n l (l' & E & Hn & Hpos & Hl); inversion E; subst l'; clear E.
  - cbn [flatten_loop]. do 2 f_equal. cbn [leaves].
    clear -Hl. induction Hl as [|x l [a ->] Hl IHl]; [reflexivity|]. cbn. f_equal. exact IHl.
  - cbn [flatten_loop]. unfold sum_lists. cbn [children bind].
    assert (exists ls, mapM children l = Ok ls /\ length (concat ls) = n * m
              /\ Forall (rect s) (concat ls) /\ flat_map leaves (concat ls) = flat_map leaves l)
      as (ls & -> & Hlen & Hrect & Hleaves).
    { subst n. clear Hpos IH. induction Hl as [|x l (lx & -> & Hlx & Hm & Hrx) Hl IHl].
      - exists []. repeat split; constructor.
      - destruct IHl as (ls & E & Hlen & Hrect & Hleaves).
        exists (lx :: ls). rewrite mapM_cons. cbn [children bind]. rewrite E. cbn [bind].
        split; [reflexivity|]. cbn [concat]. rewrite app_length, Hlen. cbn [length].
        split; [lia|]. split; [apply Forall_app; split; assumption|].
        rewrite flat_map_app, Hleaves. reflexivity. }
    cbn [bind]. rewrite (IH (n * m) (concat ls)).
    + cbn [leaves]. rewrite Hleaves. reflexivity.
    + exists (concat ls). repeat split; auto.
      assert (0 < m); [|nia]. destruct l as [|x l]; [cbn in Hn; lia|].
      inversion Hl as [|? ? (lx & _ & _ & Hm & _) _]. assumption.
Qed.

Lemma flatten_list_rect s t : s <> [] -> rect s t ->
  flatten_list t = Ok (Node (map Leaf (leaves t))).
Proof.
  intros Hs Ht. destruct s as [|n s]; [contradiction|].
  unfold flatten_list. rewrite (shape_list_rect _ _ Ht). cbn [bind tl].
  destruct Ht as (l & -> & H). apply (flatten_loop_rect s n). exists l. auto.
Qed.

Lemma leaves_length s t : rect s t -> length (leaves t) = prod_shape s.
Proof.
  revert t. induction s as [|n s IH]; intros t.
  - intros [a ->]. reflexivity.
  - intros (l & -> & <- & _ & Hl). cbn [leaves prod_shape fold_right].
    induction Hl as [|x l Hx Hl IHl]; [reflexivity|].
    cbn. rewrite app_length, IHl, (IH x Hx). reflexivity.
Qed.

Lemma prod_pos s t : rect s t -> 0 < prod_shape s.
Proof.
  revert t. induction s as [|n s IH]; intros t H; [cbn; lia|].
  destruct H as (l & -> & <- & Hpos & Hl). destruct l as [|x l]; [cbn in Hpos; lia|].
  inversion Hl; subst. cbn [prod_shape fold_right]. fold (prod_shape s).
  assert (0 < prod_shape s) by eauto. nia.
Qed.

(** ** Packaging *)

Lemma package_ok count : 0 < count -> forall k s fuel l,
  length l = k * count -> length l < fuel -> Forall (rect s) l ->
  exists ps, package fuel l count = Ok ps /\ length ps = k
    /\ Forall (rect (count :: s)) ps /\ flat_map leaves ps = flat_map leaves l.
Proof.
  intros Hc. induction k as [|k IH]; intros s fuel l Hlen Hfuel Hl.
  - destruct l; [|cbn in Hlen; lia]. destruct fuel as [|fuel]; [cbn in Hfuel; lia|].
    exists []. repeat split; constructor.
  - destruct fuel as [|fuel]; [lia|]. cbn [package].
    destruct l as [|x l0] eqn:El; [cbn in Hlen; nia|]. rewrite <- El in *. clear El.
    destruct (IH s fuel (skipn count l)) as (ps & E & Hk & Hps & Hlv).
    + rewrite skipn_length. nia.
    + rewrite skipn_length. nia.
    + rewrite Forall_forall in *. intros y Hy. apply Hl.
      rewrite <- (firstn_skipn count l). apply in_or_app. right. exact Hy.
    + rewrite E. cbn [bind]. exists (Node (firstn count l) :: ps).
      split; [reflexivity|]. split; [cbn; lia|]. split.
      * constructor; [|assumption]. exists (firstn count l).
        split; [reflexivity|]. split; [rewrite firstn_length; nia|]. split; [assumption|].
        rewrite Forall_forall in *. intros y Hy. apply Hl.
        rewrite <- (firstn_skipn count l). apply in_or_app. left. exact Hy.
      * cbn [flat_map leaves]. rewrite Hlv.
        rewrite <- flat_map_app, firstn_skipn. reflexivity.
Qed.

Lemma prod_shape_app s s' : prod_shape (s ++ s') = prod_shape s * prod_shape s'.
Proof. induction s as [|x s IH]; [symmetry; apply Nat.mul_1_l|]. cbn [app prod_shape fold_right]. fold (prod_shape (s ++ s')) (prod_shape s). rewrite IH. lia. Qed.

Lemma package_loop_ok n : 0 < n -> forall rs s l,
  Forall (fun c => 0 < c) rs -> length l = n * prod_shape rs -> Forall (rect s) l ->
  exists t, package_loop rs (Node l) = Ok t /\ rect (n :: rev rs ++ s) t
    /\ leaves t = flat_map leaves l.
Proof.
  intros Hn. induction rs as [|c rs IH]; intros s l Hrs Hlen Hl.
  - exists (Node l). split; [reflexivity|]. split; [|reflexivity].
    cbn [rev app]. exists l. cbn in Hlen. repeat split; auto. lia.
  - inversion Hrs as [|? ? Hc Hrs']; subst. cbn [package_loop children bind].
    cbn [prod_shape fold_right] in Hlen. fold (prod_shape rs) in Hlen.
    destruct (package_ok c Hc (n * prod_shape rs) s (S (length l)) l) as (ps & -> & Hk & Hps & Hlv);
      [lia|lia|assumption|].
    cbn [bind]. destruct (IH (c :: s) ps Hrs' Hk Hps) as (t & -> & Ht & Hlt).
    exists t. split; [reflexivity|]. split; [|congruence].
    cbn [rev]. rewrite <- app_assoc. exact Ht.
Qed.

Lemma fold_left_mul s x : fold_left Nat.mul s x = x * prod_shape s.
Proof.
  revert x. induction s as [|y s IH]; intros x; cbn [fold_left prod_shape fold_right]; [lia|]. fold (prod_shape s). rewrite IH. lia.
Qed.

Lemma reduce_mul_prod s : s <> [] -> reduce_mul s = Ok (prod_shape s).
Proof. destruct s as [|x s]; [contradiction|]. intros _. cbn. rewrite fold_left_mul. reflexivity. Qed.

Lemma prod_shape_rev s : prod_shape (rev s) = prod_shape s.
Proof. induction s as [|x s IH]; [reflexivity|]. cbn [rev]. rewrite prod_shape_app, IH. cbn [prod_shape fold_right]. fold (prod_shape s). lia. Qed.

Lemma prod_pos_forall s : 0 < prod_shape s -> Forall (fun c => 0 < c) s.
Proof.
  induction s as [|x s IH]; intros H; constructor; cbn in H; fold (prod_shape s) in H.
  - nia.
  - apply IH. nia.
Qed.

Lemma Forall_leaf (l : list A) : Forall (rect []) (map Leaf l).
Proof. induction l; constructor; [exists a; reflexivity | assumption]. Qed.

Lemma flat_map_leaf (l : list A) : flat_map leaves (map Leaf l) = l.
Proof. induction l; [reflexivity|]. cbn. f_equal. assumption. Qed.

Lemma reshape_list_ok s t shape :
  s <> [] -> rect s t -> shape <> [] -> prod_shape s = prod_shape shape ->
  exists t', reshape_list t shape = Ok t' /\ rect shape t' /\ leaves t' = leaves t.
Proof.
  intros Hs Ht Hsh Hp. unfold reshape_list.
  rewrite (shape_list_rect _ _ Ht). cbn [bind].
  rewrite (reduce_mul_prod s Hs). cbn [bind].
  rewrite (reduce_mul_prod shape Hsh). cbn [bind].
  rewrite Hp, Nat.eqb_refl. cbn [py_assert bind].
  rewrite (flatten_list_rect s t Hs Ht). cbn [bind].
  destruct shape as [|n shape]; [contradiction|]. cbn [tl].
  assert (Hpos : 0 < prod_shape (n :: shape)) by (rewrite <- Hp; eapply prod_pos; eauto).
  pose proof (prod_pos_forall _ Hpos) as Hall. inversion Hall as [|? ? Hn Hall']; subst.
  destruct (package_loop_ok n Hn (rev shape) [] (map Leaf (leaves t))) as (t' & -> & Ht' & Hlv).
  - apply Forall_rev. assumption.
  - rewrite map_length, (leaves_length s t Ht), Hp, prod_shape_rev. reflexivity.
  - apply Forall_leaf.
  - exists t'. split; [reflexivity|]. rewrite rev_involutive, app_nil_r in Ht'.
    split; [assumption|]. rewrite Hlv. apply flat_map_leaf.
Qed.

Lemma reshape_list_mismatch s t shape :
  s <> [] -> rect s t -> shape <> [] -> prod_shape s <> prod_shape shape ->
  reshape_list t shape = Err AssertionError.
Proof.
  intros Hs Ht Hsh Hp. unfold reshape_list.
  rewrite (shape_list_rect _ _ Ht). cbn [bind].
  rewrite (reduce_mul_prod s Hs). cbn [bind].
  rewrite (reduce_mul_prod shape Hsh). cbn [bind].
  apply Nat.eqb_neq in Hp. rewrite Hp. reflexivity.
Qed.

Lemma rect_leaves_inj s : forall t t', rect s t -> rect s t' -> leaves t = leaves t' -> t = t'.
Proof.
  induction s as [|n s IH]; intros t t'.
  - intros [a ->] [b ->]. cbn. congruence.
  - intros (l & -> & Hn & _ & Hl) (l' & -> & Hn' & _ & Hl') E. f_equal.
    cbn [leaves] in E. subst n. revert l' Hn' Hl' E.
    induction Hl as [|x l Hx Hl IHl]; intros [|y l'] Hn' Hl' E; try discriminate; [reflexivity|].
    inversion Hl' as [|? ? Hy Hl'']; subst. cbn in E.
    assert (leaves x = leaves y /\ flat_map leaves l = flat_map leaves l') as [E1 E2].
    { apply (f_equal (firstn (prod_shape s))) in E as E1.
      apply (f_equal (skipn (prod_shape s))) in E as E2.
      pose proof (leaves_length s x Hx) as Lx. pose proof (leaves_length s y Hy) as Ly.
      rewrite <- Lx in E1 at 1. rewrite <- Ly in E1 at 1.
      rewrite <- Lx in E2 at 1. rewrite <- Ly in E2 at 1.
      rewrite !firstn_app, !firstn_all, !Nat.sub_diag, !firstn_O, !app_nil_r in E1.
      rewrite !skipn_app, !skipn_all, !Nat.sub_diag in E2. cbn in E2. auto. }
    f_equal; [auto|]. apply IHl; auto.
Qed.

(** ** Indexing *)

Lemma get_linear s : forall t idx, rect s t ->
  length idx = length s -> Forall2 lt idx s ->
  get t idx = nth_error (leaves t) (linear_index s idx) /\ linear_index s idx < prod_shape s.
Proof.
  induction s as [|n s IH]; intros t idx Ht Hlen Hb.
  - destruct idx; [|discriminate]. destruct Ht as [a ->]. cbn. split; [reflexivity|lia].
  - destruct idx as [|i idx]; [discriminate|]. inversion Hb as [|? ? ? ? Hi Hb']; subst.
    destruct Ht as (l & -> & <- & _ & Hl). cbn [get linear_index leaves].
    cbn in Hlen. injection Hlen as Hlen.
    assert (Hlt : linear_index s idx < prod_shape s).
    { destruct l as [|x l]; [cbn in Hi; lia|]. inversion Hl; subst. eapply (IH x); eauto. }
    split.
    2:{ cbn [prod_shape fold_right]. fold (prod_shape s). nia. }
    revert i Hi Hb. induction Hl as [|x l Hx Hl IHl]; intros i Hi Hb; [cbn in Hi; lia|].
    destruct i as [|i].
    + cbn [nth_error flat_map]. rewrite Nat.mul_0_l, Nat.add_0_l.
      rewrite nth_error_app1 by (rewrite (leaves_length s x Hx); assumption).
      apply IH; assumption.
    + cbn [nth_error flat_map]. cbn in Hi.
      rewrite nth_error_app2 by (rewrite (leaves_length s x Hx); cbn; nia).
      rewrite (leaves_length s x Hx).
      replace (S i * prod_shape s + linear_index s idx - prod_shape s)
        with (i * prod_shape s + linear_index s idx) by (cbn; lia).
      apply IHl; [lia|]. constructor; [lia|assumption].
Qed.

Lemma get_out_of_range s : forall t idx a, rect s t -> get t idx = Some a ->
  length idx = length s /\ Forall2 lt idx s.
Proof.
  induction s as [|n s IH]; intros t idx a Ht Hg.
  - destruct Ht as [b ->]. destruct idx; [split; [reflexivity|constructor]|discriminate].
  - destruct Ht as (l & -> & <- & _ & Hl). destruct idx as [|i idx]; [discriminate|].
    cbn [get] in Hg. destruct (nth_error l i) as [u|] eqn:E; [|discriminate].
    assert (Hu : rect s u) by (rewrite Forall_forall in Hl; apply Hl; eapply nth_error_In; eauto).
    destruct (IH u idx a Hu Hg) as [H1 H2]. split; [cbn; f_equal; assumption|].
    constructor; [|assumption]. apply nth_error_Some. congruence.
Qed.

End Lemmas.

(** ** Assembly *)
Section Assemble.
Context {A B : Type} (f : A -> res B).

Fixpoint tmap {X Y} (g : X -> Y) (t : tree X) : tree Y :=
  match t with Leaf a => Leaf (g a) | Node l => Node (map (tmap g) l) end.

Lemma rect_tmap {X Y} (g : X -> Y) s : forall t, rect s t -> rect s (tmap g t).
Proof.
  induction s as [|n s IH]; intros t.
  - intros [a ->]. exists (g a). reflexivity.
  - intros (l & -> & Hn & Hp & Hl). exists (map (tmap g) l). cbn [tmap].
    rewrite map_length. repeat split; auto.
    rewrite Forall_forall in *. intros y Hy. apply in_map_iff in Hy as (z & <- & Hz). auto.
Qed.

Lemma leaves_tmap {X Y} (g : X -> Y) s : forall t, rect s t -> leaves (tmap g t) = map g (leaves t).
Proof.
  induction s as [|n s IH]; intros t.
  - intros [a ->]. reflexivity.
  - intros (l & -> & Hn & Hp & Hl). cbn [tmap leaves]. clear Hn Hp.
    induction Hl as [|x l Hx Hl IHl]; [reflexivity|]. cbn. rewrite map_app, IHl, (IH x Hx). reflexivity.
Qed.

Lemma get_tmap {X Y} (g : X -> Y) : forall idx t, get (tmap g t) idx = option_map g (get t idx).
Proof.
  induction idx as [|i idx IH]; intros [a|l]; try reflexivity.
  cbn [tmap get]. rewrite nth_error_map. destruct (nth_error l i); cbn [option_map]; [apply IH|reflexivity].
Qed.

Definition wrap_block {X} (s : list nat) (t : tree (asm X)) : asm X :=
  if length s =? 1 then BlockVec t else BlockMat t.

Lemma assemble_leaf fuel a : assemble f (S fuel) (Leaf a) = do b <- f a; Ok (Tensor b).
Proof. reflexivity. Qed.

Lemma assemble_node fuel l : assemble f (S fuel) (Node l) =
  do shape <- shape_list (Node l);
  do flat <- flatten_list (Node l);
  do items <- children flat;
  do done <- mapM (assemble f fuel) items;
  do blocks <- reshape_list (Node (map Leaf done)) shape;
  Ok (wrap_block shape blocks).
Proof. reflexivity. Qed.

Lemma assemble_rect_ok fuel s t (g : A -> B) :
  s <> [] -> rect s t -> (forall a, In a (leaves t) -> f a = Ok (g a)) ->
  assemble f (S (S fuel)) t = Ok (wrap_block s (tmap (fun a => Tensor (g a)) t)).
Proof.
  intros Hs Ht Hg. destruct t as [a|l].
  { destruct s as [|n s]; [contradiction|]. destruct Ht as (l & E & _). discriminate. }
  rewrite assemble_node, (shape_list_rect s _ Ht). cbn [bind].
  rewrite (flatten_list_rect s _ Hs Ht). cbn [bind children].
  set (lv := leaves (Node l)) in *.
  assert (mapM (assemble f (S fuel)) (map Leaf lv) = Ok (map (fun a => Tensor (g a)) lv)) as ->.
  { clearbody lv. induction lv as [|a lv IH]; [reflexivity|].
    cbn [map]. rewrite mapM_cons, assemble_leaf, (Hg a (or_introl eq_refl)). cbn [bind].
    rewrite IH; [reflexivity|]. intros b Hb. apply Hg. right. exact Hb. }
  cbn [bind].
  set (flat := Node (map Leaf (map (fun a => Tensor (g a)) lv))).
  assert (Hlen : length lv = prod_shape s) by (apply leaves_length; assumption).
  assert (Hflat : rect [length lv] flat).
  { exists (map Leaf (map (fun a => Tensor (g a)) lv)). rewrite !map_length.
    repeat split; auto; [rewrite Hlen; eapply prod_pos; eauto|apply Forall_leaf]. }
  destruct (reshape_list_ok [length lv] flat s) as (t' & -> & Ht' & Hlv'); auto; [discriminate| |].
  { rewrite Hlen. cbn. lia. }
  cbn [bind]. do 2 f_equal.
  eapply (rect_leaves_inj s); [assumption|apply rect_tmap; assumption|].
  rewrite Hlv'. unfold flat. cbn [leaves]. rewrite flat_map_leaf.
  symmetry. apply (leaves_tmap _ s). assumption.
Qed.

Lemma assemble_rect_err fuel s t pre a post e (g : A -> B) :
  s <> [] -> rect s t -> leaves t = pre ++ a :: post ->
  (forall x, In x pre -> f x = Ok (g x)) -> f a = Err e ->
  assemble f (S (S fuel)) t = Err e.
Proof.
  intros Hs Ht Hlv Hpre Ha. destruct t as [b|l].
  { destruct s as [|n s]; [contradiction|]. destruct Ht as (l & E & _). discriminate. }
  rewrite assemble_node, (shape_list_rect s _ Ht). cbn [bind].
  rewrite (flatten_list_rect s _ Hs Ht). cbn [bind children].
  rewrite Hlv, map_app. cbn [map].
  rewrite (mapM_first_err _ (fun t => match t with Leaf x => Tensor (g x) | Node _ => Tensor (g a) end)
             (map Leaf pre) (Leaf a) (map Leaf post) e); [reflexivity| |].
  - rewrite Forall_forall. intros x Hx. apply in_map_iff in Hx as (y & <- & Hy).
    rewrite assemble_leaf, (Hpre y Hy). reflexivity.
  - rewrite assemble_leaf, Ha. reflexivity.
Qed.

Lemma assemble_ragged fuel t : ragged t -> assemble f (S fuel) t = Err AssertionError.
Proof.
  intros H. pose proof (ragged_shape_list t H) as E.
  destruct t as [a|l]; [inversion H|]. rewrite assemble_node, E. reflexivity.
Qed.

Lemma assemble_empty fuel : assemble f (S fuel) (Node []) = Err TypeError.
Proof. reflexivity. Qed.

(** A list that [shape_list] accepts without being rectangular contains an
    empty list among the flattened items. *)
Lemma shape_list_flat s : forall n (l : list (tree A)),
  shape_list (Node l) = Ok (n :: s) ->
  exists items, flatten_loop s (Node l) = Ok (Node items)
    /\ Forall (fun u => shape_list u = Ok []) items
    /\ ((forall u, In u items -> exists a, u = Leaf a) -> rect (n :: s) (Node l)).
Proof.
  assert (Hsib : forall n s (l : list (tree A)), shape_list (Node l) = Ok (n :: s) ->
            length l = n /\ 0 < n /\ Forall (fun u => shape_list u = Ok s) l).
  { intros n s0 l H. destruct l as [|x l]; [discriminate|].
    rewrite shape_list_node_cons in H.
    destruct (shape_list x) as [sx|] eqn:Ex; cbn [bind] in H; [|discriminate].
    destruct (mapM shape_list l) as [ss|] eqn:Es; cbn [bind] in H; [|discriminate].
    destruct (forallb (eqb_shape sx) ss) eqn:Ef; cbn in H; [|discriminate].
    inversion H; subst. split; [reflexivity|]. split; [lia|].
    constructor; [assumption|]. apply mapM_ok_forall in Es.
    clear -Es Ef. induction Es as [|a b l ss Hab Es IH]; constructor;
      cbn in Ef; apply andb_true_iff in Ef as [E1 E2]; apply eqb_shape_eq in E1; subst; auto. }
  induction s as [|m s IH]; intros n l H; destruct (Hsib _ _ _ H) as (Hn & Hpos & Hall).
  - exists l. split; [reflexivity|]. split; [assumption|].
    intros Hleaf. exists l. repeat split; auto. apply Forall_forall. exact Hleaf.
  - assert (exists ls, mapM children l = Ok ls /\ length ls = length l
              /\ Forall2 (fun u lu => u = Node lu /\ shape_list (Node lu) = Ok (m :: s)) l ls)
      as (ls & Els & Hlls & Hls).
    { clear -Hall. induction Hall as [|x l Hx Hl IHl].
      - exists []. repeat split; constructor.
      - destruct IHl as (ls & E & Hlen & H2).
        destruct x as [a|lx]; [discriminate|].
        exists (lx :: ls). rewrite mapM_cons. cbn [children bind]. rewrite E. cbn [bind].
        repeat split; [cbn; congruence|]. constructor; auto. }
    cbn [flatten_loop]. unfold sum_lists. cbn [children bind]. rewrite Els. cbn [bind].
    assert (Hc : shape_list (Node (concat ls)) = Ok (n * m :: s)).
    { assert (Hf : length (concat ls) = n * m /\ Forall (fun u => shape_list u = Ok s) (concat ls)).
      { subst n. clear -Hls Hsib. induction Hls as [|u lu l ls [_ Hu] Hls IHl].
        - split; [reflexivity|constructor].
        - destruct IHl as [H1 H2]. destruct (Hsib _ _ _ Hu) as (Hm & _ & Hfu).
          cbn [concat length]. rewrite app_length, H1, Hm. split; [lia|]. apply Forall_app; auto. }
      destruct Hf as [Hlen Hf].
      assert (0 < m).
      { destruct Hls as [|u lu l ls [_ Hu] Hls]; [cbn in Hn; lia|]. destruct (Hsib _ _ _ Hu) as (_ & Hm & _). exact Hm. }
      destruct (concat ls) as [|x c]; [cbn in Hlen; nia|].
      rewrite shape_list_node_cons. inversion Hf as [|? ? Hx Hc]; subst. rewrite Hx. cbn [bind].
      rewrite (mapM_map shape_list (fun _ => s) c Hc). cbn [bind].
      assert (forallb (eqb_shape s) (map (fun _ => s) c) = true) as ->.
      { apply forallb_forall. intros z Hz. apply in_map_iff in Hz as (y & <- & _). apply eqb_shape_refl. }
      cbn in *. congruence. }
    destruct (IH _ _ Hc) as (items & E & Hit & Hrect). exists items. split; [exact E|].
    split; [exact Hit|]. intros Hleaf. specialize (Hrect Hleaf).
    destruct Hrect as (c & Ec & _ & _ & Hrc). inversion Ec; subst c.
    exists l. repeat split; auto.
    clear -Hls Hrc Hsib. induction Hls as [|u lu l ls [-> Hu] Hls IHl]; constructor.
    + cbn [concat] in Hrc. apply Forall_app in Hrc as [H1 _].
      destruct (Hsib _ _ _ Hu) as (Hm & Hp & _). exists lu. auto.
    + apply IHl. cbn [concat] in Hrc. apply Forall_app in Hrc as [_ H2]. exact H2.
Qed.

Lemma assemble_not_rect l : (forall s, ~ rect s (Node l)) ->
  forall fuel, exists e, assemble f fuel (Node l) = Err e.
Proof.
  intros Hn [|fuel]; [eexists; reflexivity|]. rewrite assemble_node.
  destruct (shape_list (Node l)) as [s|e] eqn:Es; cbn [bind]; [|eexists; reflexivity].
  destruct s as [|n s].
  { destruct l as [|x l].
    - unfold flatten_list. rewrite Es. cbn [bind tl flatten_loop children].
      cbn. eexists; reflexivity.
    - rewrite shape_list_node_cons in Es.
      destruct (shape_list x); cbn [bind] in Es; [|discriminate].
      destruct (mapM shape_list l); cbn [bind] in Es; [|discriminate].
      destruct (forallb _ _); cbn in Es; discriminate. }
  destruct (shape_list_flat s n l Es) as (items & E & Hit & Hrect).
  unfold flatten_list. rewrite Es. cbn [bind tl]. rewrite E. cbn [bind children].
  assert (Hex : exists u, In u items /\ u = Node []).
  { assert (Hd : (forall u, In u items -> exists a, u = Leaf a) \/ exists u, In u items /\ u = Node []).
    { clear -Hit. induction Hit as [|u items Hu Hit IH]; [left; intros u []|].
      destruct u as [a|lu].
      - destruct IH as [IH|(v & Hv & Ev)].
        + left. intros v [<-|Hv]; [eauto|auto].
        + right. exists v. split; [right|]; assumption.
      - right. exists (Node lu). split; [left; reflexivity|]. destruct lu as [|x lu]; [reflexivity|].
        rewrite shape_list_node_cons in Hu.
        destruct (shape_list x); cbn [bind] in Hu; [|discriminate].
        destruct (mapM shape_list lu); cbn [bind] in Hu; [|discriminate].
        destruct (forallb _ _); cbn in Hu; discriminate. }
    destruct Hd as [Hd|Hd]; [|exact Hd]. exfalso. apply (Hn (n :: s)). auto. }
  destruct Hex as (u & Hu & ->).
  assert (exists e, assemble f fuel (Node []) = Err e) as [e He].
  { destruct fuel; eexists; [reflexivity|apply assemble_empty]. }
  destruct (mapM_err_from (assemble f fuel) items (Node []) e Hu He) as [e' ->].
  eexists; reflexivity.
Qed.

End Assemble.

(** ** Statements in the form used by the property file *)
Lemma assemble_in_place {A B} (f : A -> res B) (g : A -> B) s t fuel :
  s <> [] -> rect s t -> (forall a, In a (leaves t) -> f a = Ok (g a)) -> 2 <= fuel ->
  exists out,
    assemble f fuel t = Ok (if length s =? 1 then BlockVec out else BlockMat out)
    /\ rect s out
    /\ forall idx, get out idx = option_map (fun a => Tensor (g a)) (get t idx).
Proof.
  intros Hs Ht Hg Hf. destruct fuel as [|[|fuel]]; try lia.
  exists (tmap (fun a => Tensor (g a)) t).
  rewrite (assemble_rect_ok f fuel s t g Hs Ht Hg).
  split; [reflexivity|]. split; [apply rect_tmap; assumption|]. intros idx. apply get_tmap.
Qed.

Lemma reshape_spec {A} s (t : tree A) shape :
  s <> [] -> rect s t ->
  (shape = [] -> reshape_list t shape = Err TypeError) /\
  (shape <> [] -> prod_shape s <> prod_shape shape -> reshape_list t shape = Err AssertionError) /\
  (shape <> [] -> prod_shape s = prod_shape shape ->
   exists t', reshape_list t shape = Ok t' /\ rect shape t' /\
     (forall idx, length idx = length shape -> Forall2 lt idx shape ->
        get t' idx = nth_error (leaves t) (linear_index shape idx)) /\
     reshape_list t' s = Ok t).
Proof.
  intros Hs Ht. split; [|split].
  - intros ->. unfold reshape_list. rewrite (shape_list_rect _ _ Ht). cbn [bind].
    rewrite (reduce_mul_prod s Hs). reflexivity.
  - intros H1 H2. exact (reshape_list_mismatch s t shape Hs Ht H1 H2).
  - intros H1 H2. destruct (reshape_list_ok s t shape Hs Ht H1 H2) as (t' & E & Ht' & Hlv).
    exists t'. split; [exact E|]. split; [exact Ht'|]. split.
    + intros idx Hi Hb. rewrite <- Hlv. apply (get_linear shape t' idx Ht' Hi Hb).
    + destruct (reshape_list_ok shape t' s H1 Ht' Hs (eq_sym H2)) as (t'' & E' & Ht'' & Hlv').
      rewrite E'. f_equal. eapply rect_leaves_inj; eauto. congruence.
Qed.
