(** Which expressions [collapse] finishes on. *)
From Verif Require Import Base BaseProofs Mat MatProofs ConvertModel CollapseProofs CollapseTermProofs.
From Coq Require Import Field.

(** ** Specification *)

(** Some part of the expression is not a plain number. *)
Fixpoint has_op (e : expr) : bool :=
  match e with
  | ENum _ => false
  | EMul l => existsb has_op l
  | EAdd a b | ESub a b => has_op a || has_op b
  | ETr a => has_op a
  | _ => true
  end.

(** Expressions that Python operators can build: composite nodes contain an
    operator (numbers alone are computed by Python at once) and products have
    at least two factors. *)
Inductive built : expr -> Prop :=
| bt_mat m : built (EMat m)
| bt_num a : built (ENum a)
| bt_mul l : 2 <= length l -> Forall built l -> existsb has_op l = true -> built (EMul l)
| bt_add a b : built a -> built b -> has_op a || has_op b = true -> built (EAdd a b)
| bt_sub a b : built a -> built b -> has_op a || has_op b = true -> built (ESub a b)
| bt_tr a : built a -> has_op a = true -> built (ETr a)
| bt_diag v : built (EDiag v)
| bt_matrix m : built (EMatrix m)
| bt_fun m n act :
    (forall j, j < n -> length (act (axis n j)) = m) -> built (EFun m n act)
| bt_other : built EOther.

(** The expressions on which collapse finishes: transposes only of plain
    matrices, no number in a difference, only negligible numbers in a sum. *)
Inductive collapsible : expr -> Prop :=
| cl_mat m : collapsible (EMat m)
| cl_num a : collapsible (ENum a)
| cl_mul l : Forall collapsible l -> collapsible (EMul l)
| cl_add a b : collapsible a -> collapsible b ->
    (forall c, a = ENum c \/ b = ENum c -> tiny c = true) -> collapsible (EAdd a b)
| cl_sub a b : collapsible a -> collapsible b ->
    (forall c, a <> ENum c /\ b <> ENum c) -> collapsible (ESub a b)
| cl_tr m : collapsible (ETr (EMat m))
| cl_diag v : collapsible (EDiag v)
| cl_matrix m : collapsible (EMatrix m)
| cl_fun m n act : 0 < n -> collapsible (EFun m n act).

(** ** Lemmas *)

Lemma built_wf e : built e -> wf_chains e.
Proof.
  induction e as [m|a|l IH|a b IHa IHb|a b IHa IHb|a IHa|v|m|m n act|] using expr_ind';
    intros H; inversion H; subst; constructor; auto.
  rewrite Forall_forall in *. auto.
Qed.

Lemma oprod_mat neg l v :
  Forall (fun e => forall w, has_op e = true -> den neg e = Some w -> exists A, w = VMat A) l ->
  existsb has_op l = true -> oprod (map (den neg) l) = Some v -> exists A, v = VMat A.
Proof.
  intros IH. revert v. induction IH as [|x l Hx Hl IHl]; intros v H E; [discriminate|].
  cbn [existsb] in H. destruct l as [|y l].
  - cbn in H. rewrite orb_false_r in H. cbn [map oprod] in E. eauto.
  - cbn [map] in E. rewrite oprod_cons in E by discriminate.
    apply omul_some in E as (p & q & Ep & Eq & Em).
    apply orb_true_iff in H as [H|H].
    + destruct (Hx p H Ep) as [A ->]. destruct q; cbn in Em.
      * destruct (nc A =? nr m); [|discriminate]. inversion Em; eauto.
      * inversion Em; eauto.
    + destruct (IHl q H Eq) as [A ->]. destruct p; cbn in Em.
      * destruct (nc m =? nr A); [|discriminate]. inversion Em; eauto.
      * inversion Em; eauto.
Qed.

Lemma has_op_mat neg e v : built e -> has_op e = true -> den neg e = Some v -> exists A, v = VMat A.
Proof.
  revert v.
  induction e as [m|a|l IH|a b IHa IHb|a b IHa IHb|a IHa|w|m|m n act|] using expr_ind';
    intros v B H E; cbn [den has_op] in *; try (inversion E; subst; eauto; fail); try discriminate.
  - inversion B as [| |? Hlen Hbl Hop| | | | | | |]; subst.
    apply (oprod_mat neg l v); auto.
    apply Forall_forall. intros x Hx w Hw. rewrite Forall_forall in IH, Hbl. apply IH; auto.
  - inversion B; subst. destruct (den neg a) as [u|] eqn:Ea; [|discriminate].
    destruct (den neg b) as [w|] eqn:Eb; [|discriminate]. cbn [obind] in E.
    apply orb_true_iff in H as [H|H].
    + destruct (IHa u H2 H eq_refl) as [A ->]. destruct w; cbn in E;
        repeat match type of E with context [if ?c then _ else _] => destruct c end; inversion E; eauto.
    + destruct (IHb w H3 H eq_refl) as [A ->]. destruct u; cbn in E;
        repeat match type of E with context [if ?c then _ else _] => destruct c end; inversion E; eauto.
  - inversion B; subst. destruct (den neg a) as [u|] eqn:Ea; [|discriminate].
    destruct (den neg b) as [w|] eqn:Eb; [|discriminate]. cbn [obind] in E.
    apply orb_true_iff in H as [H|H].
    + destruct (IHa u H2 H eq_refl) as [A ->]. destruct w; cbn in E;
        repeat match type of E with context [if ?c then _ else _] => destruct c end; inversion E; eauto.
    + destruct (IHb w H3 H eq_refl) as [A ->]. destruct u; cbn in E;
        repeat match type of E with context [if ?c then _ else _] => destruct c end; inversion E; eauto.
  - inversion B; subst. destruct (den neg a) as [u|] eqn:Ea; [|discriminate].
    destruct (IHa u H1 H eq_refl) as [A ->]. inversion E; subst. cbn. eauto.
  - destruct (forallb _ _); inversion E; eauto.
Qed.

Lemma built_not_op e : built e -> has_op e = false -> exists a, e = ENum a.
Proof.
  intros B H. destruct B; cbn in H; try discriminate; eauto; try congruence.
Qed.

Lemma built_num neg e c : built e -> den neg e = Some (VNum c) -> e = ENum c.
Proof.
  intros B E. destruct (has_op e) eqn:H.
  - destruct (has_op_mat neg e _ B H E) as [A C]. discriminate.
  - destruct (built_not_op e B H) as [a ->]. cbn in E. congruence.
Qed.

(** More fuel does not change a result. *)
Lemma collapse_mono_all fuel :
  (forall e r, collapse fuel e = Ok r -> collapse (S fuel) e = Ok r) /\
  (forall e r, collapse_tr fuel e = Ok r -> collapse_tr (S fuel) e = Ok r) /\
  (forall e r, collapse_add fuel e = Ok r -> collapse_add (S fuel) e = Ok r) /\
  (forall e r, collapse_sub fuel e = Ok r -> collapse_sub (S fuel) e = Ok r) /\
  (forall e r, collapse_mul fuel e = Ok r -> collapse_mul (S fuel) e = Ok r).
Proof.
  induction fuel as [|fuel (IHc & IHt & IHa & IHs & IHm)].
  { repeat split; intros; discriminate. }
  assert (B2 : forall (a b : expr) (k k' : expr -> expr -> res expr) r,
     (forall x y r, k x y = Ok r -> k' x y = Ok r) ->
     (do a' <- collapse fuel a; do b' <- collapse fuel b; k a' b') = Ok r ->
     (do a' <- collapse (S fuel) a; do b' <- collapse (S fuel) b; k' a' b') = Ok r).
  { intros a b k k' r Hk E.
    destruct (collapse fuel a) as [a'|] eqn:Ea; cbn [bind] in E; [|discriminate].
    destruct (collapse fuel b) as [b'|] eqn:Eb; cbn [bind] in E; [|discriminate].
    rewrite (IHc _ _ Ea). cbn [bind]. rewrite (IHc _ _ Eb). cbn [bind]. auto. }
  split; [|split; [|split; [|split]]].
  - intros e r H. remember (S fuel) as f. cbn [collapse]. rewrite Heqf in H. cbn [collapse] in H. subst f.
    destruct e; auto.
  - intros e r H. remember (S fuel) as f. cbn [collapse_tr]. rewrite Heqf in H. cbn [collapse_tr] in H. subst f.
    destruct e; auto.
    assert (G : (do x <- collapse fuel (ETr e); collapse_tr fuel x) = Ok r ->
                (do x <- collapse (S fuel) (ETr e); collapse_tr (S fuel) x) = Ok r).
    { intros E. destruct (collapse fuel (ETr e)) as [x|] eqn:Ex; cbn [bind] in E; [|discriminate].
      rewrite (IHc _ _ Ex). cbn [bind]. auto. }
    destruct e; auto.
  - intros e r H. remember (S fuel) as f. cbn [collapse_add]. rewrite Heqf in H. cbn [collapse_add] in H. subst f.
    destruct e as [| | |a b| | | | | |]; auto.
    assert (G := B2 a b (fun a' b' => collapse_add fuel (py_add a' b')) (fun a' b' => collapse_add (S fuel) (py_add a' b')) r).
    destruct a, b; auto; destruct (qltb _ _); auto.
  - intros e r H. remember (S fuel) as f. cbn [collapse_sub]. rewrite Heqf in H. cbn [collapse_sub] in H. subst f.
    destruct e as [| | | |a b| | | | |]; auto.
    assert (G := B2 a b (fun a' b' => collapse_sub fuel (py_sub a' b')) (fun a' b' => collapse_sub (S fuel) (py_sub a' b')) r).
    destruct a, b; auto.
  - intros e r H. remember (S fuel) as f. cbn [collapse_mul]. rewrite Heqf in H. cbn [collapse_mul] in H. subst f.
    destruct e as [| |[|a [|b [|c l]]]| | | | | | |]; auto.
    + destruct (collapse fuel a) eqn:Ea; cbn in H; discriminate.
    + assert (G := B2 a b (fun a' b' => collapse fuel (py_mul a' b')) (fun a' b' => collapse (S fuel) (py_mul a' b')) r).
      destruct a, b; auto.
    + destruct (reduce_mul (b :: c :: l)) as [rr|] eqn:R; cbn [bind] in H.
      * cbn [bind]. assert (G := B2 a rr (fun a' b' => collapse_mul fuel (py_mul a' b')) (fun a' b' => collapse_mul (S fuel) (py_mul a' b')) r). auto.
      * discriminate.
Qed.

Lemma collapse_mono f f' e r : f <= f' -> collapse f e = Ok r -> collapse f' e = Ok r.
Proof. induction 1; auto. intros. apply collapse_mono_all. auto. Qed.

(** ** Size, flattening *)

Fixpoint size (e : expr) : nat :=
  match e with
  | EMul l => S (list_sum (map size l))
  | EAdd a b | ESub a b => S (size a + size b)
  | ETr a => S (size a)
  | _ => 1
  end.
Definition csize (e : expr) : nat := list_sum (map size (chain_of e)).

Lemma size_pos e : 1 <= size e.
Proof. destruct e; cbn; lia. Qed.
Lemma csize_le e : csize e <= size e.
Proof.
  unfold csize. destruct e; cbn [chain_of map size list_sum fold_right];
    unfold list_sum; try lia; try (pose proof (Nat.le_refl 0); cbn; lia).
Qed.
Lemma size_le_csize e : size e <= S (csize e).
Proof.
  unfold csize. destruct e; cbn [chain_of map size list_sum fold_right];
    unfold list_sum; try lia; try (pose proof (Nat.le_refl 0); cbn; lia).
Qed.
Lemma csize_py_mul a b : csize (py_mul a b) <= csize a + csize b.
Proof.
  assert (G : csize (EMul (chain_of a ++ chain_of b)) <= csize a + csize b).
  { unfold csize. cbn [chain_of]. rewrite map_app, list_sum_app. lia. }
  destruct a, b; try exact G. cbn. lia.
Qed.
Lemma csize_fold l x : csize (fold_left py_mul l x) <= csize x + list_sum (map size l).
Proof.
  revert x. induction l as [|y l IH]; intros x; cbn [fold_left map list_sum]; [cbn; lia|].
  specialize (IH (py_mul x y)). pose proof (csize_py_mul x y). pose proof (csize_le y).
  change (list_sum (size y :: map size l)) with (size y + list_sum (map size l)). lia.
Qed.

Lemma built_chain_of e : built e -> Forall built (chain_of e).
Proof. intros H. destruct H; cbn [chain_of]; auto; apply Forall_cons; auto; constructor; assumption. Qed.
Lemma coll_chain_of e : collapsible e -> Forall collapsible (chain_of e).
Proof. intros H. destruct H; cbn [chain_of]; auto; apply Forall_cons; auto; constructor; assumption. Qed.

Lemma existsb_chain_of e : existsb has_op (chain_of e) = has_op e.
Proof. destruct e; cbn; rewrite ?orb_false_r; reflexivity. Qed.

Lemma built_py_mul a b : built a -> built b -> built (py_mul a b).
Proof.
  intros Ha Hb. destruct (has_op a || has_op b) eqn:Ho.
  - assert (G : built (EMul (chain_of a ++ chain_of b))).
    { constructor.
      - rewrite app_length. pose proof (proj2 (wf_chain_of a (built_wf a Ha))).
        pose proof (proj2 (wf_chain_of b (built_wf b Hb))). lia.
      - apply Forall_app; split; apply built_chain_of; assumption.
      - rewrite existsb_app, !existsb_chain_of. exact Ho. }
    destruct a, b; try exact G. constructor.
  - apply orb_false_iff in Ho as [Hoa Hob].
    apply built_not_op in Hoa as [x ->]; [|assumption].
    apply built_not_op in Hob as [y ->]; [|assumption]. constructor.
Qed.
Lemma coll_py_mul a b : collapsible a -> collapsible b -> collapsible (py_mul a b).
Proof.
  intros Ha Hb.
  assert (G : collapsible (EMul (chain_of a ++ chain_of b))).
  { constructor. apply Forall_app; split; apply coll_chain_of; assumption. }
  destruct a, b; try exact G. constructor.
Qed.
Lemma fold_built l x : built x -> Forall built l -> built (fold_left py_mul l x).
Proof. revert x; induction l; intros x Hx Hl; cbn; auto. inversion Hl; subst. apply IHl; auto. apply built_py_mul; auto. Qed.
Lemma fold_coll l x : collapsible x -> Forall collapsible l -> collapsible (fold_left py_mul l x).
Proof. revert x; induction l; intros x Hx Hl; cbn; auto. inversion Hl; subst. apply IHl; auto. apply coll_py_mul; auto. Qed.

(** ** Termination *)

Definition halts (e : expr) : Prop := exists N r, collapse N e = Ok r.

Lemma halts2 a b : halts a -> halts b -> exists N ra rb, collapse N a = Ok ra /\ collapse N b = Ok rb.
Proof.
  intros (Na & ra & Ha) (Nb & rb & Hb). exists (Na + Nb), ra, rb.
  split; (eapply collapse_mono; [|eassumption]); lia.
Qed.

Lemma val_cases r v : val_of r = Some v -> (exists A, r = EMat A /\ v = VMat A) \/ (exists a, r = ENum a /\ v = VNum a).
Proof. destruct r; try discriminate; intros E; inversion E; eauto. Qed.

Lemma collapse_halts_size n e v :
  size e <= n -> built e -> collapsible e -> den tiny e = Some v -> halts e.
Proof.
  revert e v. induction n as [|n IH]; intros e v Hs B C D.
  { pose proof (size_pos e). lia. }
  destruct C as [m|a|l Cl|a b Ca Cb Cn|a b Ca Cb Cn|m|w|m|m k act Hk].
  - exists 1. eexists. reflexivity.
  - exists 1. eexists. reflexivity.
  - (* mul *)
    inversion B as [| |? Bl Bf Bo| | | | | | |]; subst.
    destruct (has_op_mat tiny (EMul l) v B Bo D) as [A ->].
    destruct l as [|a [|b l]]; [cbn in Bl; lia|cbn in Bl; lia|].
    inversion Cl as [|? ? Ca Cl']; subst. inversion Bf as [|? ? Ba Bf']; subst.
    cbn [den map] in D. rewrite oprod_cons in D by discriminate.
    apply omul_some in D as (u & w & Ea & Ew & Em).
    cbn [size map list_sum] in Hs.
    change (list_sum (size a :: size b :: map size l)) with (size a + (size b + list_sum (map size l))) in Hs.
    assert (Ha : halts a) by (apply (IH a u); auto; lia).
    pose (rr := fold_left py_mul l b).
    inversion Cl' as [|? ? Cb Cl'']; subst. inversion Bf' as [|? ? Bb Bf'']; subst.
    assert (Br : built rr) by (apply fold_built; assumption).
    assert (Cr : collapsible rr) by (apply fold_coll; assumption).
    destruct (fold_py_mul tiny l b (built_wf b Bb)) as [_ Er].
    { apply Forall_forall. intros x Hx. apply built_wf. rewrite Forall_forall in Bf''. auto. }
    fold rr in Er. cbn [map] in Er. rewrite Ew in Er. apply oeq_some_l in Er as (w' & Ew' & Hw').
    assert (Sr : size rr <= n).
    { pose proof (size_le_csize rr). pose proof (csize_fold l b). pose proof (csize_le b).
      pose proof (size_pos a). fold rr in H0. lia. }
    assert (Hr : halts rr) by (apply (IH rr w'); auto).
    destruct (halts2 a rr Ha Hr) as (N & ra & rb & Ra & Rb).
    destruct (collapse_sound N a ra (built_wf _ Ba) Ra) as (va & va' & V1 & V2 & V3).
    destruct (collapse_sound N rr rb (built_wf _ Br) Rb) as (vb & vb' & W1 & W2 & W3).
    rewrite Ea in V2. inversion V2; subst va'. rewrite Ew' in W2. inversion W2; subst vb'.
    assert (Vb : veq vb w) by (eapply veq_trans; eassumption).
    (* the last multiplication *)
    assert (Last : forall k, exists M, py_mul ra rb = EMul [ra; rb] /\ collapse_mul (S k) (py_mul ra rb) = Ok M).
    { intros k.
      destruct (val_cases _ _ V1) as [(A1 & -> & ->)|(a1 & -> & ->)];
        destruct (val_cases _ _ W1) as [(B1 & -> & ->)|(b1 & -> & ->)]; cbn.
      - destruct u as [A2|]; [|contradiction]. destruct w as [B2|]; [|contradiction].
        destruct V3 as (_ & X & _). destruct Vb as (Y & _). rewrite X, Y.
        cbn in Em. destruct (nc A2 =? nr B2); [|discriminate]. cbn. eauto.
      - eauto.
      - eauto.
      - destruct u as [A2|]; [contradiction|]. destruct w as [B2|]; [contradiction|]. cbn in Em. discriminate. }
    destruct (Last N) as (M & Epy & HM).
    destruct l as [|c l].
    + (* two factors *)
      exists (S (S (S (S N)))), M. change (collapse_mul (S (S (S N))) (EMul [a; b]) = Ok M).
      remember (S (S N)) as N2.
      assert (Ra' : collapse N2 a = Ok ra) by (eapply collapse_mono; [|exact Ra]; lia).
      assert (Rb' : collapse N2 b = Ok rb) by (eapply collapse_mono; [|exact Rb]; lia).
      assert (Rab : collapse N2 (py_mul ra rb) = Ok M).
      { rewrite Epy, HeqN2. change (collapse_mul (S N) (EMul [ra; rb]) = Ok M). rewrite <- Epy. exact HM. }
      cbn [collapse_mul].
      assert (G : (do a' <- collapse N2 a; do b' <- collapse N2 b; collapse N2 (py_mul a' b')) = Ok M).
      { rewrite Ra'. cbn [bind]. rewrite Rb'. cbn [bind]. exact Rab. }
      assert (Fm : forall m, collapse N2 (EMat m) = Ok (EMat m)) by (rewrite HeqN2; reflexivity).
      assert (Fn : forall m, collapse N2 (ENum m) = Ok (ENum m)) by (rewrite HeqN2; reflexivity).
      destruct a; try exact G; destruct b; try exact G;
        rewrite ?Fm, ?Fn in Ra'; rewrite ?Fm, ?Fn in Rb'; inversion Ra'; inversion Rb'; subst ra rb;
        cbn in HM |- *; exact HM.
    + (* longer chain *)
      exists (S (S (S N))), M. change (collapse_mul (S (S N)) (EMul (a :: b :: c :: l)) = Ok M).
      remember (S N) as N2. cbn [collapse_mul].
      assert (Ra' : collapse N2 a = Ok ra) by (eapply collapse_mono; [|exact Ra]; lia).
      assert (Rb' : collapse N2 rr = Ok rb) by (eapply collapse_mono; [|exact Rb]; lia).
      rewrite Ra'. cbn [bind reduce_mul]. fold rr. rewrite Rb'. cbn [bind]. exact HM.
  - (* add *)
    inversion B as [| | |? ? Ba Bb Bo| | | | | |]; subst. cbn [den] in D.
    destruct (den tiny a) as [u|] eqn:Ea; [|discriminate].
    destruct (den tiny b) as [w|] eqn:Eb; [|discriminate]. cbn [obind] in D. cbn [size] in Hs.
    assert (Ha : halts a) by (apply (IH a u); auto; lia).
    assert (Hb : halts b) by (apply (IH b w); auto; lia).
    destruct (halts2 a b Ha Hb) as (N & ra & rb & Ra & Rb).
    destruct (collapse_sound N a ra (built_wf _ Ba) Ra) as (va & va' & V1 & V2 & V3).
    destruct (collapse_sound N b rb (built_wf _ Bb) Rb) as (vb & vb' & W1 & W2 & W3).
    rewrite Ea in V2. inversion V2; subst va'. rewrite Eb in W2. inversion W2; subst vb'.
    assert (Last : forall k, exists M, py_add ra rb = EAdd ra rb /\ collapse_add (S k) (EAdd ra rb) = Ok M).
    { intros k.
      destruct (val_cases _ _ V1) as [(A1 & -> & ->)|(a1 & -> & ->)];
        destruct (val_cases _ _ W1) as [(B1 & -> & ->)|(b1 & -> & ->)]; cbn [py_add collapse_add].
      - destruct u as [A2|]; [|contradiction]. destruct w as [B2|]; [|contradiction].
        destruct V3 as (X1 & X2 & _). destruct W3 as (Y1 & Y2 & _). rewrite X1, X2, Y1, Y2.
        cbn in D. destruct ((nr A2 =? nr B2) && (nc A2 =? nc B2)); [|discriminate]. cbn. eauto.
      - destruct w as [|w]; [contradiction|]. cbn in W3. subst w.
        apply built_num in Eb; [|assumption]. assert (T := Cn b1 (or_intror Eb)). unfold tiny in T. change tol14 with threshold. rewrite T. eauto.
      - destruct u as [|w']; [contradiction|]. cbn in V3. subst w'.
        apply built_num in Ea; [|assumption]. assert (T := Cn a1 (or_introl Ea)). unfold tiny in T. change tol14 with threshold. rewrite T. eauto.
      - destruct u as [|a2]; [contradiction|]. destruct w as [|b2]; [contradiction|]. cbn in V3, W3. subst.
        apply built_num in Ea; [|assumption]. apply built_num in Eb; [|assumption]. subst. discriminate. }
    destruct (Last N) as (M & Epy & HM).
    exists (S (S (S N))), M. change (collapse_add (S (S N)) (EAdd a b) = Ok M).
    remember (S N) as N2.
    assert (Ra' : collapse N2 a = Ok ra) by (eapply collapse_mono; [|exact Ra]; lia).
    assert (Rb' : collapse N2 b = Ok rb) by (eapply collapse_mono; [|exact Rb]; lia).
    assert (G : (do a' <- collapse N2 a; do b' <- collapse N2 b; collapse_add N2 (py_add a' b')) = Ok M).
    { rewrite Ra'. cbn [bind]. rewrite Rb'. cbn [bind]. rewrite Epy. exact HM. }
    cbn [collapse_add].
    assert (Fm : forall m, collapse N2 (EMat m) = Ok (EMat m)) by (rewrite HeqN2; reflexivity).
    assert (Fn : forall m, collapse N2 (ENum m) = Ok (ENum m)) by (rewrite HeqN2; reflexivity).
    destruct a; try exact G; destruct b; try exact G;
      rewrite ?Fm, ?Fn in Ra'; rewrite ?Fm, ?Fn in Rb'; inversion Ra'; inversion Rb'; subst ra rb;
      try (subst N2; cbn [collapse_add] in HM; exact HM).
    + change tol14 with threshold; destruct (qltb (qabs a) threshold) eqn:Q; [|exact G].
      subst N2. cbn [collapse_add] in HM. change tol14 with threshold in HM. rewrite Q in HM. exact HM.
    + change tol14 with threshold; destruct (qltb (qabs a) threshold) eqn:Q; [|exact G].
      subst N2. cbn [collapse_add] in HM. change tol14 with threshold in HM. rewrite Q in HM. exact HM.
  - (* sub *)
    inversion B as [| | | |? ? Ba Bb Bo| | | | |]; subst. cbn [den] in D.
    destruct (den tiny a) as [u|] eqn:Ea; [|discriminate].
    destruct (den tiny b) as [w|] eqn:Eb; [|discriminate]. cbn [obind] in D. cbn [size] in Hs.
    assert (Ha : halts a) by (apply (IH a u); auto; lia).
    assert (Hb : halts b) by (apply (IH b w); auto; lia).
    destruct (halts2 a b Ha Hb) as (N & ra & rb & Ra & Rb).
    destruct (collapse_sound N a ra (built_wf _ Ba) Ra) as (va & va' & V1 & V2 & V3).
    destruct (collapse_sound N b rb (built_wf _ Bb) Rb) as (vb & vb' & W1 & W2 & W3).
    rewrite Ea in V2. inversion V2; subst va'. rewrite Eb in W2. inversion W2; subst vb'.
    assert (Last : forall k, exists M, py_sub ra rb = ESub ra rb /\ collapse_sub (S k) (ESub ra rb) = Ok M).
    { intros k.
      destruct (val_cases _ _ V1) as [(A1 & -> & ->)|(a1 & -> & ->)];
        destruct (val_cases _ _ W1) as [(B1 & -> & ->)|(b1 & -> & ->)]; cbn.
      - destruct u as [A2|]; [|contradiction]. destruct w as [B2|]; [|contradiction].
        destruct V3 as (X1 & X2 & _). destruct W3 as (Y1 & Y2 & _). rewrite X1, X2, Y1, Y2.
        cbn in D. destruct ((nr A2 =? nr B2) && (nc A2 =? nc B2)); [|discriminate]. cbn. eauto.
      - destruct w as [|w]; [contradiction|].
        apply built_num in Eb; [|assumption]. exfalso. apply (proj2 (Cn w)). assumption.
      - destruct u as [|w']; [contradiction|].
        apply built_num in Ea; [|assumption]. exfalso. apply (proj1 (Cn w')). assumption.
      - destruct u as [|a2]; [contradiction|].
        apply built_num in Ea; [|assumption]. exfalso. apply (proj1 (Cn a2)). assumption. }
    destruct (Last N) as (M & Epy & HM).
    exists (S (S (S N))), M. change (collapse_sub (S (S N)) (ESub a b) = Ok M).
    remember (S N) as N2.
    assert (Ra' : collapse N2 a = Ok ra) by (eapply collapse_mono; [|exact Ra]; lia).
    assert (Rb' : collapse N2 b = Ok rb) by (eapply collapse_mono; [|exact Rb]; lia).
    assert (G : (do a' <- collapse N2 a; do b' <- collapse N2 b; collapse_sub N2 (py_sub a' b')) = Ok M).
    { rewrite Ra'. cbn [bind]. rewrite Rb'. cbn [bind]. rewrite Epy. exact HM. }
    cbn [collapse_sub].
    assert (Fm : forall m, collapse N2 (EMat m) = Ok (EMat m)) by (rewrite HeqN2; reflexivity).
    destruct a; try exact G; destruct b; try exact G.
    rewrite Fm in Ra'; rewrite Fm in Rb'; inversion Ra'; inversion Rb'; subst ra rb.
    subst N2; cbn [collapse_sub] in HM; exact HM.
  - exists 2. eexists. reflexivity.
  - exists 1. eexists. reflexivity.
  - exists 1. eexists. reflexivity.
  - inversion B; subst. exists 1. cbn [collapse]. unfold collapse_columns.
    destruct k as [|k]; [lia|]. cbn [Rn_basis seq map]. change unit_vec with axis.
    rewrite (proj2 (forallb_forall _ _)); [eauto|].
    intros c Hc. apply Nat.eqb_eq.
    assert (Hin : exists j, j < S k /\ c = act (axis (S k) j)).
    { destruct Hc as [<-|Hc]; [exists 0; split; [lia|reflexivity]|].
      rewrite map_map in Hc. apply in_map_iff in Hc as (j & <- & Hj). apply in_seq in Hj.
      exists j. split; [lia|reflexivity]. }
    destruct Hin as (j & Hj & ->). rewrite !H0 by lia. reflexivity.
Qed.

Theorem collapse_halts e v :
  built e -> collapsible e -> den tiny e = Some v ->
  exists N r, forall fuel, N <= fuel -> collapse fuel e = Ok r.
Proof.
  intros B C D. destruct (collapse_halts_size (size e) e v (Nat.le_refl _) B C D) as (N & r & H).
  exists N, r. intros fuel Hf. eapply collapse_mono; eassumption.
Qed.

(** ** Only the collapsible expressions finish *)

Lemma coll_chain_inv e : Forall collapsible (chain_of e) -> collapsible e.
Proof. destruct e; cbn [chain_of]; intros H; try (inversion H; assumption). constructor; assumption. Qed.

Lemma coll_py_mul_inv a b : collapsible (py_mul a b) -> collapsible a /\ collapsible b.
Proof.
  assert (G : collapsible (EMul (chain_of a ++ chain_of b)) -> collapsible a /\ collapsible b).
  { intros H. inversion H as [| |? F| | | | | |]; subst. apply Forall_app in F as [Fa Fb].
    split; apply coll_chain_inv; assumption. }
  destruct a, b; try exact G. intros _. split; constructor.
Qed.

Lemma fold_coll_inv l x : collapsible (fold_left py_mul l x) -> collapsible x /\ Forall collapsible l.
Proof.
  revert x. induction l as [|y l IH]; intros x H; cbn in H; [auto|].
  apply IH in H as [H1 H2]. apply coll_py_mul_inv in H1 as [H1 H3]. auto.
Qed.

Lemma result_shape fuel e r : built e -> collapse fuel e = Ok r -> (exists A, r = EMat A) \/ (exists a, r = ENum a).
Proof.
  intros B H. destruct (collapse_sound fuel e r (built_wf e B) H) as (v & v' & H1 & _).
  destruct (val_cases _ _ H1) as [(A & -> & _)|(a & -> & _)]; eauto.
Qed.

Lemma collapse_only_all fuel :
  (forall e r, built e -> collapse fuel e = Ok r -> collapsible e) /\
  (forall e r, built e -> collapse_tr fuel e = Ok r -> collapsible e) /\
  (forall e r, built e -> collapse_add fuel e = Ok r -> collapsible e) /\
  (forall e r, built e -> collapse_sub fuel e = Ok r -> collapsible e) /\
  (forall e r, built e -> collapse_mul fuel e = Ok r -> collapsible e).
Proof.
  induction fuel as [|fuel (IHc & IHt & IHa & IHs & IHm)].
  { repeat split; intros; discriminate. }
  assert (IHn : forall a a' c, collapse fuel a = Ok a' -> a = ENum c -> a' = ENum c).
  { intros a a' c H ->. destruct fuel; [discriminate|]. cbn in H. congruence. }
  split; [|split; [|split; [|split]]].
  - intros e r B H. cbn [collapse] in H. destruct e; try (constructor; fail); eauto; try discriminate.
    unfold collapse_columns in H. destruct n; [discriminate|]. constructor. lia.
  - intros e r B H. cbn [collapse_tr] in H. destruct e; try discriminate.
    assert (G : (do x <- collapse fuel (ETr e); collapse_tr fuel x) = Ok r -> collapsible (ETr e)).
    { intros E. destruct (collapse fuel (ETr e)) eqn:Ex; [|discriminate]. eauto. }
    destruct e; auto. constructor.
  - intros e r B H. cbn [collapse_add] in H. destruct e as [| | |a b| | | | | |]; try discriminate.
    inversion B as [| | |? ? Ba Bb Bo| | | | | |]; subst.
    assert (G : (do a' <- collapse fuel a; do b' <- collapse fuel b; collapse_add fuel (py_add a' b')) = Ok r
                -> collapsible (EAdd a b)).
    { intros E. destruct (collapse fuel a) as [a'|] eqn:Ea; cbn [bind] in E; [|discriminate].
      destruct (collapse fuel b) as [b'|] eqn:Eb; cbn [bind] in E; [|discriminate].
      assert (F : forall c, a' = ENum c \/ b' = ENum c -> tiny c = true).
      { destruct (result_shape _ _ _ Ba Ea) as [[A ->]|[x ->]];
          destruct (result_shape _ _ _ Bb Eb) as [[B' ->]|[y ->]]; cbn [py_add] in E.
        - intros c [C|C]; discriminate.
        - apply IHa in E; [|constructor; [constructor|constructor|reflexivity]].
          inversion E as [| | |? ? _ _ F| | | | |]; subst. exact F.
        - apply IHa in E; [|constructor; [constructor|constructor|reflexivity]].
          inversion E as [| | |? ? _ _ F| | | | |]; subst. exact F.
        - destruct fuel; discriminate. }
      constructor; eauto.
      intros c [C|C]; apply F; [left|right]; eauto. }
    destruct a, b; auto.
    + constructor; [constructor|constructor|]. intros c [C|C]; discriminate.
    + change tol14 with threshold in H; destruct (qltb (qabs a) threshold) eqn:Q; auto. constructor; [constructor|constructor|].
      intros c [C|C]; inversion C; subst. exact Q.
    + change tol14 with threshold in H; destruct (qltb (qabs a) threshold) eqn:Q; auto. constructor; [constructor|constructor|].
      intros c [C|C]; inversion C; subst. exact Q.
  - intros e r B H. cbn [collapse_sub] in H. destruct e as [| | | |a b| | | | |]; try discriminate.
    inversion B as [| | | |? ? Ba Bb Bo| | | | |]; subst.
    assert (G : (do a' <- collapse fuel a; do b' <- collapse fuel b; collapse_sub fuel (py_sub a' b')) = Ok r
                -> collapsible (ESub a b)).
    { intros E. destruct (collapse fuel a) as [a'|] eqn:Ea; cbn [bind] in E; [|discriminate].
      destruct (collapse fuel b) as [b'|] eqn:Eb; cbn [bind] in E; [|discriminate].
      assert (F : forall c, a' <> ENum c /\ b' <> ENum c).
      { destruct (result_shape _ _ _ Ba Ea) as [[A ->]|[x ->]];
          destruct (result_shape _ _ _ Bb Eb) as [[B' ->]|[y ->]]; cbn [py_sub] in E.
        - intros c; split; discriminate.
        - apply IHs in E; [|constructor; [constructor|constructor|reflexivity]].
          inversion E as [| | | |? ? _ _ F| | | |]; subst. exact F.
        - apply IHs in E; [|constructor; [constructor|constructor|reflexivity]].
          inversion E as [| | | |? ? _ _ F| | | |]; subst. exact F.
        - destruct fuel; discriminate. }
      constructor; eauto.
      intros c. destruct (F c) as [F1 F2]. split; intros C; [apply F1|apply F2]; eauto. }
    destruct a, b; auto.
    constructor; [constructor|constructor|]. intros c; split; discriminate.
  - intros e r B H. cbn [collapse_mul] in H.
    destruct e as [| |[|a [|b [|c l]]]| | | | | | |]; try discriminate.
    + destruct (collapse fuel a); discriminate.
    + inversion B as [| |? Bl Bf Bo| | | | | | |]; subst.
      inversion Bf as [|? ? Ba Bf']; subst. inversion Bf' as [|? ? Bb _]; subst.
      assert (G : (do a' <- collapse fuel a; do b' <- collapse fuel b; collapse fuel (py_mul a' b')) = Ok r
                  -> collapsible (EMul [a; b])).
      { intros E. destruct (collapse fuel a) as [a'|] eqn:Ea; cbn [bind] in E; [|discriminate].
        destruct (collapse fuel b) as [b'|] eqn:Eb; cbn [bind] in E; [|discriminate].
        constructor. constructor; [eauto|constructor; [eauto|constructor]]. }
      destruct a, b; auto; constructor; constructor; try constructor; try constructor.
    + inversion B as [| |? Bl Bf Bo| | | | | | |]; subst.
      inversion Bf as [|? ? Ba Bf']; subst. inversion Bf' as [|? ? Bb Bf'']; subst.
      destruct (collapse fuel a) as [a'|] eqn:Ea; cbn [bind] in H; [|discriminate].
      cbn [reduce_mul bind] in H.
      destruct (collapse fuel (fold_left py_mul (c :: l) b)) as [b'|] eqn:Eb; cbn [bind] in H; [|discriminate].
      apply IHc in Eb; [|apply fold_built; assumption].
      apply fold_coll_inv in Eb as [Hb Hl]. constructor. constructor; [eauto|constructor; assumption].
Qed.

Theorem collapse_only fuel e r : built e -> collapse fuel e = Ok r -> collapsible e.
Proof. apply (proj1 (collapse_only_all fuel)). Qed.

(** ** Endless recursion *)

Lemma tr_diverges a : (forall m, a <> EMat m) -> forall fuel,
  collapse fuel (ETr a) = Err OutOfFuel /\ collapse_tr fuel (ETr a) = Err OutOfFuel.
Proof.
  intros Ha fuel. induction fuel as [|fuel [IH1 IH2]]; [split; reflexivity|]. split.
  - exact IH2.
  - cbn [collapse_tr]. rewrite IH1. destruct a; try reflexivity. exfalso. apply (Ha m). reflexivity.
Qed.

Lemma sub_num_diverges A c fuel :
  collapse fuel (ESub (EMat A) (ENum c)) = Err OutOfFuel /\
  collapse fuel (ESub (ENum c) (EMat A)) = Err OutOfFuel.
Proof.
  assert (G : forall fuel, collapse_sub fuel (ESub (EMat A) (ENum c)) = Err OutOfFuel /\
                           collapse_sub fuel (ESub (ENum c) (EMat A)) = Err OutOfFuel).
  { clear fuel. induction fuel as [|fuel [I1 I2]]; [split; reflexivity|].
    destruct fuel as [|fuel]; [split; reflexivity|]. split; cbn [collapse_sub collapse bind py_sub]; assumption. }
  destruct fuel as [|fuel]; [split; reflexivity|]. apply G.
Qed.

Lemma add_num_diverges A c fuel : tiny c = false ->
  collapse fuel (EAdd (EMat A) (ENum c)) = Err OutOfFuel /\
  collapse fuel (EAdd (ENum c) (EMat A)) = Err OutOfFuel.
Proof.
  intros T. unfold tiny in T. change threshold with tol14 in T.
  assert (G : forall fuel, collapse_add fuel (EAdd (EMat A) (ENum c)) = Err OutOfFuel /\
                           collapse_add fuel (EAdd (ENum c) (EMat A)) = Err OutOfFuel).
  { clear fuel. induction fuel as [|fuel [I1 I2]]; [split; reflexivity|].
    destruct fuel as [|fuel]; [split; cbn [collapse_add]; rewrite T; reflexivity|].
    split.
    - remember (S fuel) as f eqn:Hf. cbn [collapse_add]. rewrite T.
      assert (F1 : collapse f (EMat A) = Ok (EMat A)) by (subst f; reflexivity).
      assert (F2 : collapse f (ENum c) = Ok (ENum c)) by (subst f; reflexivity).
      rewrite F1, F2. cbn [bind py_add]. assumption.
    - remember (S fuel) as f eqn:Hf. cbn [collapse_add]. rewrite T.
      assert (F1 : collapse f (EMat A) = Ok (EMat A)) by (subst f; reflexivity).
      assert (F2 : collapse f (ENum c) = Ok (ENum c)) by (subst f; reflexivity).
      rewrite F1, F2. cbn [bind py_add]. assumption. }
  destruct fuel as [|fuel]; [split; reflexivity|]. apply G.
Qed.
