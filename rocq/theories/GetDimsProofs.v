(** [get_dims] against the value of the expression. *)
From Verif Require Import Base BaseProofs Mat MatProofs ConvertModel CollapseProofs CollapseTermProofs CollapseHaltProofs.

(** ** Specification *)
Definition dims_of (v : val) : dims :=
  match v with VMat A => Some (nr A, nc A) | VNum _ => None end.

(** Products are flat (cbc.block flattens them) and a number occurs only in a
    product of exactly two factors. *)
Inductive scalars_in_pairs : expr -> Prop :=
| sp_mat m : scalars_in_pairs (EMat m)
| sp_num a : scalars_in_pairs (ENum a)
| sp_mul l :
    Forall scalars_in_pairs l -> Forall (fun e => forall l', e <> EMul l') l ->
    (length l <> 2 -> Forall (fun e => forall a, e <> ENum a) l) ->
    scalars_in_pairs (EMul l)
| sp_add a b : scalars_in_pairs a -> scalars_in_pairs b -> scalars_in_pairs (EAdd a b)
| sp_sub a b : scalars_in_pairs a -> scalars_in_pairs b -> scalars_in_pairs (ESub a b)
| sp_tr a : scalars_in_pairs a -> scalars_in_pairs (ETr a)
| sp_diag v : scalars_in_pairs (EDiag v)
| sp_matrix m : scalars_in_pairs (EMatrix m)
| sp_fun m n act : scalars_in_pairs (EFun m n act)
| sp_other : scalars_in_pairs EOther.

(** ** Proofs *)
Lemma fold_flat l c :
  Forall (fun e => forall l', e <> EMul l') l ->
  Forall (fun e => forall a, e <> ENum a) l ->
  fold_left py_mul l (EMul c) = EMul (c ++ l).
Proof.
  revert c. induction l as [|x l IH]; intros c H1 H2; cbn [fold_left]; [rewrite app_nil_r; reflexivity|].
  inversion H1; subst. inversion H2; subst.
  replace (py_mul (EMul c) x) with (EMul (c ++ [x])).
  - rewrite IH by assumption. rewrite <- app_assoc. reflexivity.
  - destruct x; try reflexivity. exfalso. apply (H3 chain). reflexivity.
Qed.

Lemma reduce_flat b c l :
  Forall (fun e => forall l', e <> EMul l') (b :: c :: l) ->
  Forall (fun e => forall a, e <> ENum a) (b :: c :: l) ->
  reduce_mul (b :: c :: l) = Ok (EMul (b :: c :: l)).
Proof.
  intros H1 H2. inversion H1 as [|? ? Hb H1']; subst. inversion H1' as [|? ? Hc H1'']; subst.
  inversion H2 as [|? ? Kb H2']; subst. inversion H2' as [|? ? Kc H2'']; subst.
  cbn [reduce_mul fold_left].
  replace (py_mul b c) with (EMul [b; c]).
  - rewrite fold_flat by assumption. reflexivity.
  - destruct b; try (exfalso; eapply Hb; reflexivity); try (exfalso; eapply Kb; reflexivity);
      destruct c; try (exfalso; eapply Hc; reflexivity); try (exfalso; eapply Kc; reflexivity); reflexivity.
Qed.

Lemma dims_veq u v : veq u v -> dims_of u = dims_of v.
Proof.
  destruct u, v; cbn; try contradiction; [|reflexivity]. intros (H1 & H2 & _). congruence.
Qed.

Lemma vmul_dims u v w : vmul u v = Some w ->
  match dims_of u, dims_of v with
  | None, d => dims_of w = d
  | Some d, None => dims_of w = Some d
  | Some (ra, ca), Some (rb, cb) => ca = rb /\ dims_of w = Some (ra, cb)
  end.
Proof.
  destruct u, v; cbn; intros E; try (inversion E; subst; reflexivity).
  destruct (Nat.eqb_spec (nc m) (nr m0)); [|discriminate]. inversion E; subst. auto.
Qed.

Lemma size_tail a b l : size (EMul (b :: l)) < size (EMul (a :: b :: l)).
Proof.
  cbn [size map]. change (list_sum (size a :: size b :: map size l)) with (size a + (size b + list_sum (map size l))).
  change (list_sum (size b :: map size l)) with (size b + list_sum (map size l)).
  pose proof (size_pos a). lia.
Qed.

Theorem get_dims_correct neg fuel e v :
  scalars_in_pairs e -> built e -> den neg e = Some v -> size e <= fuel ->
  get_dims fuel e = Ok (dims_of v).
Proof.
  revert e v. induction fuel as [|fuel IH]; intros e v P B D Hs.
  { pose proof (size_pos e). lia. }
  destruct P as [m|a|l P1 P2 P3|a b Pa Pb|a b Pa Pb|a Pa|w|m|m n act|].
  - inversion D; subst. reflexivity.
  - inversion D; subst. reflexivity.
  - inversion B as [| |? Bl Bf Bo| | | | | | |]; subst.
    destruct l as [|a [|b l]]; [cbn in Bl; lia|cbn in Bl; lia|].
    inversion P1 as [|? ? Pa P1']; subst. inversion P1' as [|? ? Pb P1'']; subst.
    inversion Bf as [|? ? Ba Bf']; subst. inversion Bf' as [|? ? Bb Bf'']; subst.
    cbn [den map] in D. rewrite oprod_cons in D by discriminate.
    apply omul_some in D as (u & w & Ea & Ew & Em).
    assert (Sa : size a <= fuel /\ size b <= fuel).
    { cbn [size map] in Hs. change (list_sum (size a :: size b :: map size l)) with (size a + (size b + list_sum (map size l))) in Hs.
      pose proof (size_pos a). lia. }
    pose proof (vmul_dims u w v Em) as Dm.
    cbn [get_dims]. rewrite (IH a u) by tauto. cbn [bind].
    destruct l as [|c l].
    + cbn [map oprod] in Ew. rewrite (IH b w) by tauto. cbn [bind].
      destruct (dims_of u) as [[ra ca]|]; [|rewrite Dm; reflexivity].
      destruct (dims_of w) as [[rb cb]|]; [|rewrite Dm; reflexivity].
      destruct Dm as [-> ->]. rewrite Nat.eqb_refl. reflexivity.
    + assert (P3' : Forall (fun e => forall a, e <> ENum a) (a :: b :: c :: l)) by (apply P3; cbn; lia).
      inversion P3' as [|? ? Na P3'']; subst. inversion P2 as [|? ? _ P2']; subst.
      inversion P3'' as [|? ? Nb _]; subst.
      assert (Eb : exists vb, den neg b = Some vb).
      { cbn [map] in Ew. rewrite oprod_cons in Ew by discriminate. apply omul_some in Ew as (p & q & Ep & _). eauto. }
      destruct Eb as [vb Eb].
      rewrite (IH b vb) by tauto. cbn [bind].
      assert (Hu : exists A, u = VMat A).
      { destruct u as [A|x]; [eauto|]. apply built_num in Ea; [|assumption]. exfalso. apply (Na x). assumption. }
      assert (Hv : exists A, vb = VMat A).
      { destruct vb as [A|x]; [eauto|]. apply built_num in Eb; [|assumption]. exfalso. apply (Nb x). assumption. }
      destruct Hu as [A ->]. destruct Hv as [A' ->]. cbn [dims_of].
      rewrite reduce_flat by assumption. cbn [bind].
      rewrite (IH (EMul (b :: c :: l)) w).
      * cbn [bind]. cbn [dims_of] in Dm. destruct (dims_of w) as [[rb cb]|] eqn:Dw.
        -- destruct Dm as [Dm1 Dm2]. rewrite Dm1, Nat.eqb_refl, Dm2. reflexivity.
        -- destruct w as [|x]; [discriminate|].
           assert (Bt : built (EMul (b :: c :: l))).
           { constructor; [cbn; lia|assumption|]. cbn [existsb].
             destruct (has_op b) eqn:Hb; [reflexivity|]. apply built_not_op in Hb as [x' ->]; [|assumption].
             exfalso. apply (Nb x'). reflexivity. }
           assert (EQ : den neg (EMul (b :: c :: l)) = Some (VNum x)) by exact Ew.
           apply built_num in EQ; [discriminate|assumption].
      * constructor; auto; intros _; inversion P3'; assumption.
      * constructor; [cbn; lia|assumption|]. cbn [existsb].
        destruct (has_op b) eqn:Hb; [reflexivity|]. apply built_not_op in Hb as [x' ->]; [|assumption].
        exfalso. apply (Nb x'). reflexivity.
      * exact Ew.
      * pose proof (size_tail a b (c :: l)). lia.
  - inversion B as [| | |? ? Ba Bb Bo| | | | | |]; subst. cbn [den] in D.
    destruct (den neg a) as [u|] eqn:Ea; [|discriminate].
    destruct (den neg b) as [w|] eqn:Eb; [|discriminate]. cbn [obind] in D. cbn [size] in Hs.
    cbn [get_dims]. destruct (is_number a) eqn:Na.
    + destruct a; try discriminate. rewrite (IH b w) by (auto; lia).
      inversion Ea; subst. destruct w as [W|]; cbn in D.
      * repeat match type of D with context [if ?c then _ else _] => destruct c eqn:? end; inversion D; subst; cbn; try reflexivity.
        all: try (match goal with H : (nr ?M =? nc ?M) = true |- _ => apply Nat.eqb_eq in H; rewrite H end; reflexivity).
      * inversion D; reflexivity.
    + destruct (is_number b) eqn:Nb.
      * destruct b; try discriminate. rewrite (IH a u) by (auto; lia).
        inversion Eb; subst. destruct u as [U|]; cbn in D.
        -- repeat match type of D with context [if ?c then _ else _] => destruct c eqn:? end; inversion D; subst; reflexivity.
        -- inversion D; reflexivity.
      * rewrite (IH a u), (IH b w) by (auto; lia). cbn [bind].
        destruct u as [U|x]; [|apply built_num in Ea; [subst; discriminate|assumption]].
        destruct w as [W|x]; [|apply built_num in Eb; [subst; discriminate|assumption]].
        cbn in D |- *. destruct ((nr U =? nr W) && (nc U =? nc W)); [|discriminate]. inversion D; reflexivity.
  - inversion B as [| | | |? ? Ba Bb Bo| | | | |]; subst. cbn [den] in D.
    destruct (den neg a) as [u|] eqn:Ea; [|discriminate].
    destruct (den neg b) as [w|] eqn:Eb; [|discriminate]. cbn [obind] in D. cbn [size] in Hs.
    cbn [get_dims]. destruct (is_number a) eqn:Na.
    + destruct a; try discriminate. rewrite (IH b w) by (auto; lia).
      inversion Ea; subst. destruct w as [W|]; cbn in D.
      * repeat match type of D with context [if ?c then _ else _] => destruct c eqn:? end; inversion D; subst; cbn; try reflexivity.
        all: try (match goal with H : (nr ?M =? nc ?M) = true |- _ => apply Nat.eqb_eq in H; rewrite H end; reflexivity).
      * inversion D; reflexivity.
    + destruct (is_number b) eqn:Nb.
      * destruct b; try discriminate. rewrite (IH a u) by (auto; lia).
        inversion Eb; subst. destruct u as [U|]; cbn in D.
        -- repeat match type of D with context [if ?c then _ else _] => destruct c eqn:? end; inversion D; subst; reflexivity.
        -- inversion D; reflexivity.
      * rewrite (IH a u), (IH b w) by (auto; lia). cbn [bind].
        destruct u as [U|x]; [|apply built_num in Ea; [subst; discriminate|assumption]].
        destruct w as [W|x]; [|apply built_num in Eb; [subst; discriminate|assumption]].
        cbn in D |- *. destruct ((nr U =? nr W) && (nc U =? nc W)); [|discriminate]. inversion D; reflexivity.
  - inversion B as [| | | | |? Ba Bo| | | |]; subst. cbn [den] in D.
    destruct (den neg a) as [u|] eqn:Ea; [|discriminate]. cbn [size] in Hs.
    destruct (has_op_mat neg a u Ba Bo Ea) as [A ->].
    cbn [get_dims]. rewrite (IH a (VMat A)) by (auto; lia). inversion D; subst. reflexivity.
  - inversion D; subst. reflexivity.
  - inversion D; subst. reflexivity.
  - cbn [den] in D. destruct (forallb _ _); inversion D; subst. reflexivity.
  - discriminate.
Qed.
