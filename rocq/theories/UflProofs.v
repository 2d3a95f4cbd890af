(** Specification vocabulary and proofs for UflModel.v. *)
From Verif Require Import Base BaseProofs UflModel.

(** ** Specification vocabulary *)

(** The same terminal for UFL, and with the same values of the listed
    attributes, which both must have. *)
Definition hit (attributes : option (list attr)) (t s : term) : Prop :=
  tkind t = tkind s /\
  match attributes with
  | None => True
  | Some l => forall a, In a l -> exists v, getattr t a = Some v /\ getattr s a = Some v
  end.

(** Occurrence of a terminal. *)
Inductive occurs (t : term) : expr -> Prop :=
| occurs_leaf : occurs t (Leaf t)
| occurs_node f ops x : In x ops -> occurs t x -> occurs t (Node f ops).

(** [e'] is [e] with exactly the hit terminals replaced. *)
Inductive substituted (attributes : option (list attr)) (arg : term) (r : expr) : expr -> expr -> Prop :=
| sub_hit t : hit attributes t arg -> substituted attributes arg r (Leaf t) r
| sub_miss t : ~ hit attributes t arg -> substituted attributes arg r (Leaf t) (Leaf t)
| sub_node f ops ops' : Forall2 (substituted attributes arg r) ops ops' ->
    substituted attributes arg r (Node f ops) (Node f ops').

(** Equal expressions up to attributes. *)
Inductive same_expr : expr -> expr -> Prop :=
| same_leaf t s : tkind t = tkind s -> same_expr (Leaf t) (Leaf s)
| same_node f xs ys : Forall2 same_expr xs ys -> same_expr (Node f xs) (Node f ys).

Inductive subterm (x : expr) : expr -> Prop :=
| subterm_refl : subterm x x
| subterm_node f ops y : In y ops -> subterm x y -> subterm x (Node f ops).

(** The number of operands is determined by the class. *)
Inductive arities (ar : nat -> nat) : expr -> Prop :=
| ar_leaf t : arities ar (Leaf t)
| ar_node f ops : length ops = ar f -> Forall (arities ar) ops -> arities ar (Node f ops).

(** [e'] is [e] with the outermost copies of [arg] replaced. *)
Inductive substituted_expr (arg r : expr) : expr -> expr -> Prop :=
| sube_hit e : same_expr e arg -> substituted_expr arg r e r
| sube_leaf t : ~ same_expr (Leaf t) arg -> substituted_expr arg r (Leaf t) (Leaf t)
| sube_node f ops ops' : ~ same_expr (Node f ops) arg -> Forall2 (substituted_expr arg r) ops ops' ->
    substituted_expr arg r (Node f ops) (Node f ops').

(** ** Induction over expressions *)

Lemma expr_ind2 (P : expr -> Prop) :
  (forall t, P (Leaf t)) -> (forall f ops, Forall P ops -> P (Node f ops)) -> forall e, P e.
Proof.
  intros HL HN. fix IH 1. intros [t|f ops]; [apply HL|]. apply HN.
  induction ops as [|x ops IHo]; constructor; [apply IH|assumption].
Qed.

Lemma kind_eqb_spec k l : kind_eqb k l = true <-> k = l.
Proof.
  destruct k, l; cbn; rewrite ?andb_true_iff, ?Nat.eqb_eq; split; intros H; try discriminate.
  - destruct H. congruence.
  - inversion H. auto.
  - congruence.
  - congruence.
Qed.

Lemma opt_eqb_spec x y : opt_eqb x y = true <-> x = y.
Proof. destruct x, y; cbn; rewrite ?Nat.eqb_eq; split; intros H; try discriminate; try congruence. Qed.

Lemma is_equal_terminal_spec t s at_ : is_equal_terminal t s at_ = true <-> hit at_ t s.
Proof.
  unfold is_equal_terminal, hit, ufl_eq. destruct at_ as [l|].
  - rewrite !andb_true_iff, kind_eqb_spec, !forallb_forall. split.
    + intros [[E [H1 H2]] H3]. split; [assumption|]. intros a Ha. specialize (H1 a Ha). specialize (H3 a Ha).
      apply opt_eqb_spec in H3. unfold hasattr in H1. destruct (getattr t a) as [v|]; [|discriminate].
      exists v. split; congruence.
    + intros [E H]. split; [split; [assumption|split]|]; intros a Ha; destruct (H a Ha) as (v & H1 & H2).
      * unfold hasattr. rewrite H1. reflexivity.
      * unfold hasattr. rewrite H2. reflexivity.
      * apply opt_eqb_spec. congruence.
  - rewrite kind_eqb_spec. tauto.
Qed.

Lemma hit_sym at_ t s : hit at_ t s -> hit at_ s t.
Proof. intros [E H]. split; [congruence|]. destruct at_; [|exact I]. intros a Ha. destruct (H a Ha) as (v & ? & ?). eauto. Qed.

Lemma hit_dec at_ t s : hit at_ t s \/ ~ hit at_ t s.
Proof. destruct (is_equal_terminal t s at_) eqn:E; [left|right]; rewrite <- is_equal_terminal_spec; congruence. Qed.

(** ** Traversal *)

Lemma traverse_node f ops : traverse (Node f ops) = flat_map traverse ops ++ [Node f ops].
Proof. cbn [traverse]. f_equal. Qed.

Lemma traverse_subterm e x : In x (traverse e) <-> subterm x e.
Proof.
  revert x. induction e as [t|f ops IH] using expr_ind2; intros x.
  - cbn. split; [intros [<-|[]]; constructor|]. intros H. inversion H. left; reflexivity.
  - rewrite traverse_node, in_app_iff, in_flat_map. rewrite Forall_forall in IH. split.
    + intros [(y & Hy & Hx)|[<-|[]]]; [|constructor]. eapply subterm_node; [exact Hy|]. apply IH; assumption.
    + intros H. inversion H; subst; [right; left; reflexivity|]. left. exists y. split; [assumption|]. apply IH; assumption.
Qed.

Lemma occurs_subterm t e : occurs t e <-> subterm (Leaf t) e.
Proof.
  split; intros H; induction H.
  - constructor.
  - eapply subterm_node; eassumption.
  - constructor.
  - eapply occurs_node; eassumption.
Qed.

Lemma terminals_occurs e t : In t (terminals e) <-> occurs t e.
Proof.
  unfold terminals. rewrite in_flat_map, occurs_subterm, <- traverse_subterm. split.
  - intros ([s|f ops] & Hx & Ht); [|contradiction]. destruct Ht as [<-|[]]. assumption.
  - intros H. exists (Leaf t). split; [assumption|left; reflexivity].
Qed.

Lemma occurs_leaf_inv t s : occurs t (Leaf s) -> t = s.
Proof. intros H. inversion H. reflexivity. Qed.

Lemma contains_spec e t at_ : contains e (Leaf t) at_ = true <-> exists s, occurs s e /\ hit at_ s t.
Proof.
  unfold contains. destruct e as [x|f ops].
  - rewrite is_equal_terminal_spec. split; [intros; exists x; split; [constructor|assumption]|].
    intros (s & Hs & H). apply occurs_leaf_inv in Hs. subst. assumption.
  - rewrite existsb_exists. split.
    + intros (s & Hs & H). cbn [matches] in H. apply is_equal_terminal_spec in H. exists s.
      split; [apply terminals_occurs; assumption|apply hit_sym; assumption].
    + intros (s & Hs & H). exists s. split; [apply terminals_occurs; assumption|]. cbn [matches].
      apply is_equal_terminal_spec, hit_sym. assumption.
Qed.

(** ** Replacing a terminal *)

Lemma substituted_same at_ arg r e : (forall s, occurs s e -> ~ hit at_ s arg) -> substituted at_ arg r e e.
Proof.
  induction e as [t|f ops IH] using expr_ind2; intros H.
  - apply sub_miss. apply H. constructor.
  - apply sub_node. rewrite Forall_forall in IH.
    assert (G : forall l, (forall x, In x l -> In x ops) -> Forall2 (substituted at_ arg r) l l).
    { induction l as [|x l IHl]; intros Hl; constructor.
      - apply IH; [apply Hl; left; reflexivity|]. intros s Hs. apply H. eapply occurs_node; [|exact Hs]. apply Hl. left; reflexivity.
      - apply IHl. intros; apply Hl; right; assumption. }
    apply G. auto.
Qed.

Lemma replace_unfold e arg r at_ : replace e arg r at_ =
  if negb (contains e arg at_) then e
  else if matches e arg at_ then r
  else match e with Leaf _ => e | Node f ops => Node f (map (fun op => replace op arg r at_) ops) end.
Proof. destruct e; reflexivity. Qed.

Lemma replace_substituted at_ arg r e : substituted at_ arg r e (replace e (Leaf arg) r at_).
Proof.
  induction e as [t|f ops IH] using expr_ind2; rewrite replace_unfold.
  - destruct (contains (Leaf t) (Leaf arg) at_) eqn:C; cbn [negb].
    + cbn [matches]. cbn [contains] in C. rewrite C. apply sub_hit. apply is_equal_terminal_spec. assumption.
    + apply sub_miss. cbn [contains] in C. rewrite <- is_equal_terminal_spec. congruence.
  - destruct (contains (Node f ops) (Leaf arg) at_) eqn:C; cbn [negb].
    + cbn [matches]. apply sub_node. clear C. induction IH; cbn [map]; constructor; assumption.
    + apply substituted_same. intros s Hs Hh. assert (contains (Node f ops) (Leaf arg) at_ = true) by (apply contains_spec; eauto). congruence.
Qed.

Lemma substituted_fun at_ arg r e e1 : substituted at_ arg r e e1 -> forall e2, substituted at_ arg r e e2 -> e1 = e2.
Proof.
  revert e1. induction e as [t|f ops IH] using expr_ind2; intros e1 H1 e2 H2.
  - inversion H1; subst; inversion H2; subst; try contradiction; reflexivity.
  - inversion H1 as [| |f1 o1 l1 F1]; subst. inversion H2 as [| |f2 o2 l2 F2]; subst. f_equal.
    clear H1 H2. revert l1 l2 F1 F2. induction IH as [|x ops Hx IH IHo]; intros l1 l2 F1 F2; inversion F1; subst; inversion F2; subst; [reflexivity|].
    f_equal; [apply Hx; assumption|apply IHo; assumption].
Qed.

Lemma replace_absent at_ arg r e : (forall s, occurs s e -> ~ hit at_ s arg) -> replace e (Leaf arg) r at_ = e.
Proof.
  intros H. eapply substituted_fun; [apply replace_substituted|]. apply substituted_same. assumption.
Qed.

Lemma substituted_occurs at_ arg r e e' s : substituted at_ arg r e e' -> occurs s e' ->
  occurs s r \/ (occurs s e /\ ~ hit at_ s arg).
Proof.
  revert e'. induction e as [t|f ops IH] using expr_ind2; intros e' H Hs.
  - inversion H; subst; [left; assumption|]. apply occurs_leaf_inv in Hs. subst. right. split; [constructor|assumption].
  - inversion H as [| |f1 o1 l1 F1]; subst. inversion Hs as [|f2 o2 x Hx Hox]; subst. rewrite Forall_forall in IH.
    assert (exists y, In y ops /\ substituted at_ arg r y x) as (y & Hy & Hyx).
    { clear - Hx F1. induction F1 as [|a b ops l1 Hab F1 IHF]; [contradiction|]. destruct Hx as [<-|Hx]; [exists a; split; [left; reflexivity|assumption]|].
      destruct (IHF Hx) as (y' & ? & ?). exists y'. split; [right; assumption|assumption]. }
    destruct (IH y Hy x Hyx Hox) as [G|[G1 G2]]; [left; assumption|]. right. split; [|assumption].
    eapply occurs_node; eassumption.
Qed.

(** A hit terminal remains only if the replacement brings it. *)
Lemma replace_gone at_ arg r e s : occurs s (replace e (Leaf arg) r at_) -> hit at_ s arg -> occurs s r.
Proof.
  intros Hs Hh. destruct (substituted_occurs at_ arg r e _ s (replace_substituted at_ arg r e) Hs) as [H|[_ H]]; [assumption|contradiction].
Qed.

(** ** Compound arguments *)

Lemma matches_same ar at_ e target : match target with Leaf _ => False | Node _ _ => True end \/ at_ = None ->
  arities ar e -> arities ar target -> (matches e target at_ = true <-> same_expr e target).
Proof.
  revert target at_. induction e as [t|f xs IH] using expr_ind2; intros target at_ HT HA HB.
  - destruct target as [s|g ys].
    + destruct HT as [ [] | -> ]. cbn [matches]. rewrite is_equal_terminal_spec. split.
      * intros [E _]. constructor. assumption.
      * intros H. inversion H; subst. split; [assumption|exact I].
    + cbn [matches]. split; [discriminate|intros H; inversion H].
  - destruct target as [s|g ys]; [cbn [matches]; split; [discriminate|intros H; inversion H]|].
    inversion HA; subst. inversion HB; subst. cbn [matches]. rewrite andb_true_iff, Nat.eqb_eq.
    assert (G : forall xs ys, Forall (fun e => forall target at_, (match target with Leaf _ => False | Node _ _ => True end \/ at_ = None) ->
        arities ar e -> arities ar target -> (matches e target at_ = true <-> same_expr e target)) xs ->
        Forall (arities ar) xs -> Forall (arities ar) ys -> length xs = length ys ->
        ((fix go (xs ys : list expr) : bool :=
            match xs, ys with x :: xs', y :: ys' => matches x y None && go xs' ys' | _, _ => true end) xs ys = true
         <-> Forall2 same_expr xs ys)).
    { clear. induction xs as [|x xs IHx]; intros ys F HA HB L; destruct ys as [|y ys]; cbn in L; try lia.
      - split; [constructor|reflexivity].
      - inversion F; subst. inversion HA; subst. inversion HB; subst. rewrite andb_true_iff, IHx by (assumption || lia).
        rewrite H1 by (try assumption; right; reflexivity). split; [intros [? ?]; constructor; assumption|].
        intros H. inversion H; subst. split; assumption. }
    split.
    + intros [-> H]. apply same_node. apply G in H; try assumption. congruence.
    + intros H. inversion H; subst. split; [reflexivity|]. apply G; try assumption. congruence.
Qed.

Lemma subterm_arities ar x e : subterm x e -> arities ar e -> arities ar x.
Proof.
  intros H. induction H; intros HA; [assumption|]. apply IHsubterm. inversion HA; subst.
  rewrite Forall_forall in H4. apply H4. assumption.
Qed.

Lemma contains_expr ar e g ys at_ : arities ar e -> arities ar (Node g ys) ->
  (contains e (Node g ys) at_ = true <-> exists s, subterm s e /\ same_expr s (Node g ys)).
Proof.
  intros HA HB. destruct e as [t|f xs].
  - cbn [contains]. split; [discriminate|]. intros (s & Hs & H). inversion Hs; subst. inversion H.
  - cbn [contains]. rewrite existsb_exists. unfold subexprs. split.
    + intros (s & Hs & H). apply filter_In in Hs. destruct Hs as [Hs _]. apply traverse_subterm in Hs. exists s. split; [assumption|].
      eapply matches_same; [left; exact I|eapply subterm_arities; eassumption|exact HB|exact H].
    + intros (s & Hs & H). exists s. split.
      * apply filter_In. split; [apply traverse_subterm; assumption|]. inversion H; subst. reflexivity.
      * apply (matches_same ar); [left; exact I|eapply subterm_arities; eassumption|exact HB|exact H].
Qed.

Lemma same_dec ar e target : arities ar e -> arities ar target -> same_expr e target \/ ~ same_expr e target.
Proof.
  intros HA HB. destruct (matches e target None) eqn:M.
  - left. apply (matches_same ar None e target) in M; auto.
  - right. intros H. apply (matches_same ar None e target) in H; auto. congruence.
Qed.

Lemma substituted_expr_same ar arg r e : arities ar e -> (forall s, subterm s e -> ~ same_expr s arg) -> substituted_expr arg r e e.
Proof.
  induction e as [t|f ops IH] using expr_ind2; intros HA H.
  - apply sube_leaf. apply H. constructor.
  - apply sube_node; [apply H; constructor|]. inversion HA; subst. rewrite Forall_forall in IH, H3.
    assert (G : forall l, (forall x, In x l -> In x ops) -> Forall2 (substituted_expr arg r) l l).
    { induction l as [|x l IHl]; intros Hl; constructor.
      - apply IH; [apply Hl; left; reflexivity|apply H3, Hl; left; reflexivity|]. intros s Hs. apply H. eapply subterm_node; [|exact Hs]. apply Hl. left; reflexivity.
      - apply IHl. intros; apply Hl; right; assumption. }
    apply G. auto.
Qed.

Lemma replace_expr ar at_ g ys r e : arities ar e -> arities ar (Node g ys) ->
  substituted_expr (Node g ys) r e (replace e (Node g ys) r at_).
Proof.
  intros HA HB. induction e as [t|f ops IH] using expr_ind2; rewrite replace_unfold.
  - cbn [contains negb]. apply sube_leaf. intros H. inversion H.
  - destruct (contains (Node f ops) (Node g ys) at_) eqn:C; cbn [negb].
    + destruct (matches (Node f ops) (Node g ys) at_) eqn:M.
      * apply sube_hit. eapply matches_same; [left; exact I|exact HA|exact HB|exact M].
      * apply sube_node.
        -- intros H. apply (matches_same ar at_ (Node f ops) (Node g ys)) in H; auto. congruence.
        -- inversion HA as [|f1 o1 L1 F1]; subst. clear - IH F1. induction IH as [|x ops Hx IH IHo]; cbn [map]; constructor.
           ++ apply Hx. inversion F1; assumption.
           ++ apply IHo. inversion F1; assumption.
    + apply (substituted_expr_same ar); [assumption|]. intros s Hs H.
      assert (contains (Node f ops) (Node g ys) at_ = true) by (apply (contains_expr ar); eauto). congruence.
Qed.
