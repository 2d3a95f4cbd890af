(** Specification vocabulary for the spaces of reduced functions and lemmas. *)
From Verif Require Import Base ElementModel.

(** ** Vocabulary

    The scalar components of the functions of an element, in order: family,
    cell and polynomial degree of each. *)
Fixpoint copies {A} (n : nat) (l : list A) : list A := match n with 0 => [] | S k => l ++ copies k l end.
Fixpoint parts (e : elem) : list (family * cell * nat) :=
  match e with
  | FE (VFam n) c d => copies (c_gdim c) [(VFam n, c, d)]
  | FE (TFam n) c d => copies (c_gdim c * c_gdim c) [(TFam n, c, d)]
  | FE f c d => [(f, c, d)]
  | VE s n => copies n (parts s)
  | TE s sh => copies (prod sh) (parts s)
  | ME l => flat_map parts l
  end.

(** Every part of the element is defined on cells [c]. *)
Fixpoint on (c : cell) (e : elem) : Prop :=
  match e with
  | FE _ c' _ => c' = c
  | VE s _ => on c s
  | TE s _ => on c s
  | ME l => l <> [] /\ (fix all (l : list elem) : Prop := match l with [] => True | s :: r => on c s /\ all r end) l
  end.

(** Elements built from finite elements as vectors (of any length), square
    matrices and mixtures. *)
Fixpoint usual (g : nat) (e : elem) : Prop :=
  match e with
  | FE f _ _ => f <> Mixed
  | VE s n => usual g s /\ n <> 0
  | TE s sh => value_shape s = [] /\ (exists f c d, s = FE f c d) /\ sh = [g; g]
  | ME l => (fix all (l : list elem) : Prop := match l with [] => True | s :: r => usual g s /\ all r end) l
  end.

(** [f] is the kind of facet of [c], in the same space *)
Definition facet (c f : cell) : Prop :=
  c_gdim f = c_gdim c /\
  ((c_name c = Tetrahedron /\ c_name f = Triangle) \/ (c_name c = Triangle /\ c_name f = Interval)).

(** ** Lemmas *)
Lemma elem_ind' (P : elem -> Prop)
  (HF : forall f c d, P (FE f c d)) (HV : forall s n, P s -> P (VE s n)) (HT : forall s sh, P s -> P (TE s sh))
  (HM : forall l, (forall s, In s l -> P s) -> P (ME l)) : forall e, P e.
Proof.
  fix IH 1. intros [f c d | s n | s sh | l].
  - apply HF.
  - apply HV, IH.
  - apply HT, IH.
  - apply HM. induction l as [| s l IHl].
    + intros s Hin. contradiction Hin.
    + intros s' [<- | Hin]; [apply IH | exact (IHl s' Hin)].
Qed.

Lemma cell_eqb_eq a b : cell_eqb a b = true <-> a = b.
Proof.
  destruct a as [na ga], b as [nb gb]. unfold cell_eqb. cbn. rewrite andb_true_iff, Nat.eqb_eq.
  destruct na, nb; cbn; split; intros H; try (destruct H; subst; try discriminate; reflexivity);
    try (inversion H; subst; split; reflexivity); inversion H.
Qed.

Lemma cell_eqb_refl a : cell_eqb a a = true.
Proof. apply cell_eqb_eq. reflexivity. Qed.

Lemma facet_trace c f : facet c f <-> trace_cell c = Ok f.
Proof.
  destruct c as [nc g], f as [nf g']. unfold facet, trace_cell. cbn. split.
  - intros [-> [[-> ->] | [-> ->]]]; reflexivity.
  - destruct nc; intros H; inversion H; subst; split; auto.
Qed.

Lemma on_all c l :
  (fix all (l : list elem) : Prop := match l with [] => True | s :: r => on c s /\ all r end) l <-> (forall s, In s l -> on c s).
Proof.
  induction l as [| s l IH]; split; intros H.
  - intros s Hin. contradiction Hin.
  - exact I.
  - destruct H as [H1 H2]. intros s' [<- | Hin]; [exact H1 | exact (proj1 IH H2 s' Hin)].
  - split; [apply H; left; reflexivity | apply IH; intros s' Hin; apply H; right; exact Hin].
Qed.

Lemma usual_all g l :
  (fix all (l : list elem) : Prop := match l with [] => True | s :: r => usual g s /\ all r end) l <-> (forall s, In s l -> usual g s).
Proof.
  induction l as [| s l IH]; split; intros H.
  - intros s Hin. contradiction Hin.
  - exact I.
  - destruct H as [H1 H2]. intros s' [<- | Hin]; [exact H1 | exact (proj1 IH H2 s' Hin)].
  - split; [apply H; left; reflexivity | apply IH; intros s' Hin; apply H; right; exact Hin].
Qed.

Lemma on_cell c e : on c e -> e_cell e = Ok c.
Proof.
  induction e as [f c' d | s n IH | s sh IH | l IH] using elem_ind'; cbn; intros H.
  - rewrite H. reflexivity.
  - exact (IH H).
  - exact (IH H).
  - destruct H as [Hne Hall]. destruct l as [| s l]; [contradiction Hne; reflexivity |].
    apply IH; [left; reflexivity | exact (proj1 Hall)].
Qed.

Lemma map_copies {A B} (f : A -> B) n l : map f (copies n l) = copies n (map f l).
Proof. induction n as [| n IH]; cbn; [reflexivity |]. rewrite map_app, IH. reflexivity. Qed.

Lemma copies_length {A} n (l : list A) : length (copies n l) = n * length l.
Proof. induction n as [| n IH]; cbn; [reflexivity |]. rewrite app_length, IH. reflexivity. Qed.

Lemma In_copies {A} n (l : list A) x : In x (copies n l) -> In x l.
Proof. induction n as [| n IH]; cbn; [intros [] |]. rewrite in_app_iff. intros [H | H]; [exact H | exact (IH H)]. Qed.

Lemma prod_app a b : prod (a ++ b) = prod a * prod b.
Proof. induction a as [| x a IH]; cbn; [rewrite Nat.add_0_r; reflexivity |]. fold (prod (a ++ b)) (prod a). rewrite IH. apply Nat.mul_assoc. Qed.

(** as many parts as values *)
Lemma parts_length e : length (parts e) = prod (value_shape e).
Proof.
  induction e as [f c d | s n IH | s sh IH | l IH] using elem_ind'.
  - destruct f; cbn; try reflexivity; rewrite copies_length; cbn; lia.
  - cbn. rewrite copies_length, IH. reflexivity.
  - cbn [parts value_shape]. rewrite copies_length, IH, prod_app. reflexivity.
  - cbn. rewrite Nat.mul_1_r. induction l as [| s l IHl]; cbn; [reflexivity |].
    rewrite app_length, IHl, (IH s (or_introl eq_refl)); [reflexivity |].
    intros s' Hin. apply IH. right. exact Hin.
Qed.

Lemma parts_on c e f c' d : on c e -> In (f, c', d) (parts e) -> c' = c.
Proof.
  induction e as [f0 c0 d0 | s n IH | s sh IH | l IH] using elem_ind'; cbn; intros Ho Hin.
  - subst c0. destruct f0; cbn in Hin; try (apply In_copies in Hin); destruct Hin as [E | []]; inversion E; reflexivity.
  - exact (IH Ho (In_copies _ _ _ Hin)).
  - exact (IH Ho (In_copies _ _ _ Hin)).
  - apply in_flat_map in Hin. destruct Hin as (s & Hs & Hin). apply (IH s Hs); [| exact Hin].
    exact (proj1 (on_all c l) (proj2 Ho) s Hs).
Qed.

Lemma degree_le_mixed s l : In s l -> e_degree s <= fold_right (fun s m => Nat.max (e_degree s) m) 0 l.
Proof.
  induction l as [| a l IH]; intros Hin; [contradiction Hin |]. cbn. destruct Hin as [-> | Hin]; [lia |].
  specialize (IH Hin). lia.
Qed.

Lemma parts_degree e f c d : In (f, c, d) (parts e) -> d <= e_degree e.
Proof.
  induction e as [f0 c0 d0 | s n IH | s sh IH | l IH] using elem_ind'; cbn; intros Hin.
  - destruct f0; cbn in Hin; try (apply In_copies in Hin); destruct Hin as [E | []]; inversion E; lia.
  - exact (IH (In_copies _ _ _ Hin)).
  - exact (IH (In_copies _ _ _ Hin)).
  - apply in_flat_map in Hin. destruct Hin as (s & Hs & Hin). specialize (IH s Hs Hin).
    pose proof (degree_le_mixed s l Hs). lia.
Qed.

Lemma copies_copies {A} n m (l : list A) : copies n (copies m l) = copies (n * m) l.
Proof.
  assert (Ha : forall a b (l : list A), copies (a + b) l = copies a l ++ copies b l).
  { intros a b l'. induction a as [| a IH]; cbn; [reflexivity |]. rewrite IH. apply app_assoc. }
  induction n as [| n IH]; [reflexivity |]. cbn. rewrite IH, <- Ha. reflexivity.
Qed.

Lemma repeat_copies {A} n (x : A) : repeat x n = copies n [x].
Proof. induction n as [| n IH]; cbn; [reflexivity |]. rewrite IH. reflexivity. Qed.

(** what by_rank builds *)
Lemma by_rank_ok r f c d t :
  f = DiscLagrange \/ f = Lagrange -> by_rank r f c d = Ok t ->
  r <= 2 /\ on c t /\ value_shape t = repeat (c_gdim c) r /\ e_degree t = d /\ e_family t = f /\
  parts t = copies (c_gdim c ^ r) [(f, c, d)].
Proof.
  intros Hf. unfold by_rank. destruct r as [| [| [| r]]]; intros E; inversion E; subst t; clear E.
  - destruct Hf as [-> | ->]; cbn; repeat split; try lia.
  - destruct Hf as [-> | ->]; cbn; repeat split; try lia; rewrite Nat.mul_1_r; reflexivity.
  - destruct Hf as [-> | ->]; cbn [on value_shape e_degree e_family parts prod fold_right app repeat]; repeat split; try lia;
      cbn [Nat.pow]; rewrite ?Nat.mul_1_r; reflexivity.
Qed.

Lemma by_rank_total r f c d : r <= 2 -> exists t, by_rank r f c d = Ok t.
Proof. intros H. destruct r as [| [| [| r]]]; [eexists; reflexivity | eexists; reflexivity | eexists; reflexivity | lia]. Qed.

Lemma copies_add {A} a b (l : list A) : copies (a + b) l = copies a l ++ copies b l.
Proof. induction a as [| a IH]; cbn; [reflexivity |]. rewrite IH. apply app_assoc. Qed.

Section Trace.
Variables (c f : cell).
Hypothesis Hf : facet c f.

Definition traced (p : family * cell * nat) : family * cell * nat := (DiscLagrange, f, snd p).

Lemma trace_go l :
  (forall s, In s l -> on c s -> usual (c_gdim c) s ->
     exists t, trace_element s = Ok t /\ on f t /\ value_shape t = value_shape s /\ parts t = map traced (parts s)) ->
  (forall s, In s l -> on c s) -> (forall s, In s l -> usual (c_gdim c) s) ->
  exists l', (fix go (l : list elem) : res (list elem) :=
                match l with [] => Ok [] | s :: r => do s' <- trace_element s; do r' <- go r; Ok (s' :: r') end) l = Ok l' /\
    (forall s, In s l' -> on f s) /\ length l' = length l /\
    map value_shape l' = map value_shape l /\ flat_map parts l' = map traced (flat_map parts l).
Proof.
  induction l as [| s l IH]; intros H Ho Hu.
  - exists []. split; [reflexivity |]. split; [intros s []|]. repeat split.
  - destruct (H s (or_introl eq_refl) (Ho s (or_introl eq_refl)) (Hu s (or_introl eq_refl))) as (t & Et & Ht & Hs & Hp).
    destruct IH as (l' & El & Hl & Hn & Hsh & Hfp).
    + intros s' Hin. apply H. right. exact Hin.
    + intros s' Hin. apply Ho. right. exact Hin.
    + intros s' Hin. apply Hu. right. exact Hin.
    + exists (t :: l'). rewrite Et. cbn [bind]. rewrite El. split; [reflexivity |]. split.
      * intros s' [<- | Hin]; [exact Ht | exact (Hl s' Hin)].
      * cbn. rewrite Hn, Hs, Hsh, Hp, Hfp, map_app. repeat split.
Qed.

Lemma trace_element_ok e : on c e -> usual (c_gdim c) e ->
  exists t, trace_element e = Ok t /\ on f t /\ value_shape t = value_shape e /\ parts t = map traced (parts e).
Proof.
  pose proof (proj1 (facet_trace c f) Hf) as Hc. pose proof (proj1 Hf) as Hg.
  induction e as [fam c' d | s n IH | s sh IH | l IH] using elem_ind'; intros Ho Hu.
  - cbn in Ho. subst c'. destruct fam; cbn; rewrite Hc; cbn;
      try (eexists; split; [reflexivity |]; cbn; split; [reflexivity |]; split; reflexivity).
    + eexists; split; [reflexivity |]. cbn. split; [reflexivity |]. rewrite Hg, map_copies. split; reflexivity.
    + eexists; split; [reflexivity |]. cbn [on value_shape parts prod fold_right app]. split; [reflexivity |].
      rewrite Hg, map_copies, Nat.mul_1_r. split; reflexivity.
  - destruct Hu as [Hu Hn]. destruct (IH Ho Hu) as (t & Et & Ht & Hs & Hp). cbn.
    apply Nat.eqb_neq in Hn. rewrite Hn, Et. cbn. exists (VE t n). split; [reflexivity |]. cbn.
    rewrite Hs, Hp, map_copies. repeat split. exact Ht.
  - destruct Hu as (Hs & (fam & c' & d & ->) & ->). cbn in Ho. subst c'.
    destruct fam; cbn in Hs; try discriminate Hs; cbn; rewrite Hc; cbn;
      (eexists; split; [reflexivity |]; cbn [on value_shape parts prod fold_right app]; split; [reflexivity |]; rewrite Hg, map_copies; split; reflexivity).
  - destruct Ho as [Hne Ho']. pose proof (proj1 (on_all c l) Ho') as Ho. clear Ho'. cbn [usual] in Hu. pose proof (proj1 (usual_all (c_gdim c) l) Hu) as Hu'.
    destruct (trace_go l IH Ho Hu') as (l' & El & Hl & Hn & Hsh & Hp). exists (ME l'). cbn [trace_element].
    rewrite El. split; [reflexivity |]. cbn [on value_shape parts]. split; [| split].
    + split; [| apply on_all; exact Hl]. intros ->. destruct l; [exact (Hne eq_refl) | discriminate Hn].
    + f_equal. rewrite <- (map_map value_shape prod), Hsh, map_map. reflexivity.
    + exact Hp.
Qed.
End Trace.

(** elements that one call of by_rank replaces *)
Definition single (e : elem) : Prop := match e with ME _ => False | _ => True end.

Lemma repeat_forall (g r : nat) (l : list nat) : length l = r -> (repeat g r = l <-> Forall (eq g) l).
Proof.
  revert r. induction l as [| x l IH]; intros r Hr; destruct r as [| r]; try discriminate Hr; cbn.
  - split; [constructor | reflexivity].
  - injection Hr as Hr. split.
    + intros E. injection E as E1 E2. constructor; [exact E1 |]. apply (proj1 (IH r Hr)). exact E2.
    + intros F. inversion F as [| ? ? F1 F2]. rewrite (proj2 (IH r Hr) F2), F1. reflexivity.
Qed.

(** whatever trace_element returns is defined on the facets *)
Lemma trace_on c e t : on c e -> trace_element e = Ok t -> exists f, trace_cell c = Ok f /\ on f t.
Proof.
  revert t. induction e as [fam c0 d | s n IH | s sh IH | l IH] using elem_ind'; intros t Ho Et.
  - cbn in Ho. subst c0. cbn [trace_element e_cell bind e_degree] in Et.
    destruct (trace_cell c) as [f | x]; cbn [bind] in Et; [| discriminate Et].
    apply by_rank_ok in Et; [| left; reflexivity]. exists f. split; [reflexivity | apply Et].
  - cbn [trace_element] in Et. destruct (n =? 0); [discriminate Et |].
    destruct (trace_element s) as [s' | x] eqn:Es; cbn [bind] in Et; [| discriminate Et]. injection Et as <-.
    exact (IH s' Ho eq_refl).
  - cbn [trace_element] in Et. rewrite (on_cell c (TE s sh) Ho) in Et. cbn [bind] in Et.
    destruct (trace_cell c) as [f | x]; cbn [bind] in Et; [| discriminate Et].
    apply by_rank_ok in Et; [| left; reflexivity]. exists f. split; [reflexivity | apply Et].
  - destruct Ho as [Hne Ho']. pose proof (proj1 (on_all c l) Ho') as Ho. clear Ho'. cbn [trace_element] in Et.
    set (go := fix go (l : list elem) : res (list elem) :=
                match l with [] => Ok [] | s :: r => do s' <- trace_element s; do r' <- go r; Ok (s' :: r') end) in Et.
    destruct (go l) as [l' | x] eqn:El; cbn [bind] in Et; [| discriminate Et]. injection Et as <-.
    assert (G : forall l l', (forall s, In s l -> on c s) -> (forall s, In s l -> forall t, on c s -> trace_element s = Ok t -> exists f, trace_cell c = Ok f /\ on f t) ->
              go l = Ok l' -> length l' = length l /\ forall f, trace_cell c = Ok f -> forall s, In s l' -> on f s).
    { clear. induction l as [| s l IHl]; intros l' Ho IH El; cbn in El.
      - injection El as <-. split; [reflexivity |]. intros f _ s [].
      - destruct (trace_element s) as [s' | x] eqn:Es; cbn [bind] in El; [| discriminate El].
        destruct (go l) as [r | x] eqn:Er; cbn [bind] in El; [| discriminate El]. injection El as <-.
        destruct (IHl r) as [Hn Hr]; [intros a Ha; apply Ho; right; exact Ha | intros a Ha; apply IH; right; exact Ha | reflexivity |].
        split; [cbn; rewrite Hn; reflexivity |]. intros f Hf a [<- | Ha]; [| exact (Hr f Hf a Ha)].
        destruct (IH s (or_introl eq_refl) s' (Ho s (or_introl eq_refl)) Es) as (f' & Hf' & Hon).
        rewrite Hf in Hf'. injection Hf' as <-. exact Hon. }
    destruct (G l l' Ho IH El) as [Hn Hall].
    destruct l as [| s l]; [contradiction Hne; reflexivity |]. destruct l' as [| s' l']; [discriminate Hn |].
    assert (Hs : exists f, trace_cell c = Ok f).
    { cbn in El. destruct (trace_element s) as [s1 | x] eqn:Es; cbn [bind] in El; [| discriminate El].
      destruct (IH s (or_introl eq_refl) s1 (Ho s (or_introl eq_refl)) Es) as (f & Hf & _). exists f. exact Hf. }
    destruct Hs as (f & Hf). exists f. split; [exact Hf |]. cbn [on]. split; [discriminate |]. apply (proj2 (on_all f (s' :: l'))).
    exact (Hall f Hf).
Qed.
