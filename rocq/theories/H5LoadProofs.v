(** What load_mesh returns *)
From Coq Require Import String Lia.
From Verif Require Import H5LoadModel.

(** Independent vocabulary: what a file says under a name is its first data set of that name *)
Definition says (f : h5file) (name : string) (d : dataset) : Prop :=
  exists a b, f = a ++ (name, d) :: b /\ forall d', ~ In (name, d') a.
Definition silent (f : h5file) (name : string) : Prop := forall d, ~ In (name, d) f.
Definition same_vertices (a b : list nat) : Prop := forall v, In v a <-> In v b.
(** The value of an entity: the last one given for its vertices, 0 without any *)
Definition value_of (vals : list (list nat * nat)) (e : list nat) (v : nat) : Prop :=
  (exists a k b, vals = a ++ (k, v) :: b /\ same_vertices k e /\ forall k' v', In (k', v') b -> ~ same_vertices k' e) \/
  (v = 0 /\ forall k' v', In (k', v') vals -> ~ same_vertices k' e).

Lemma h5_get_some : forall f n d, h5_get f n = Some d <-> says f n d.
Proof.
  induction f as [|[k x] f IH]; intros n d; simpl.
  - split; [discriminate|]. intros (a & b & E & _). destruct a; discriminate E.
  - destruct (String.eqb_spec k n) as [->|N].
    + split.
      * intros [= ->]. exists [], f. split; [reflexivity|intros ? []].
      * intros (a & b & E & H). destruct a as [|y a]; injection E; [intros _ ->; reflexivity|].
        intros _ <-. exfalso. apply (H x). left. reflexivity.
    + rewrite IH. split.
      * intros (a & b & -> & H). exists ((k, x) :: a), b. split; [reflexivity|]. intros d' [[= -> _]|I]; [easy|apply (H d' I)].
      * intros (a & b & E & H). destruct a as [|y a]; injection E; [intros _ _ ->; easy|].
        intros -> <-. exists a, b. split; [reflexivity|]. intros d' I. apply (H d'). right. exact I.
Qed.
Lemma h5_get_none : forall f n, h5_get f n = None <-> silent f n.
Proof.
  induction f as [|[k x] f IH]; intros n; simpl.
  - split; [intros _ d []|reflexivity].
  - destruct (String.eqb_spec k n) as [->|N].
    + split; [discriminate|]. intros H. exfalso. apply (H x). left. reflexivity.
    + rewrite IH. split; intros H d.
      * intros [[= -> _]|I]; [easy|apply (H d I)].
      * intros I. apply (H d). right. exact I.
Qed.
Lemma subset_iff : forall a b, subset a b = true <-> forall v, In v a -> In v b.
Proof.
  intros a b. unfold subset. rewrite forallb_forall. split; intros H v I.
  - apply H, existsb_exists in I. destruct I as (w & I & E). apply Nat.eqb_eq in E. subst. exact I.
  - apply existsb_exists. exists v. split; [apply H, I|apply Nat.eqb_refl].
Qed.
Lemma same_entity_iff : forall a b, same_entity a b = true <-> same_vertices a b.
Proof. intros a b. unfold same_entity, same_vertices. rewrite andb_true_iff, !subset_iff. firstorder. Qed.
Lemma lookup_value : forall vals e, value_of vals e (lookup vals e 0).
Proof.
  intros vals e. induction vals as [|[k v] l IH] using rev_ind.
  - right. split; [reflexivity|intros ? ? []].
  - unfold lookup. rewrite fold_left_app. simpl. destruct (same_entity k e) eqn:E.
    + left. exists l, k, []. apply same_entity_iff in E. split; [reflexivity|split; [exact E|intros ? ? []]].
    + assert (N : ~ same_vertices k e) by (rewrite <- same_entity_iff, E; discriminate).
      destruct IH as [(a & k0 & b & E1 & S & H)|[E1 H]].
      * left. exists a, k0, (b ++ [(k, v)]). split; [|split; [exact S|]].
        -- fold (lookup l e 0). rewrite E1 at 1. rewrite <- app_assoc. reflexivity.
        -- intros k' v' I. apply in_app_iff in I. destruct I as [I|[[= <- <-]|[]]]; [apply (H _ _ I)|exact N].
      * right. split; [exact E1|]. intros k' v' I. apply in_app_iff in I. destruct I as [I|[[= <- <-]|[]]]; [apply (H _ _ I)|exact N].
Qed.
Lemma mapM_nth : forall (A B : Type) (g : A -> res B) l r, mapM g l = Ok r <->
  length r = length l /\ forall i a b, nth_error l i = Some a -> nth_error r i = Some b -> g a = Ok b.
Proof.
  intros A B g; induction l as [|a l IH]; intros r; simpl.
  - split; [intros [= <-]; split; [reflexivity|intros [|i]; discriminate]|]. intros [L _]. destruct r; [reflexivity|discriminate L].
  - split.
    + destruct (g a) as [b|] eqn:E; [|discriminate]. simpl. destruct (mapM g l) as [r'|] eqn:E2; [|discriminate]. simpl. intros [= <-].
      destruct (proj1 (IH r') eq_refl) as [L H]. split; [simpl; congruence|]. intros [|i] x y; simpl; [intros [= <-] [= <-]; exact E|apply H].
    + intros [L H]. destruct r as [|b r]; [discriminate L|]. rewrite (H 0 a b eq_refl eq_refl). simpl.
      rewrite (proj2 (IH r)); [reflexivity|]. split; [simpl in L; congruence|]. intros i x y H1 H2. apply (H (S i) x y H1 H2).
Qed.
Lemma read_zeros : forall vals (l : list (list nat)),
  map (fun ev => lookup vals (fst ev) (snd ev)) (combine l (repeat 0 (length l))) = map (fun e => lookup vals e 0) l.
Proof. intros vals; induction l as [|e l IH]; simpl; [reflexivity|]. rewrite IH. reflexivity. Qed.
