(** Specification and proofs for meshes of gmsh models *)
From Verif Require Import Base BaseProofs EmbedModel TransferProofs GmshModel GmshGenModel.
From Coq Require Import List Arith Lia Permutation.
Import ListNotations.
Local Open Scope nat_scope.

(** ** Specification *)
(** Every entity of a group has elements of one type, each with as many nodes as the type has *)
Definition meshed (wd : nat -> nat) (M : gmodel) : Prop :=
  forall dim tag entity, In (dim, tag) (m_groups M) -> In entity (m_entities M dim tag) ->
    exists t n l, m_elements M dim entity = [(t, (n, l))] /\ 0 < n /\ length l = n * wd t.
(** The node tags of element [i] of [w] nodes *)
Definition element (w : nat) (l : list nat) (i : nat) : list nat := map (fun j => nth (i * w + j) l 0) (seq 0 w).
(** The elements of type [elm] and their tags, in the order of groups and entities *)
Definition listing (wd : nat -> nat) (M : gmodel) (elm : nat) : list (list nat * nat) :=
  flat_map (fun g => flat_map (fun entity =>
    flat_map (fun x => if fst x =? elm then map (fun i => (element (wd elm) (snd (snd x)) i, snd g)) (seq 0 (fst (snd x))) else [])
      (m_elements M (fst g) entity)) (m_entities M (fst g) (snd g))) (m_groups M).

(** ** Reshaping *)
Lemma nth_skip : forall w i (l : list nat), nth (w + i) l 0 = nth i (skipn w l) 0.
Proof. induction w as [| w IH]; intros i [| a l]; cbn [skipn Nat.add nth]; auto. destruct i; reflexivity. Qed.
Lemma firstn_nth : forall w (l : list nat), w <= length l -> firstn w l = map (fun j => nth j l 0) (seq 0 w).
Proof.
  induction w as [| w IH]; intros [| a l] H; cbn in *; try lia; [reflexivity | reflexivity |]. f_equal. rewrite (IH l) by lia.
  rewrite <- seq_shift, map_map. reflexivity.
Qed.
Lemma cut_elements : forall n w l, length l = n * w -> cut n w l = map (element w l) (seq 0 n).
Proof.
  induction n as [| n IH]; intros w l H; [reflexivity |]. cbn [cut seq map]. f_equal.
  - apply firstn_nth. cbn in H. lia.
  - rewrite (IH w) by (rewrite skipn_length; cbn in H; lia). rewrite <- seq_shift, map_map. apply map_ext. intros i. unfold element. apply map_ext. intros j.
    rewrite <- nth_skip. f_equal. cbn. lia.
Qed.
Lemma reshape_ok : forall n w l, 0 < n -> length l = n * w -> reshape n l = Ok (w, map (element w l) (seq 0 n)).
Proof.
  intros n w l Hn H. unfold reshape. replace (n =? 0) with false by (symmetry; apply Nat.eqb_neq; lia).
  rewrite H. replace (n * w) with (w * n) at 1 by lia. rewrite Nat.mod_mul by lia. rewrite Nat.eqb_refl.
  replace (n * w / n) with w by (rewrite Nat.mul_comm, Nat.div_mul; lia). rewrite (cut_elements n w l H). reflexivity.
Qed.

(** ** Data *)
Lemma add_rows_ok : forall t w rows tags data, NoDup (map fst data) -> (forall d, In (t, d) data -> e_width d = w) ->
  exists data', add_rows t w rows tags data = Ok data' /\ NoDup (map fst data') /\
    (forall e, In e (map fst data') <-> e = t \/ In e (map fst data)) /\
    forall e d', In (e, d') data' <->
      (e <> t /\ In (e, d') data) \/
      (e = t /\ ((exists d, In (t, d) data /\ d' = {| e_width := w; e_rows := e_rows d ++ rows; e_tags := e_tags d ++ tags |}) \/
                 (~ In t (map fst data) /\ d' = {| e_width := w; e_rows := rows; e_tags := tags |}))).
Proof.
  intros t w rows tags data. induction data as [| [e d] data IH]; intros Hnd Hw; cbn [add_rows].
  - eexists. split; [reflexivity |]. split; [repeat constructor; auto |]. split; [intros e; cbn; intuition |].
    intros e d'. cbn [In map]. split.
    + intros [H | []]. injection H as <- <-. right. split; auto.
    + intros [[_ []] | [-> [[d [[] _]] | [_ ->]]]]. left; reflexivity.
  - inversion Hnd as [| k l Hk Hnd' E1]. subst k l. destruct (Nat.eqb_spec e t) as [-> | Hne].
    + rewrite (Hw d (or_introl eq_refl)), Nat.eqb_refl. eexists. split; [reflexivity |]. split; [exact Hnd |]. split; [intros e; cbn; intuition |].
      intros e d'. cbn [In map fst]. split.
      * intros [H | H].
        -- injection H as <- <-. right. split; auto. left. exists d. auto.
        -- left. split; [| auto]. intros ->. apply Hk. apply in_map_iff. exists (t, d'). auto.
      * intros [[Hn [H | H]] | [-> [[d0 [[H | H] ->]] | [H _]]]].
        -- injection H as -> _. contradiction.
        -- auto.
        -- injection H as ->. auto.
        -- exfalso. apply Hk. apply in_map_iff. exists (t, d0). auto.
        -- exfalso. apply H. auto.
    + destruct IH as [data' [E [N' [K D]]]]; auto. { intros d0 H0. apply Hw. right; auto. }
      rewrite E. cbn [bind]. eexists. split; [reflexivity |]. split; [| split].
      * cbn [map fst]. constructor; auto. rewrite K. intros [H | H]; auto.
      * intros e0. cbn [map fst In]. rewrite K. intuition.
      * intros e0 d'. cbn [In map fst]. rewrite D. split.
        -- intros [H | [[Hn H] | [-> [[d0 [H ->]] | [H ->]]]]].
           ++ injection H as <- <-. left; auto.
           ++ left; auto.
           ++ right. split; auto. left. exists d0. auto.
           ++ right. split; auto. right. split; auto. intros [H' | H']; auto.
        -- intros [[Hn [H | H]] | [-> [[d0 [[H | H] ->]] | [H ->]]]]; auto.
           ++ injection H as -> _. contradiction.
           ++ right. right. split; auto. left. exists d0; auto.
           ++ right. right. split; auto 6.
Qed.

(** what has been listed so far, with types *)
Definition of_type (e : nat) (L : list (nat * (list nat * nat))) : list (list nat * nat) := flat_map (fun x => if fst x =? e then [snd x] else []) L.
Lemma of_type_app : forall e L L', of_type e (L ++ L') = of_type e L ++ of_type e L'.
Proof. intros e L L'. unfold of_type. rewrite !flat_map_concat_map, map_app, concat_app. reflexivity. Qed.
Lemma of_type_same : forall t B, of_type t (map (fun x => (t, x)) B) = B.
Proof. intros t B. induction B as [| b B IH]; [reflexivity |]. cbn [map of_type flat_map fst snd]. rewrite Nat.eqb_refl. cbn [app]. f_equal. exact IH. Qed.
Lemma of_type_other : forall e t B, e <> t -> of_type e (map (fun x => (t, x)) B) = [].
Proof.
  intros e t B H. induction B as [| b B IH]; [reflexivity |]. cbn [map of_type flat_map fst snd].
  replace (t =? e) with false by (symmetry; apply Nat.eqb_neq; auto). exact IH.
Qed.
Definition pred_nodes (x : list nat * nat) : list nat := map (fun v => v - 1) (fst x).
Definition shows (wd : nat -> nat) (data : list (nat * elements)) (L : list (nat * (list nat * nat))) : Prop :=
  NoDup (map fst data) /\ (forall e, In e (map fst data) <-> of_type e L <> []) /\
  forall e d, In (e, d) data -> e_width d = wd e /\ e_rows d = map pred_nodes (of_type e L) /\ e_tags d = map snd (of_type e L).
Definition block (wd : nat -> nat) (t n : nat) (l : list nat) (tag : nat) : list (list nat * nat) := map (fun i => (element (wd t) l i, tag)) (seq 0 n).

Lemma add_entity_ok : forall wd M dim tag entity t n l data L, m_elements M dim entity = [(t, (n, l))] -> 0 < n -> length l = n * wd t -> shows wd data L ->
  exists data', add_entity M dim tag data entity = Ok data' /\ shows wd data' (L ++ map (fun x => (t, x)) (block wd t n l tag)).
Proof.
  intros wd M dim tag entity t n l data L E Hn Hl [N [K D]]. unfold add_entity. rewrite E, (reshape_ok n (wd t) l Hn Hl). cbn [bind fst snd].
  destruct (add_rows_ok t (wd t) (map (map (fun v => v - 1)) (map (element (wd t) l) (seq 0 n))) (repeat tag n) data N) as [data' [E' [N' [K' D']]]].
  { intros d Hd. apply D in Hd. tauto. }
  exists data'. split; [exact E' |].
  assert (B1 : map (map (fun v => v - 1)) (map (element (wd t) l) (seq 0 n)) = map pred_nodes (block wd t n l tag)) by (unfold block; rewrite !map_map; reflexivity).
  assert (B2 : repeat tag n = map snd (block wd t n l tag)).
  { unfold block. rewrite map_map. cbn [snd]. rewrite <- (seq_length n 0) at 1. generalize (seq 0 n) as s. induction s as [| a s IH]; [reflexivity |]. cbn. f_equal. exact IH. }
  assert (Bn : block wd t n l tag <> []) by (destruct n; [lia | discriminate]).
  split; [exact N' | split].
  - intros e. rewrite K', of_type_app. destruct (Nat.eq_dec e t) as [-> | Hne].
    + rewrite of_type_same. split; [| auto]. intros _ H. apply app_eq_nil in H. destruct H. contradiction.
    + rewrite of_type_other, app_nil_r by auto. rewrite K. intuition.
  - intros e d Hd. apply D' in Hd. rewrite of_type_app. destruct Hd as [[Hne Hd] | [-> Hd]].
    + rewrite of_type_other, app_nil_r by auto. apply D, Hd.
    + rewrite of_type_same, !map_app, <- B1, <- B2. destruct Hd as [[d0 [Hd ->]] | [Hd ->]]; cbn [e_width e_rows e_tags]; (split; [reflexivity |]).
      * apply D in Hd. destruct Hd as [_ [-> ->]]. auto.
      * assert (Ho : of_type t L = []). { destruct (of_type t L) eqn:Eo; auto. exfalso. apply Hd, K. rewrite Eo. discriminate. }
        rewrite Ho. auto.
Qed.

(** the elements of an entity, with types *)
Definition all_of (wd : nat -> nat) (M : gmodel) (g : nat * nat) (entity : nat) : list (nat * (list nat * nat)) :=
  flat_map (fun x => map (fun y => (fst x, y)) (block wd (fst x) (fst (snd x)) (snd (snd x)) (snd g))) (m_elements M (fst g) entity).
Lemma entities_ok : forall wd M g es data L, shows wd data L ->
  (forall entity, In entity es -> exists t n l, m_elements M (fst g) entity = [(t, (n, l))] /\ 0 < n /\ length l = n * wd t) ->
  exists data', foldM (add_entity M (fst g) (snd g)) es data = Ok data' /\ shows wd data' (L ++ flat_map (all_of wd M g) es).
Proof.
  intros wd M g es. induction es as [| entity es IH]; intros data L Hs H; cbn [foldM flat_map].
  - exists data. split; auto. rewrite app_nil_r. exact Hs.
  - destruct (H entity (or_introl eq_refl)) as [t [n [l [E [Hn Hl]]]]].
    destruct (add_entity_ok wd M (fst g) (snd g) entity t n l data L E Hn Hl Hs) as [data1 [E1 S1]]. rewrite E1. cbn [bind].
    destruct (IH data1 _ S1) as [data2 [E2 S2]]; [intros e He; apply H; right; auto |]. exists data2. split; [exact E2 |].
    assert (Ea : all_of wd M g entity = map (fun x => (t, x)) (block wd t n l (snd g))) by (unfold all_of; rewrite E; cbn [flat_map fst snd]; apply app_nil_r).
    rewrite Ea, app_assoc. exact S2.
Qed.
Lemma groups_ok : forall wd M gs data L, shows wd data L ->
  (forall g entity, In g gs -> In entity (m_entities M (fst g) (snd g)) -> exists t n l, m_elements M (fst g) entity = [(t, (n, l))] /\ 0 < n /\ length l = n * wd t) ->
  exists data', foldM (fun data g => foldM (add_entity M (fst g) (snd g)) (m_entities M (fst g) (snd g)) data) gs data = Ok data' /\
    shows wd data' (L ++ flat_map (fun g => flat_map (all_of wd M g) (m_entities M (fst g) (snd g))) gs).
Proof.
  intros wd M gs. induction gs as [| g gs IH]; intros data L Hs H; cbn [foldM flat_map].
  - exists data. split; auto. rewrite app_nil_r. exact Hs.
  - destruct (entities_ok wd M g (m_entities M (fst g) (snd g)) data L Hs) as [data1 [E1 S1]]; [intros e He; apply H; [left |]; auto |].
    rewrite E1. cbn [bind]. destruct (IH data1 _ S1) as [data2 [E2 S2]]; [intros g' e Hg He; apply H; [right |]; auto |].
    exists data2. split; [exact E2 |]. rewrite app_assoc. exact S2.
Qed.
Lemma of_type_flat : forall {A} e (f : A -> list (nat * (list nat * nat))) l, of_type e (flat_map f l) = flat_map (fun x => of_type e (f x)) l.
Proof. intros A e f l. induction l as [| a l IH]; [reflexivity |]. cbn [flat_map]. rewrite of_type_app, IH. reflexivity. Qed.
Lemma listing_all : forall wd M elm, listing wd M elm = of_type elm (flat_map (fun g => flat_map (all_of wd M g) (m_entities M (fst g) (snd g))) (m_groups M)).
Proof.
  intros wd M elm. unfold listing. rewrite of_type_flat. apply flat_map_ext. intros g. rewrite of_type_flat. apply flat_map_ext. intros entity.
  unfold all_of. rewrite of_type_flat. apply flat_map_ext. intros [t [n l]]. cbn [fst snd]. destruct (Nat.eqb_spec t elm) as [-> | Hne].
  - rewrite of_type_same. reflexivity.
  - rewrite of_type_other by auto. reflexivity.
Qed.

(** ** Nodes *)
Lemma put_node_perm : forall x l, Permutation (put_node x l) (x :: l).
Proof.
  intros x l. induction l as [| y l IH]; cbn [put_node]; auto. destruct (fst x <=? fst y); auto.
  eapply perm_trans; [apply perm_skip, IH | apply perm_swap].
Qed.
Lemma sort_nodes_perm : forall l, Permutation (sort_nodes l) l.
Proof. induction l as [| x l IH]; cbn; auto. eapply perm_trans; [apply put_node_perm | auto]. Qed.
Fixpoint ascending (l : list nat) : Prop := match l with [] => True | x :: r => (forall y, In y r -> x <= y) /\ ascending r end.
Lemma put_node_asc : forall x l, ascending (map fst l) -> ascending (map fst (put_node x l)).
Proof.
  intros x l. induction l as [| y l IH]; intros H; cbn [put_node].
  - cbn. split; [intros y [] | auto].
  - destruct (Nat.leb_spec (fst x) (fst y)) as [Hle | Hlt]; cbn [map ascending] in *; destruct H as [Hy H].
    + split; [| split; auto]. intros z [<- | Hz]; auto. specialize (Hy z Hz). lia.
    + split; [| auto]. intros z Hz. apply in_map_iff in Hz. destruct Hz as [p [<- Hp]]. apply (Permutation_in _ (put_node_perm x l)) in Hp.
      destruct Hp as [<- | Hp]; [lia |]. apply Hy, in_map, Hp.
Qed.
Lemma sort_nodes_asc : forall l, ascending (map fst (sort_nodes l)).
Proof. induction l as [| x l IH]; cbn; auto. apply put_node_asc, IH. Qed.
Lemma asc_seq : forall l a, ascending l -> Permutation l (seq a (length l)) -> l = seq a (length l).
Proof.
  induction l as [| x l IH]; intros a Ha Hp; [reflexivity |]. cbn [length seq] in *. destruct Ha as [Hx Ha].
  assert (x = a); [| subst x; f_equal; apply IH; auto; apply Permutation_cons_inv in Hp; exact Hp].
  assert (Hin : In x (a :: seq (S a) (length l))) by (apply (Permutation_in _ Hp); left; auto).
  assert (Hin' : In a (x :: l)) by (apply (Permutation_in _ (Permutation_sym Hp)); left; auto).
  destruct Hin as [Hin | Hin]; auto. apply in_seq in Hin. destruct Hin' as [-> | Hin']; auto. specialize (Hx a Hin'). lia.
Qed.
Lemma sorted_nth : forall l tag x, Permutation (map fst l) (seq 0 (length l)) -> In (tag, x) l -> nth_error (map snd (sort_nodes l)) tag = Some x.
Proof.
  intros l tag x Hp Hin. pose proof (sort_nodes_perm l) as P.
  assert (E : map fst (sort_nodes l) = seq 0 (length l)).
  { assert (Hl : length (map fst (sort_nodes l)) = length l) by (rewrite map_length; apply Permutation_length, P).
    rewrite <- Hl. apply asc_seq; [apply sort_nodes_asc |]. rewrite Hl. eapply perm_trans; [apply Permutation_map, P | exact Hp]. }
  apply (Permutation_in _ (Permutation_sym P)) in Hin. apply In_nth_error in Hin. destruct Hin as [i Hi].
  assert (Ei : nth_error (map fst (sort_nodes l)) i = Some tag) by (rewrite nth_error_map, Hi; reflexivity).
  assert (Hlt : i < length l). { rewrite <- (seq_length (length l) 0), <- E. apply nth_error_Some. congruence. }
  rewrite E in Ei. assert (tag = i).
  { rewrite (nth_error_nth' _ 0) in Ei by (rewrite seq_length; auto). rewrite seq_nth in Ei by auto. injection Ei as <-. reflexivity. }
  subst i. rewrite nth_error_map, Hi. reflexivity.
Qed.
