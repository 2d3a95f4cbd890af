(** Specification vocabulary and proofs for BlockFormModel.v. *)
From Verif Require Import Base BaseProofs UflModel UflProofs BlockFormModel.
From Coq Require Import QArith Qcanon Qabs Permutation Sorted.
Local Open Scope nat_scope.
Local Close Scope Q_scope.
Local Close Scope Qc_scope.

(** ** Specification vocabulary *)

(** The integrand tests (n = 0) or tries (n = 1) with functions of one space. *)
Definition has_space (n : nat) (e : expr) (v : nat) : Prop :=
  (exists t, occurs t e /\ tkind t = KArg n v) /\ (forall t w, occurs t e -> tkind t = KArg n w -> w = v).
Definition no_space (n : nat) (e : expr) : Prop := forall t w, occurs t e -> tkind t <> KArg n w.

(** Position of the space in the list (the first one). *)
Definition at_pos (V0 : list nat) (v i : nat) : Prop :=
  nth_error V0 i = Some v /\ forall k, k < i -> nth_error V0 k <> Some v.

Definition blk (rows : list (list block)) (i j : nat) : option block :=
  match nth_error rows i with Some r => nth_error r j | None => None end.
Definition shaped (n : nat) (rows : list (list block)) : Prop :=
  length rows = n /\ forall r, In r rows -> length r = n.

(** Integrals gathered in a block. *)
Definition gathered (b : block) (f : form) : Prop :=
  (b = BNum (Q2Qc 0) /\ f = []) \/ (b = BForm f /\ f <> []).

(** Block (i, j) of the bilinear form holds the integrals [f], all of the right spaces. *)
Definition holds2 (V0 : list nat) (rows : list (list block)) (i j : nat) (f : form) : Prop :=
  exists b, blk rows i j = Some b /\ gathered b f.
Definition right_spaces (V0 : list nat) (i j : nat) (f : form) : Prop :=
  forall x, In x f -> exists v u, has_space 0 (snd x) v /\ has_space 1 (snd x) u /\
                                  nth_error V0 i = Some v /\ nth_error V0 j = Some u.
Definition state2 (V0 : list nat) (rows : list (list block)) (c : nat -> nat -> form) : Prop :=
  shaped (length V0) rows /\
  forall i j, i < length V0 -> j < length V0 -> holds2 V0 rows i j (c i j) /\ right_spaces V0 i j (c i j).

Definition state1 (V0 : list nat) (bs : list block) (c : nat -> form) : Prop :=
  length bs = length V0 /\
  forall i, i < length V0 -> (exists b, nth_error bs i = Some b /\ gathered b (c i)) /\
    forall x, In x (c i) -> exists v, has_space 0 (snd x) v /\ no_space 1 (snd x) /\ nth_error V0 i = Some v.

(** The terminal with test and trial function exchanged. *)
Definition swap_term (t : term) : term :=
  match tkind t with
  | KArg 0 v => Term (KArg 1 v) (a_trace t) (a_restriction t) (a_average t) (a_other t)
  | KArg 1 v => Term (KArg 0 v) (a_trace t) (a_restriction t) (a_average t) (a_other t)
  | _ => t
  end.
Inductive swapped : expr -> expr -> Prop :=
| swapped_leaf t : swapped (Leaf t) (Leaf (swap_term t))
| swapped_node f xs ys : Forall2 swapped xs ys -> swapped (Node f xs) (Node f ys).

(** Integrands on which the exchange by successive substitutions is right:
    test and trial functions only, each with one set of reduction attributes
    (trace_, restriction_, average_), and no space used by both. *)
Definition exchangeable (e : expr) : Prop :=
  (forall t n v, occurs t e -> tkind t = KArg n v -> n < 2 /\ a_other t = []) /\
  (forall t s n v, occurs t e -> occurs s e -> tkind t = KArg n v -> tkind s = KArg n v -> t = s) /\
  (forall t s v w, occurs t e -> occurs s e -> tkind t = KArg 0 v -> tkind s = KArg 1 w -> v <> w).

(** Set iteration orders. *)
Definition an_order (ord : list term -> list term) : Prop := forall l, Permutation l (ord l).

(** ** Adjoint *)

Fixpoint map_leaves (g : term -> term) (e : expr) : expr :=
  match e with Leaf t => Leaf (g t) | Node f ops => Node f (map (map_leaves g) ops) end.

Lemma map_leaves_ext g h e : (forall t, occurs t e -> g t = h t) -> map_leaves g e = map_leaves h e.
Proof.
  induction e as [t|f ops IH] using expr_ind2; intros H; cbn [map_leaves].
  - rewrite H; [reflexivity|constructor].
  - f_equal. apply map_ext_in. intros x Hx. rewrite Forall_forall in IH. apply IH; [assumption|].
    intros t Ht. apply H. eapply occurs_node; eassumption.
Qed.

Lemma map_leaves_id e : map_leaves (fun t => t) e = e.
Proof.
  induction e as [t|f ops IH] using expr_ind2; cbn [map_leaves]; [reflexivity|]. f_equal.
  rewrite <- (map_id ops) at 2. apply map_ext_in. rewrite Forall_forall in IH. exact IH.
Qed.

Lemma map_leaves_comp g h e : map_leaves g (map_leaves h e) = map_leaves (fun t => g (h t)) e.
Proof.
  induction e as [t|f ops IH] using expr_ind2; cbn [map_leaves]; [reflexivity|]. f_equal.
  rewrite map_map. apply map_ext_in. rewrite Forall_forall in IH. exact IH.
Qed.

Lemma map_leaves_occurs g e s : occurs s (map_leaves g e) -> exists t, occurs t e /\ s = g t.
Proof.
  induction e as [t|f ops IH] using expr_ind2; cbn [map_leaves]; intros H.
  - apply occurs_leaf_inv in H. exists t. split; [constructor|assumption].
  - inversion H as [|f1 o1 x Hx Hs]; subst. apply in_map_iff in Hx. destruct Hx as (y & <- & Hy).
    rewrite Forall_forall in IH. destruct (IH y Hy Hs) as (t & Ht & E). exists t. split; [|assumption].
    eapply occurs_node; eassumption.
Qed.

Lemma occurs_map_leaves g e t : occurs t e -> occurs (g t) (map_leaves g e).
Proof.
  intros H. induction H; cbn [map_leaves]; [constructor|]. eapply occurs_node; [|eassumption]. apply in_map. assumption.
Qed.

Lemma map_leaves_swapped e : swapped e (map_leaves swap_term e).
Proof.
  induction e as [t|f ops IH] using expr_ind2; cbn [map_leaves]; constructor.
  induction IH; cbn [map]; constructor; assumption.
Qed.

Lemma swapped_map_leaves e e' : swapped e e' -> e' = map_leaves swap_term e.
Proof.
  revert e'. induction e as [t|f ops IH] using expr_ind2; intros e' H; cbn [map_leaves].
  - inversion H. reflexivity.
  - inversion H as [|f1 xs ys F]; subst. f_equal. clear H. revert ys F. induction IH; intros ys F; inversion F; subst; cbn [map]; [reflexivity|].
    f_equal; auto.
Qed.

Lemma replace_leaf e arg new at_ :
  replace e (Leaf arg) (Leaf new) at_ = map_leaves (fun t => if is_equal_terminal t arg at_ then new else t) e.
Proof.
  eapply substituted_fun; [apply replace_substituted|].
  induction e as [t|f ops IH] using expr_ind2; cbn [map_leaves].
  - destruct (is_equal_terminal t arg at_) eqn:E.
    + apply sub_hit. apply is_equal_terminal_spec. assumption.
    + apply sub_miss. rewrite <- is_equal_terminal_spec. congruence.
  - apply sub_node. induction IH; cbn [map]; constructor; assumption.
Qed.

(** One substitution of form_adjoint, on a leaf. *)
Definition adj_term (arg : term) : term :=
  match adj_arg arg with Ok t => t | Err _ => arg end.
Definition adj_leaf (arg t : term) : term :=
  if is_equal_terminal t arg (Some (filter (hasattr arg) ii_attrs)) then adj_term arg else t.

Lemma adjoint_args_leaves args : (forall a, In a args -> exists n v, tkind a = KArg n v /\ n < 2) -> forall e,
  adjoint_args e args = Ok (map_leaves (fun t => fold_left (fun x a => adj_leaf a x) args t) e).
Proof.
  induction args as [|a args IH]; intros H e; cbn [adjoint_args fold_left].
  - rewrite map_leaves_id. reflexivity.
  - destruct (H a (or_introl eq_refl)) as (n & v & K & Hn).
    assert (A : adj_arg a = Ok (adj_term a)).
    { unfold adj_term, adj_arg. rewrite K. destruct n as [|[|n]]; [reflexivity|reflexivity|lia]. }
    rewrite A. cbn [bind]. rewrite replace_leaf, IH by (intros; apply H; right; assumption).
    rewrite map_leaves_comp. reflexivity.
Qed.

Lemma set_of_In l t : In t (set_of l) -> In t l.
Proof.
  induction l as [|x l IH]; cbn; [auto|]. intros [H|H]; [left; assumption|]. apply filter_In in H. right. apply IH. tauto.
Qed.
Lemma set_of_cover l t : In t l -> exists s, In s (set_of l) /\ tkind s = tkind t.
Proof.
  induction l as [|x l IH]; cbn; [contradiction|]. intros [->|H]; [exists t; split; [left; reflexivity|reflexivity]|].
  destruct (IH H) as (s & Hs & E). destruct (ufl_eq x s) eqn:U.
  - exists x. split; [left; reflexivity|]. unfold ufl_eq in U. apply kind_eqb_spec in U. congruence.
  - exists s. split; [right; apply filter_In; rewrite U; auto|assumption].
Qed.
Lemma set_of_NoDup l : NoDup (map tkind (set_of l)).
Proof.
  induction l as [|x l IH]; cbn [set_of map]; constructor.
  - rewrite in_map_iff. intros (s & E & Hs). apply filter_In in Hs. destruct Hs as [_ Hs].
    unfold ufl_eq in Hs. rewrite E in Hs. assert (kind_eqb (tkind x) (tkind x) = true) by (apply kind_eqb_spec; reflexivity).
    rewrite H in Hs. discriminate.
  - revert IH. generalize (set_of l) as m. induction m as [|y m IHm]; cbn [filter map]; intros H; [constructor|].
    inversion H; subst. destruct (negb (ufl_eq x y)); cbn [map]; [|auto]. constructor; [|auto].
    rewrite in_map_iff in *. intros (s & E & Hs). apply H2. exists s. split; [assumption|]. apply filter_In in Hs. tauto.
Qed.

Lemma arguments_spec e : (forall a, In a (arguments e) -> occurs a e /\ exists n v, tkind a = KArg n v) /\
  (forall t n v, occurs t e -> tkind t = KArg n v -> exists a, In a (arguments e) /\ tkind a = KArg n v) /\
  NoDup (map tkind (arguments e)).
Proof.
  unfold arguments. split; [|split].
  - intros a H. apply set_of_In, filter_In in H. destruct H as [H I]. split; [apply terminals_occurs; assumption|].
    unfold is_argument in I. destruct (tkind a); [eauto|discriminate].
  - intros t n v Ht K. destruct (set_of_cover (filter is_argument (terminals e)) t) as (s & Hs & E).
    + apply filter_In. split; [apply terminals_occurs; assumption|]. unfold is_argument. rewrite K. reflexivity.
    + exists s. split; [assumption|congruence].
  - apply set_of_NoDup.
Qed.

Lemma adj_leaf_other a t : tkind t <> tkind a -> adj_leaf a t = t.
Proof.
  intros H. unfold adj_leaf. destruct (is_equal_terminal _ _ _) eqn:E; [|reflexivity].
  apply is_equal_terminal_spec in E. destruct E as [E _]. contradiction.
Qed.

Lemma fold_other args t : (forall a, In a args -> tkind a <> tkind t) -> fold_left (fun x a => adj_leaf a x) args t = t.
Proof.
  induction args as [|a args IH]; intros H; cbn [fold_left]; [reflexivity|].
  rewrite adj_leaf_other by (intros E; apply (H a); [left; reflexivity|congruence]). apply IH. intros; apply H; right; assumption.
Qed.

Lemma adj_leaf_self t n v : tkind t = KArg n v -> n < 2 -> a_other t = [] -> adj_leaf t t = swap_term t.
Proof.
  intros K Hn O. unfold adj_leaf.
  replace (is_equal_terminal t t (Some (filter (hasattr t) ii_attrs))) with true.
  - unfold adj_term, adj_arg, swap_term. rewrite K, O. destruct n as [|[|n]]; [reflexivity|reflexivity|lia].
  - symmetry. apply is_equal_terminal_spec. split; [reflexivity|]. intros a Ha. apply filter_In in Ha. destruct Ha as [_ Ha].
    unfold hasattr in Ha. destruct (getattr t a) as [x|]; [|discriminate]. exists x. auto.
Qed.

Lemma fold_swap args t n v : tkind t = KArg n v -> n < 2 -> a_other t = [] -> NoDup (map tkind args) ->
  (forall a, In a args -> tkind a = KArg n v -> a = t) -> (exists a, In a args /\ tkind a = KArg n v) ->
  (forall a, In a args -> tkind a <> tkind (swap_term t)) ->
  fold_left (fun x a => adj_leaf a x) args t = swap_term t.
Proof.
  intros K Hn O. induction args as [|a args IH]; intros ND U EX SEP; [destruct EX as (? & [] & _)|].
  inversion ND; subst. cbn [fold_left]. destruct (kind_eqb (tkind a) (KArg n v)) eqn:E.
  - apply kind_eqb_spec in E. assert (a = t) by (apply U; [left; reflexivity|assumption]). subst a.
    rewrite (adj_leaf_self t n v) by assumption. apply fold_other. intros a Ha. apply SEP. right; assumption.
  - assert (NE : tkind a <> KArg n v) by (intros X; apply kind_eqb_spec in X; congruence).
    rewrite adj_leaf_other by congruence. apply IH; [assumption|..].
    + intros b Hb. apply U. right; assumption.
    + destruct EX as (b & [->|Hb] & Kb); [contradiction|]. eauto.
    + intros b Hb. apply SEP. right; assumption.
Qed.

Lemma swap_kind t n v : tkind t = KArg n v -> n < 2 -> tkind (swap_term t) = KArg (1 - n) v.
Proof. intros K Hn. unfold swap_term. rewrite K. destruct n as [|[|n]]; [reflexivity|reflexivity|lia]. Qed.

Lemma expr_adjoint_swaps ord e : an_order ord -> exchangeable e -> expr_adjoint ord e = Ok (map_leaves swap_term e).
Proof.
  intros HO (E1 & E2 & E3). unfold expr_adjoint. destruct (arguments_spec e) as (A1 & A2 & A3).
  pose proof (HO (arguments e)) as P. set (args := ord (arguments e)) in *.
  assert (B1 : forall a, In a args -> In a (arguments e)) by (intros a Ha; eapply Permutation_in; [apply Permutation_sym; exact P|exact Ha]).
  rewrite adjoint_args_leaves.
  - f_equal. apply map_leaves_ext. intros t Ht. destruct (tkind t) as [n v|id] eqn:K.
    + destruct (E1 t n v Ht K) as [Hn O]. apply (fold_swap args t n v); try assumption.
      * eapply Permutation_NoDup; [apply Permutation_map; exact P|exact A3].
      * intros a Ha Ka. destruct (A1 a (B1 a Ha)) as [Oa _]. eapply E2; eassumption.
      * destruct (A2 t n v Ht K) as (a & Ha & Ka). exists a. split; [eapply Permutation_in; eassumption|assumption].
      * intros a Ha. rewrite (swap_kind t n v K Hn). intros Ka. destruct (A1 a (B1 a Ha)) as [Oa _].
        destruct n as [|[|n]]; [|cbn in Ka|lia].
        -- cbn in Ka. eapply (E3 t a v v); eauto.
        -- eapply (E3 a t v v); eauto.
    + rewrite fold_other.
      * unfold swap_term. rewrite K. reflexivity.
      * intros a Ha. destruct (A1 a (B1 a Ha)) as [_ (n & v & Ka)]. congruence.
  - intros a Ha. destruct (A1 a (B1 a Ha)) as [Oa (n & v & Ka)]. exists n, v. split; [assumption|]. apply (E1 a n v Oa Ka).
Qed.

Lemma swap_term_involutive t : (forall n v, tkind t = KArg n v -> n < 2) -> swap_term (swap_term t) = t.
Proof.
  intros H. destruct t as [[[|[|n]] v|id] x y z o]; try reflexivity.
Qed.

Lemma swapped_exchangeable e : exchangeable e -> exchangeable (map_leaves swap_term e).
Proof.
  intros (E1 & E2 & E3).
  assert (BK : forall t n v, occurs t e -> tkind (swap_term t) = KArg n v -> n < 2 /\ tkind t = KArg (1 - n) v /\ a_other t = []).
  { intros t n v Ht K. destruct (tkind t) as [m w|id] eqn:Kt.
    - destruct (E1 t m w Ht Kt) as [Hm O]. rewrite (swap_kind t m w Kt Hm) in K.
      destruct m as [|[|m]]; [| |lia]; cbn in K; injection K as <- <-; auto.
    - unfold swap_term in K. rewrite Kt in K. congruence. }
  split; [|split].
  - intros s n v Hs K. apply map_leaves_occurs in Hs. destruct Hs as (t & Ht & ->). destruct (BK t n v Ht K) as (Hn & Kt & O).
    split; [assumption|]. unfold swap_term. rewrite Kt. destruct (1 - n) as [|[|]]; exact O.
  - intros s s' n v Hs Hs' K K'. apply map_leaves_occurs in Hs. destruct Hs as (t & Ht & ->). apply map_leaves_occurs in Hs'. destruct Hs' as (t' & Ht' & ->).
    destruct (BK t n v Ht K) as (_ & Kt & _). destruct (BK t' n v Ht' K') as (_ & Kt' & _). f_equal. eapply E2; eassumption.
  - intros s s' v w Hs Hs' K K'. apply map_leaves_occurs in Hs. destruct Hs as (t & Ht & ->). apply map_leaves_occurs in Hs'. destruct Hs' as (t' & Ht' & ->).
    destruct (BK t 0 v Ht K) as (_ & Kt & _). destruct (BK t' 1 w Ht' K') as (_ & Kt' & _). intros E. apply (E3 t' t w v); auto.
Qed.

Lemma swap_twice e : exchangeable e -> map_leaves swap_term (map_leaves swap_term e) = e.
Proof.
  intros (E1 & _). rewrite map_leaves_comp. rewrite <- (map_leaves_id e) at 2. apply map_leaves_ext.
  intros t Ht. apply swap_term_involutive. intros n v K. apply (E1 t n v Ht K).
Qed.

Definition swap_integral (i : integral) : integral := (fst i, map_leaves swap_term (snd i)).

Lemma form_adjoint_swaps ord f : an_order ord -> (forall x, In x f -> exchangeable (snd x)) ->
  form_adjoint ord (BForm f) = Ok (BForm (map swap_integral f)).
Proof.
  intros HO H. cbn [form_adjoint].
  replace (mapM _ f) with (Ok (map swap_integral f) : res (list integral)); [reflexivity|].
  induction f as [|x f IH]; [reflexivity|]. rewrite mapM_cons.
  rewrite expr_adjoint_swaps by (try assumption; apply H; left; reflexivity). cbn [bind].
  rewrite <- IH by (intros; apply H; right; assumption). reflexivity.
Qed.
