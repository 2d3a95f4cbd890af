(** What a form means, and that the form of ii_derivative is its derivative. *)
From Verif Require Import Base BaseProofs UflModel UflProofs JacModel.
From Coq Require Import Reals Lra Sorting.Sorted.
Local Open Scope R_scope.
Local Arguments Nat.ltb : simpl never.
Local Arguments Nat.eqb : simpl never.

(** ** Meaning *)

(** The attributes of a terminal *)
Definition attrs_of (t : term) : option nat * option nat * option nat * list (nat * nat) :=
  (a_trace t, a_restriction t, a_average t, a_other t).

(** [points m]: the weights and points of the quadrature for the measure m.
    [reads s a q k u]: the function of the space s with the degrees of freedom u
    under the restriction operator given by the attributes a, its k-th partial
    derivative (k = 0: the value) at the point q; it is linear in u.  [others]:
    constants, coordinates, ...  [op ty]: the function a class of operators
    stands for; [modifier ty = Some k]: the class of the k-th partial
    derivative (of a terminal). *)
Record interp := Interp {
  point : Type;
  points : nat -> list (R * point);
  reads : nat -> option nat * option nat * option nat * list (nat * nat) -> point -> nat -> (nat -> R) -> R;
  reads_linear : forall s a q k u w t, reads s a q k (fun j => u j + t * w j) = reads s a q k u + t * reads s a q k w;
  others : nat -> point -> nat -> R;
  op : nat -> list R -> R;
  modifier : nat -> option nat }.

Section Meaning.
Variable info : nat -> cinfo.
Variable I : interp.

(** The values of terminals given the vectors of the functions and the degrees
    of freedom of the argument with each number *)
Definition tval (vecs : nat -> nat -> R) (args : nat -> nat -> R) (q : point I) (t : term) (k : nat) : R :=
  match tkind t with
  | KArg n s => reads I s (attrs_of t) q k (args n)
  | KOther i => match info i with
                | CFun s v => reads I s (attrs_of t) q k (vecs v)
                | _ => others I i q k
                end
  end.

Fixpoint ev (env : term -> nat -> R) (e : expr) : R :=
  match e with
  | Leaf t => env t 0%nat
  | Node ty ops => match modifier I ty, ops with
                   | Some k, [Leaf t] => env t k
                   | _, _ => op I ty (map (ev env) ops)
                   end
  end.

(** A derivative node: the coefficient c (only this object) moves in the
    direction d. *)
Definition moved (env : term -> nat -> R) (c d : term) (t : R) : term -> nat -> R :=
  fun s k => if kind_eqb (tkind s) (tkind c) then env s k + t * env d k else env s k.
Definition is_val (env : term -> nat -> R) (e : expr) (x : R) : Prop :=
  match e with
  | Node 0 [e0; Node 1 [Leaf c]; Node 1 [Leaf d]] => derivable_pt_lim (fun t => ev (moved env c d t) e0) 0 x
  | _ => x = ev env e
  end.

Definition rsum (l : list R) : R := fold_right Rplus 0 l.

(** The value of a form without derivative nodes *)
Definition form_at (vecs args : nat -> nat -> R) (f : form) : R :=
  rsum (map (fun me => rsum (map (fun wq => fst wq * ev (tval vecs args (snd wq)) (snd me)) (points I (fst me)))) f).

Definition integral_value (vecs args : nat -> nat -> R) (me : nat * expr) (x : R) : Prop :=
  exists xs, Forall2 (fun wq y => is_val (tval vecs args (snd wq)) (snd me) y) (points I (fst me)) xs /\
    x = rsum (map (fun p => fst (fst p) * snd p) (combine (points I (fst me)) xs)).
(** The value of a form (or of the number 0) *)
Definition form_value (vecs args : nat -> nat -> R) (J : option form) (x : R) : Prop :=
  match J with
  | None => x = 0
  | Some g => exists xs, Forall2 (integral_value vecs args) g xs /\ x = rsum xs
  end.

(** The vector with number v moves in the direction w. *)
Definition shifted (vecs : nat -> nat -> R) (v : nat) (w : nat -> R) (t : R) : nat -> nat -> R :=
  fun v' => if Nat.eqb v' v then fun j => vecs v' j + t * w j else vecs v'.

(** F is differentiable along all differentiable curves through p, with the
    gradient g. *)
Definition dot (a b : list R) : R := rsum (map (fun p => fst p * snd p) (combine a b)).
Definition has_gradient (F : list R -> R) (p g : list R) : Prop :=
  length g = length p /\
  forall (cs : list (R -> R)) (ds : list R),
    Forall2 (fun c x => c 0 = x) cs p -> Forall2 (fun c d => derivable_pt_lim c 0 d) cs ds ->
    derivable_pt_lim (fun t => F (map (fun c => c t) cs)) 0 (dot g ds).

(** Every operator in the expression is differentiable where it is evaluated;
    no derivative nodes, and partial derivatives only of terminals. *)
Inductive smooth (env : term -> nat -> R) : expr -> Prop :=
| sm_leaf t : smooth env (Leaf t)
| sm_mod ty k t : modifier I ty = Some k -> ty <> ty_deriv -> smooth env (Node ty [Leaf t])
| sm_op ty ops g : modifier I ty = None -> ty <> ty_deriv -> ty <> ty_list ->
    (forall x, In x ops -> smooth env x) ->
    has_gradient (op I ty) (map (ev env) ops) g -> smooth env (Node ty ops).

End Meaning.

(** ** Forms ii_derivative is meant for *)

Definition in_form (s : term) (f : form) : Prop := exists m e, In (m, e) f /\ occurs s e.

(** A functional: the test function of the space sv occurs in every integral
    (possibly restricted), and there are no other arguments. *)
Definition functional (sv : nat) (f : form) : Prop :=
  (forall m e, In (m, e) f -> exists s, occurs s e /\ tkind s = KArg 0 sv) /\
  (forall s n v, in_form s f -> tkind s = KArg n v -> n = 0%nat /\ v = sv) /\ f <> [].

(** x is an unrestricted dolfin.Function of the space sx with the vector vx. *)
Definition is_function (info : nat -> cinfo) (x : term) (sx vx : nat) : Prop :=
  (exists i, tkind x = KOther i /\ info i = CFun sx vx) /\
  a_trace x = None /\ a_restriction x = None /\ a_average x = None.

(** The coefficients are Functions or Constants; an object is equal only to
    itself. *)
Definition no_expressions (info : nat -> cinfo) (f : form) : Prop :=
  forall s i, in_form s f -> tkind s = KOther i -> info i <> CExpr.
Definition one_object (info : nat -> cinfo) (f : form) : Prop :=
  forall s t i, in_form s f -> in_form t f -> tkind s = KOther i -> tkind t = KOther i -> info i <> CNone -> s = t.

(** The functions on the vector vx carry at most one mark, of one of the
    three kinds ii_derivative knows. *)
Definition one_mark (s : term) : Prop :=
  a_other s = [] /\
  (a_trace s = None /\ a_restriction s = None \/ a_trace s = None /\ a_average s = None \/
   a_restriction s = None /\ a_average s = None).
Definition known_marks (info : nat -> cinfo) (vx : nat) (f : form) : Prop :=
  forall s i sp, in_form s f -> tkind s = KOther i -> info i = CFun sp vx -> one_mark s.

Definition older (f : form) (n : nat) : Prop := forall s i, in_form s f -> tkind s = KOther i -> (i < n)%nat.

(** ** Syntax: what the loop returns *)

Lemma form_terminals_in f s : In s (form_terminals f) <-> in_form s f.
Proof.
  unfold form_terminals, in_form. rewrite in_flat_map. split.
  - intros ((m & e) & Hm & Hs). exists m, e. split; [assumption|]. apply terminals_occurs. assumption.
  - intros (m & e & Hm & Hs). exists (m, e). split; [assumption|]. apply terminals_occurs. assumption.
Qed.

(** Coefficients *)
Lemma cinsert_in a l t : In t (cinsert a l) -> t = a \/ In t l.
Proof.
  induction l as [|s l IH]; cbn; [intros [<-|[]]; auto|].
  destruct (Nat.eqb_spec (count a) (count s)); [auto|]. destruct (Nat.ltb_spec (count a) (count s)); cbn.
  - intros [<-|H0]; auto.
  - intros [<-|H0]; [auto|]. destruct (IH H0); auto.
Qed.
Lemma cinsert_keeps a l t : In t l -> In t (cinsert a l).
Proof.
  induction l as [|s l IH]; cbn; [tauto|]. intros H.
  destruct (Nat.eqb_spec (count a) (count s)) as [E|E]; [exact H|]. destruct (Nat.ltb_spec (count a) (count s)); cbn; [tauto|].
  destruct H as [->|H]; auto.
Qed.
Lemma cinsert_has a l : exists t, In t (cinsert a l) /\ count t = count a.
Proof.
  induction l as [|s l IH]; cbn; [exists a; auto|].
  destruct (Nat.eqb_spec (count a) (count s)); [exists s; cbn; auto|]. destruct (Nat.ltb_spec (count a) (count s)); cbn.
  - exists a; auto.
  - destruct IH as (t & ? & ?). exists t; auto.
Qed.
Lemma cinsert_sorted a l : StronglySorted lt (map count l) -> StronglySorted lt (map count (cinsert a l)).
Proof.
  induction l as [|s l IH]; cbn; intros S; [repeat constructor|].
  inversion S as [|x y S' F]; subst.
  destruct (Nat.eqb_spec (count a) (count s)); [assumption|]. destruct (Nat.ltb_spec (count a) (count s)); cbn.
  - constructor; [assumption|]. constructor; [assumption|]. rewrite Forall_forall in *. intros z Hz. specialize (F z Hz). lia.
  - constructor; [apply IH; assumption|]. rewrite Forall_forall in *. intros z Hz. rewrite in_map_iff in Hz.
    destruct Hz as (t & <- & Ht). destruct (cinsert_in _ _ _ Ht) as [->|Ht']; [lia|]. apply F. apply in_map. assumption.
Qed.
Lemma fold_cinsert ts : forall l, StronglySorted lt (map count l) ->
  let r := fold_left (fun l t => cinsert t l) ts l in
  StronglySorted lt (map count r) /\ (forall t, In t r -> In t ts \/ In t l) /\
  (forall t, In t l -> In t r) /\ (forall t, In t ts -> exists s, In s r /\ count s = count t).
Proof.
  induction ts as [|a ts IH]; intros l S; cbn.
  - split; [assumption|]. split; [auto|]. split; [auto|]. intros t [].
  - destruct (IH (cinsert a l) (cinsert_sorted a l S)) as (H1 & H2 & H3 & H4). split; [assumption|]. split; [|split].
    + intros t Ht. destruct (H2 t Ht) as [H|H]; [auto|]. destruct (cinsert_in _ _ _ H); auto.
    + intros t Ht. apply H3. apply cinsert_keeps. assumption.
    + intros t [<-|Ht]; [|apply H4; assumption]. destruct (cinsert_has a l) as (s & Hs & E). exists s. auto.
Qed.

Lemma sorted_nodup l : StronglySorted lt l -> NoDup l.
Proof.
  induction l as [|x l IH]; intros S; constructor; inversion S as [|? ? S' F]; subst; [|auto].
  intros Hx. rewrite Forall_forall in F. specialize (F x Hx). lia.
Qed.

Lemma coefficients_spec info f :
  (forall t, In t (coefficients info f) -> in_form t f /\ is_coefficient info t = true) /\
  (forall s, in_form s f -> is_coefficient info s = true -> exists t, In t (coefficients info f) /\ tkind t = tkind s) /\
  NoDup (map count (coefficients info f)).
Proof.
  destruct (fold_cinsert (filter (is_coefficient info) (form_terminals f)) [] (SSorted_nil _)) as (H1 & H2 & _ & H4).
  assert (A : forall t, In t (coefficients info f) -> in_form t f /\ is_coefficient info t = true).
  { intros t Ht. destruct (H2 t Ht) as [H|[]]. rewrite filter_In, form_terminals_in in H. assumption. }
  split; [assumption|]. split; [|apply sorted_nodup; assumption].
  intros s Hs Hc. destruct (H4 s) as (t & Ht & E). { apply filter_In. rewrite form_terminals_in. auto. }
  exists t. split; [assumption|]. destruct (A t Ht) as [_ Ct]. unfold is_coefficient, coef_info, count in *.
  destruct (tkind t), (tkind s); try discriminate. subst. reflexivity.
Qed.

(** Arguments *)
Lemma ainsert_spec a l : is_argument a = true -> (forall t, In t l -> is_argument t = true) ->
  (forall t, In t l -> number t = number a -> tkind t = tkind a) -> StronglySorted lt (map number l) ->
  exists r, ainsert a l = Ok r /\ StronglySorted lt (map number r) /\ (forall t, In t r -> t = a \/ In t l) /\
    (forall t, In t l -> In t r) /\ (exists s, In s r /\ tkind s = tkind a).
Proof.
  intros Ha. induction l as [|s l IH]; intros Hl Hk S.
  - unfold is_argument in Ha. destruct (tkind a) as [n v|] eqn:E; [|discriminate]. cbn. rewrite E. exists [a].
    split; [reflexivity|]. split; [repeat constructor|]. split; [intros t [<-|[]]; auto|]. split; [intros t []|]. exists a. cbn. auto.
  - assert (Hs := Hl s (or_introl eq_refl)). unfold is_argument in Ha, Hs. destruct (tkind a) as [n v|] eqn:E; [|discriminate].
    destruct (tkind s) as [m w|] eqn:E'; [|discriminate]. cbn. rewrite E, E'.
    assert (Na : number a = n) by (unfold number; rewrite E; reflexivity).
    assert (Ns : number s = m) by (unfold number; rewrite E'; reflexivity).
    inversion S as [|? ? S' F]; subst. rewrite Forall_forall in F.
    destruct (Nat.eqb_spec (number a) (number s)) as [X|X].
    + specialize (Hk s (or_introl eq_refl) (eq_sym X)). rewrite E' in Hk. inversion Hk; subst. rewrite Nat.eqb_refl.
      exists (s :: l). split; [reflexivity|]. split; [assumption|]. split; [auto|]. split; [auto|]. exists s. cbn. split; [auto|congruence].
    + destruct (Nat.ltb_spec (number a) (number s)) as [Y|Y].
      * exists (a :: s :: l). split; [reflexivity|]. split.
        { cbn. constructor; [assumption|]. constructor; [assumption|]. apply Forall_forall. intros z Hz. specialize (F z Hz). lia. }
        split; [intros t [<-|H]; auto|]. split; [cbn; auto|]. exists a. cbn. auto.
      * destruct IH as (r & R1 & R2 & R3 & R4 & t0 & R5 & R6); auto.
        { intros t Ht. apply Hl. cbn. auto. } { intros t Ht. apply Hk. cbn. auto. }
        rewrite R1. cbn. exists (s :: r). split; [reflexivity|]. split.
        { cbn. constructor; [assumption|]. apply Forall_forall. intros z Hz. apply in_map_iff in Hz. destruct Hz as (t & <- & Ht).
          destruct (R3 t Ht) as [->|Ht']; [lia|]. apply F. apply in_map. assumption. }
        split; [intros t [<-|H]; [cbn; auto|]; destruct (R3 t H); cbn; auto|]. split; [intros t [<-|H]; cbn; auto|].
        exists t0. cbn. auto.
Qed.

Lemma ainserts_spec ts : forall l, (forall t, In t ts \/ In t l -> is_argument t = true) ->
  (forall s t, In s ts \/ In s l -> In t ts \/ In t l -> number s = number t -> tkind s = tkind t) ->
  StronglySorted lt (map number l) ->
  exists r, ainserts ts l = Ok r /\ StronglySorted lt (map number r) /\ (forall t, In t r -> In t ts \/ In t l) /\
    (forall t, In t l -> In t r) /\ (forall t, In t ts -> exists s, In s r /\ tkind s = tkind t).
Proof.
  induction ts as [|a ts IH]; intros l H1 H2 S.
  - exists l. cbn. repeat split; auto. intros t [].
  - cbn. destruct (ainsert_spec a l) as (r & R1 & R2 & R3 & R4 & s0 & R5 & R6); auto.
    { apply H1. cbn. auto. } { intros t Ht E. apply H2; cbn; auto. }
    rewrite R1. cbn.
    assert (K : forall t, In t ts \/ In t r -> In t (a :: ts) \/ In t l).
    { intros t [H|H]; [cbn; auto|]. destruct (R3 t H) as [->|H']; cbn; auto. }
    destruct (IH r) as (q & Q1 & Q2 & Q3 & Q4 & Q5); auto.
    exists q. split; [assumption|]. split; [assumption|]. split; [intros t Ht; apply K; apply Q3; assumption|].
    split; [auto|]. intros t [<-|Ht]; [exists s0; auto|apply Q5; assumption].
Qed.

Lemma arguments_spec f : (forall s t, in_form s f -> in_form t f -> is_argument s = true -> is_argument t = true ->
    number s = number t -> tkind s = tkind t) ->
  exists r, arguments f = Ok r /\ NoDup (map number r) /\ (forall t, In t r -> in_form t f /\ is_argument t = true) /\
    (forall t, in_form t f -> is_argument t = true -> exists s, In s r /\ tkind s = tkind t).
Proof.
  intros H. destruct (ainserts_spec (filter is_argument (form_terminals f)) []) as (r & R1 & R2 & R3 & _ & R5).
  - intros t [Ht|[]]. apply filter_In in Ht. tauto.
  - intros s t [Hs|[]] [Ht|[]] E. apply filter_In in Hs, Ht. rewrite form_terminals_in in Hs, Ht. apply H; tauto.
  - constructor.
  - exists r. split; [assumption|]. split; [apply sorted_nodup; assumption|]. split.
    + intros t Ht. destruct (R3 t Ht) as [K|[]]. apply filter_In in K. rewrite form_terminals_in in K. assumption.
    + intros t Ht Ha. apply R5. apply filter_In. rewrite form_terminals_in. auto.
Qed.

Lemma functional_arguments sv f : functional sv f ->
  exists a, arguments f = Ok [a] /\ tkind a = KArg 0 sv.
Proof.
  intros (H1 & H2 & H3).
  destruct (arguments_spec f) as (r & R1 & R2 & R3 & R4).
  { intros s t Hs Ht As At _. unfold is_argument in As, At. destruct (tkind s) eqn:Es; [|discriminate].
    destruct (tkind t) eqn:Et; [|discriminate]. destruct (H2 _ _ _ Hs Es), (H2 _ _ _ Ht Et). subst. reflexivity. }
  destruct f as [|(m & e) f]; [congruence|]. destruct (H1 m e) as (s & Hs & Ks); [left; reflexivity|].
  destruct (R4 s) as (a & Ha & Ka). { exists m, e. split; [left; reflexivity|assumption]. } { unfold is_argument. rewrite Ks. reflexivity. }
  rewrite Ks in Ka.
  assert (N : forall b, In b r -> number b = 0%nat).
  { intros b Hb. destruct (R3 b Hb) as [Fb Ab]. unfold is_argument in Ab. unfold number. destruct (tkind b) eqn:Eb; [|discriminate].
    apply (H2 _ _ _ Fb Eb). }
  exists a. split; [|assumption]. destruct r as [|b [|c r]].
  - destruct Ha.
  - destruct Ha as [->|[]]. assumption.
  - exfalso. cbn in R2. inversion R2 as [|? ? X _]; subst. apply X. left. rewrite (N b), (N c); cbn; auto.
Qed.

(** Substitution there and back *)
Lemma same_refl e : expr_eqb e e = true.
Proof.
  induction e as [t|f ops IH] using expr_ind2; cbn.
  - unfold ufl_eq. apply kind_eqb_spec. reflexivity.
  - rewrite Nat.eqb_refl. cbn. induction IH as [|x l Hx _ IHl]; [reflexivity|]. rewrite Hx. cbn. assumption.
Qed.

Lemma expr_eqb_same a : forall b, expr_eqb a b = true -> same_expr a b.
Proof.
  induction a as [t|f xs IH] using expr_ind2; intros [s|g ys]; cbn; try discriminate.
  - intros H. apply kind_eqb_spec in H. constructor. assumption.
  - rewrite andb_true_iff. intros [E H]. apply Nat.eqb_eq in E. subst. constructor.
    revert ys H. induction IH as [|x l Hx _ IHl]; intros [|y ys] H; try discriminate; constructor.
    + apply Hx. apply andb_true_iff in H. tauto.
    + apply IHl. apply andb_true_iff in H. tauto.
Qed.

Lemma Forall2_in_l {A B} (P : A -> B -> Prop) l m x : Forall2 P l m -> In x l -> exists y, In y m /\ P x y.
Proof. intros F. induction F as [|a b l m Hab F IH]; [intros []|]. intros [<-|H]; [exists b; cbn; auto|]. destruct (IH H) as (y & ? & ?). exists y. cbn. auto. Qed.
Lemma Forall2_in_r {A B} (P : A -> B -> Prop) l m y : Forall2 P l m -> In y m -> exists x, In x l /\ P x y.
Proof. intros F. induction F as [|a b l m Hab F IH]; [intros []|]. intros [<-|H]; [exists a; cbn; auto|]. destruct (IH H) as (x & ? & ?). exists x. cbn. auto. Qed.

Lemma same_occurs a : forall b s, same_expr a b -> occurs s a -> exists t, occurs t b /\ tkind t = tkind s.
Proof.
  induction a as [t|f xs IH] using expr_ind2; intros b s H O.
  - inversion H as [u v E|]; subst. apply occurs_leaf_inv in O. subst. exists v. split; [constructor|congruence].
  - inversion H as [|g l ys F]; subst. inversion O as [|g l x Hx Ox]; subst.
    destruct (Forall2_in_l _ _ _ _ F Hx) as (y & Hy & Sy). rewrite Forall_forall in IH.
    destruct (IH x Hx y s Sy Ox) as (t & Ot & E). exists t. split; [|assumption]. econstructor; eassumption.
Qed.

Lemma substituted_has at_ arg r e e' s t : substituted at_ arg r e e' -> occurs s e -> hit at_ s arg -> occurs t r -> occurs t e'.
Proof.
  revert e'. induction e as [u|f ops IH] using expr_ind2; intros e' H O Hh Or.
  - apply occurs_leaf_inv in O. subst. inversion H; subst; [assumption|contradiction].
  - inversion H as [| |g l l' F]; subst. inversion O as [|g l x Hx Ox]; subst.
    destruct (Forall2_in_l _ _ _ _ F Hx) as (y & Hy & Sy). rewrite Forall_forall in IH.
    econstructor; [exact Hy|]. eapply IH; eassumption.
Qed.

Lemma substituted_occurs_back at_ arg r e e' s : substituted at_ arg r e e' -> occurs s e -> occurs s e' \/ hit at_ s arg.
Proof.
  revert e'. induction e as [u|f ops IH] using expr_ind2; intros e' H O.
  - apply occurs_leaf_inv in O. subst. inversion H; subst; [right; assumption|left; constructor].
  - inversion H as [| |g l l' F]; subst. inversion O as [|g l x Hx Ox]; subst.
    destruct (Forall2_in_l _ _ _ _ F Hx) as (y & Hy & Sy). rewrite Forall_forall in IH.
    destruct (IH x Hx y Sy Ox) as [K|K]; [left|right; assumption]. econstructor; eassumption.
Qed.

Lemma flat_map_ext_on {A B} (f g : A -> list B) l : (forall x, In x l -> f x = g x) -> flat_map f l = flat_map g l.
Proof. induction l as [|x l IH]; intros H; cbn; [reflexivity|]. rewrite H, IH; cbn; auto. intros; apply H; cbn; auto. Qed.

Lemma substituted_back at_ fi sub e : forall e', substituted at_ fi (Leaf sub) e e' ->
  (forall s, occurs s e -> tkind s <> tkind sub) -> (forall s, occurs s e -> hit at_ s fi -> s = fi) ->
  substituted None sub (Leaf fi) e' e.
Proof.
  induction e as [t|f ops IH] using expr_ind2; intros e' H F U.
  - inversion H as [u Hu| u Hu|]; subst.
    + rewrite (U t (occurs_leaf t) Hu). apply sub_hit. split; [reflexivity|exact I].
    + apply sub_miss. intros [E _]. exact (F t (occurs_leaf t) E).
  - inversion H as [| |g l l' G]; subst. apply sub_node. rewrite Forall_forall in IH. clear H.
    assert (K : forall x, In x ops -> forall x', substituted at_ fi (Leaf sub) x x' -> substituted None sub (Leaf fi) x' x).
    { intros x Hx x' Sx. apply (IH x Hx x' Sx); intros s Os; [apply F|apply U]; econstructor; eassumption. }
    clear IH F U. induction G as [|x x' l l' Sx G IHG]; constructor; [apply K; [left; reflexivity|assumption]|].
    apply IHG. intros y Hy. apply K. right. assumption.
Qed.

Lemma update_absent o o' e : ~ occurs o e -> update o o' e = e.
Proof.
  induction e as [t|f ops IH] using expr_ind2; intros H; cbn.
  - destruct (term_eq_dec t o) as [->|_]; [|reflexivity]. exfalso. apply H. constructor.
  - f_equal. rewrite Forall_forall in IH. rewrite <- (map_id ops) at 2. apply map_ext_in. intros x Hx. apply IH; [assumption|].
    intros O. apply H. econstructor; eassumption.
Qed.

(** The restricted trial function *)
Definition direction (s : nat) (c : term) : term :=
  match restriction_type c with
  | Some a => setattr (plain (KArg 1 s)) a (getattr c a)
  | None => plain (KArg 1 s)
  end.
Definition here (c : term) (e : expr) : bool := existsb (fun t => kind_eqb (tkind t) (tkind c)) (terminals e).
Lemma here_spec c e : here c e = true <-> exists t, occurs t e /\ tkind t = tkind c.
Proof.
  unfold here. rewrite existsb_exists. split; intros (t & H & K); exists t; rewrite terminals_occurs, kind_eqb_spec in *; auto.
Qed.
Definition wrap (s : nat) (c : term) (me : nat * expr) : list (nat * expr) :=
  if here c (snd me) then [(fst me, Node ty_deriv [snd me; Node ty_list [Leaf c]; Node ty_list [Leaf (direction s c)]])] else [].

Lemma restriction_hit fi s : restriction_type fi = None \/ s = fi ->
  (hit (match restriction_type fi with Some a => Some [a] | None => None end) s fi <-> tkind s = tkind fi).
Proof.
  intros H. split; [intros [E _]; assumption|]. intros E. split; [assumption|].
  destruct (restriction_type fi) as [a|] eqn:R; [|exact I]. destruct H as [H|H]; [discriminate|]. subst s.
  intros b [<-|[]]. unfold restriction_type in R.
  assert (V : exists v, getattr fi a = Some v).
  { unfold hasattr in R. destruct (getattr fi ATrace) eqn:G1; [inversion R; subst; eauto|].
    destruct (getattr fi AAverage) eqn:G2; [inversion R; subst; eauto|].
    destruct (getattr fi ARestriction) eqn:G3; [inversion R; subst; eauto|]. discriminate. }
  destruct V as (v & V). exists v. auto.
Qed.

Section Partial.
Variable info : nat -> cinfo.
Variables (sv : nat) (f : form) (n : nat).
Hypothesis Hf : functional sv f.
Hypothesis Hg : one_object info f.
Hypothesis Ho : older f n.

Lemma partial_spec fi s v : in_form fi f -> coef_info info fi = CFun s v ->
  partial info f fi n = Ok (flat_map (wrap s fi) f).
Proof.
  intros Hin Hc. unfold partial, function_space. rewrite Hc. cbn [bind].
  set (at_ := match restriction_type fi with Some a => Some [a] | None => None end).
  set (sub := plain (KOther n)). set (du := plain (KArg 1 s)).
  assert (Ki : exists i, tkind fi = KOther i /\ info i = CFun s v).
  { unfold coef_info in Hc. destruct (tkind fi) as [|i]; [discriminate|]. eauto. }
  destruct Ki as (i & Ki & Ii).
  assert (U : forall t, in_form t f -> tkind t = tkind fi -> t = fi).
  { intros t Ht E. rewrite Ki in E. apply (Hg t fi i); auto. rewrite Ii. discriminate. }
  assert (Hh : forall t, in_form t f -> (hit at_ t fi <-> tkind t = tkind fi)).
  { intros t Ht. split; [intros [E _]; assumption|]. intros E. apply (restriction_hit fi t); [right; apply U; assumption|assumption]. }
  clearbody at_.
  assert (Fr : forall t, in_form t f -> tkind t <> tkind sub).
  { intros t Ht E. cbn in E. specialize (Ho t n Ht E). lia. }
  set (sub_of := fun e => replace e (Leaf fi) (Leaf sub) at_).
  assert (Hs : sub_integrals f fi sub at_ = flat_map (fun me => if here fi (snd me) then [(fst me, sub_of (snd me))] else []) f).
  { unfold sub_integrals. apply flat_map_ext_on. intros (m & e) Hm. cbn [fst snd]. fold (sub_of e).
    assert (Oc : forall t, occurs t e -> in_form t f) by (intros t Ht; exists m, e; auto).
    destruct (here fi e) eqn:E.
    - apply here_spec in E. destruct E as (t & Ot & Kt).
      destruct (expr_eqb (sub_of e) e) eqn:B; [|reflexivity]. exfalso. apply expr_eqb_same in B.
      assert (O : occurs sub (sub_of e)).
      { apply (substituted_has at_ fi (Leaf sub) e _ t); [apply replace_substituted|assumption| |constructor]. apply Hh; auto. }
      destruct (same_occurs _ _ _ B O) as (t' & Ot' & Kt'). exact (Fr t' (Oc t' Ot') Kt').
    - replace (sub_of e) with e; [rewrite same_refl; reflexivity|]. symmetry. apply replace_absent.
      intros t Ot Ht. apply Hh in Ht; [|auto]. assert (here fi e = true) by (apply here_spec; eauto). congruence. }
  assert (Ne : exists m e, In (m, e) f /\ here fi e = true).
  { destruct Hin as (m & e & Hm & Oe). exists m, e. split; [assumption|]. apply here_spec. eauto. }
  rewrite Hs.
  set (g := flat_map (fun me => if here fi (snd me) then [(fst me, sub_of (snd me))] else []) f).
  assert (Gin : forall m e', In (m, e') g -> exists e, In (m, e) f /\ here fi e = true /\ e' = sub_of e).
  { intros m e' H. apply in_flat_map in H. destruct H as ((m0 & e) & He & H). cbn [fst snd] in H.
    destruct (here fi e) eqn:E; [|destruct H]. destruct H as [H|[]]. inversion H; subst. eauto. }
  assert (Oc' : forall t e m, In (m, e) f -> occurs t (sub_of e) -> t = sub \/ (in_form t f /\ occurs t e)).
  { intros t e m Hm H. destruct (substituted_occurs _ _ _ _ _ _ (replace_substituted at_ fi (Leaf sub) e) H) as [K|[K _]].
    - apply occurs_leaf_inv in K. auto.
    - right. split; [exists m, e|]; auto. }
  assert (Fg : functional sv g).
  { destruct Hf as (F1 & F2 & F3). split; [|split].
    - intros m e' H. destruct (Gin m e' H) as (e & He & _ & ->). destruct (F1 m e He) as (t & Ot & Kt). exists t. split; [|assumption].
      destruct (substituted_occurs_back at_ fi (Leaf sub) e _ t (replace_substituted at_ fi (Leaf sub) e) Ot) as [K|K]; [assumption|].
      exfalso. destruct K as [K _]. rewrite Kt, Ki in K. discriminate.
    - intros t k w (m & e' & H & Ot) Kt. destruct (Gin m e' H) as (e & He & _ & ->).
      destruct (Oc' t e m He Ot) as [->|[Ht _]]; [discriminate|]. apply (F2 t); assumption.
    - destruct Ne as (m & e & He & Hh'). intros E.
      assert (K : In (m, sub_of e) g). { apply in_flat_map. exists (m, e). split; [assumption|]. cbn [fst snd]. rewrite Hh'. left. reflexivity. }
      rewrite E in K. destruct K. }
  unfold derivative. destruct (functional_arguments sv g Fg) as (a & Ea & Ka). rewrite Ea. cbn [bind].
  replace (next_number [a]) with 1%nat by (unfold next_number, number; cbn; rewrite Ka; reflexivity).
  fold du.
  set (h := map _ g).
  assert (Hb : substitute_back h sub fi =
    Ok (flat_map (fun me => if here fi (snd me) then [(fst me, Node ty_deriv [snd me; Node ty_list [Leaf fi]; Node ty_list [Leaf du]])] else []) f)).
  { unfold substitute_back, h, g. clear - U Fr Hh Hin.
    assert (L : forall f', (forall x, In x f' -> In x f) ->
      mapM (fun i0 : nat * expr => let e := replace (snd i0) (Leaf sub) (Leaf fi) None in
                 if expr_eqb e (snd i0) then Err AssertionError else Ok (fst i0, e))
       (map (fun i0 : nat * expr => (fst i0, Node ty_deriv [snd i0; Node ty_list [Leaf sub]; Node ty_list [Leaf du]]))
          (flat_map (fun me => if here fi (snd me) then [(fst me, sub_of (snd me))] else []) f')) =
      Ok (flat_map (fun me => if here fi (snd me) then [(fst me, Node ty_deriv [snd me; Node ty_list [Leaf fi]; Node ty_list [Leaf du]])] else []) f')).
    { induction f' as [|(m & e) f' IH]; intros Hf'; [reflexivity|]. cbn [flat_map fst snd].
      assert (Hm : In (m, e) f) by (apply Hf'; left; reflexivity).
      specialize (IH (fun x Hx => Hf' x (or_intror Hx))).
      destruct (here fi e); [|exact IH]. cbn [app map fst snd]. rewrite mapM_cons. cbn [fst snd].
      assert (E : replace (Node ty_deriv [sub_of e; Node ty_list [Leaf sub]; Node ty_list [Leaf du]]) (Leaf sub) (Leaf fi) None =
                  Node ty_deriv [e; Node ty_list [Leaf fi]; Node ty_list [Leaf du]]).
      { eapply substituted_fun; [apply replace_substituted|]. apply sub_node. constructor; [|constructor; [|constructor; [|constructor]]].
        - eapply substituted_back; [apply replace_substituted| |].
          + intros t Ot. apply Fr. exists m, e. auto.
          + intros t Ot Ht. assert (Ft : in_form t f) by (exists m, e; auto). apply U; [assumption|]. exact (proj1 (Hh t Ft) Ht).
        - apply sub_node. constructor; [|constructor]. apply sub_hit. split; [reflexivity|exact I].
        - apply sub_node. constructor; [|constructor]. apply sub_miss. intros [X _]. discriminate X. }
      rewrite E. destruct (expr_eqb _ _) eqn:B.
      { exfalso. cbn [expr_eqb] in B. rewrite !andb_true_iff in B. destruct B as (_ & _ & (_ & B & _) & _).
        unfold ufl_eq in B. apply kind_eqb_spec in B. exact (Fr fi Hin B). }
      cbn [bind]. cbv zeta in IH |- *. rewrite IH. reflexivity. }
    apply L. auto. }
  rewrite Hb. cbn [bind]. set (d := flat_map _ f).
  unfold wrap, direction. destruct (restriction_type fi) as [a0|] eqn:R; [|reflexivity].
  assert (Din : forall m e', In (m, e') d -> exists e, In (m, e) f /\ here fi e = true /\
            e' = Node ty_deriv [e; Node ty_list [Leaf fi]; Node ty_list [Leaf du]]).
  { intros m e' H. apply in_flat_map in H. destruct H as ((m0 & e) & He & H). cbn [fst snd] in H.
    destruct (here fi e) eqn:E; [|destruct H]. destruct H as [H|[]]. inversion H; subst. eauto. }
  assert (Od : forall t, in_form t d -> in_form t f \/ t = du).
  { intros t (m & e' & H & O). destruct (Din m e' H) as (e & He & _ & ->).
    inversion O as [|g0 l0 x Hx Ox]; subst. destruct Hx as [<-|[<-|[<-|[]]]].
    - left. exists m, e. auto.
    - inversion Ox as [|g0 l0 y Hy Oy]; subst. destruct Hy as [<-|[]]. apply occurs_leaf_inv in Oy. subst. auto.
    - inversion Ox as [|g0 l0 y Hy Oy]; subst. destruct Hy as [<-|[]]. apply occurs_leaf_inv in Oy. subst. auto. }
  assert (Fk : forall t, in_form t f -> is_argument t = true -> tkind t = KArg 0 sv).
  { intros t Ht A. unfold is_argument in A. destruct (tkind t) as [k w|] eqn:K; [|discriminate].
    destruct Hf as (_ & F2 & _). destruct (F2 t k w Ht K). subst. reflexivity. }
  unfold get_trialfunction. destruct (arguments_spec d) as (r & R1 & R2 & R3 & R4).
  { intros t t' Ht Ht' A A' E. destruct (Od t Ht) as [K|K], (Od t' Ht') as [K'|K'].
    - rewrite (Fk t), (Fk t'); auto.
    - exfalso. subst. unfold number in E. rewrite (Fk t) in E; auto. discriminate.
    - exfalso. subst. unfold number in E. rewrite (Fk t') in E; auto. discriminate.
    - congruence. }
  rewrite R1. cbn [bind].
  assert (Q1 : forall t, In t r -> number t = 1%nat -> t = du).
  { intros t Ht N. destruct (R3 t Ht) as [D A]. destruct (Od t D) as [K|K]; [|assumption].
    unfold number in N. rewrite (Fk t) in N; auto. discriminate. }
  destruct Ne as (m & e & He & Hh').
  destruct (R4 du) as (t & Ht & Kt).
  { exists m, (Node ty_deriv [e; Node ty_list [Leaf fi]; Node ty_list [Leaf du]]). split.
    - apply in_flat_map. exists (m, e). split; [assumption|]. cbn [fst snd]. rewrite Hh'. left. reflexivity.
    - apply occurs_node with (x := Node ty_list [Leaf du]); [cbn; auto|]. apply occurs_node with (x := Leaf du); [cbn; auto|constructor]. }
  { reflexivity. }
  assert (N1 : number t = 1%nat) by (unfold number; rewrite Kt; reflexivity).
  destruct (filter (fun b => Nat.eqb (number b) 1) r) as [|t' l] eqn:Fl.
  { exfalso. assert (K : In t (filter (fun b => Nat.eqb (number b) 1) r)) by (apply filter_In; rewrite N1; auto). rewrite Fl in K. destruct K. }
  assert (K : In t' (filter (fun b => Nat.eqb (number b) 1) r)) by (rewrite Fl; left; reflexivity).
  apply filter_In in K. destruct K as [K1 K2]. apply Nat.eqb_eq in K2. rewrite (Q1 t' K1 K2). cbn [bind]. f_equal.
  unfold d. rewrite flat_map_concat_map, concat_map, map_map, <- flat_map_concat_map. apply flat_map_ext_on.
  intros (m1 & e1) H1. cbn [fst snd]. destruct (here fi e1); [|reflexivity]. cbn [map fst snd update].
  assert (A1 : update du (setattr du a0 (getattr fi a0)) e1 = e1).
  { apply update_absent. intros O. assert (X : in_form du f) by (exists m1, e1; auto). specialize (Fk du X eq_refl). discriminate. }
  rewrite A1. destruct (term_eq_dec fi du) as [E|_]; [rewrite E in Ki; discriminate|].
  destruct (term_eq_dec du du) as [_|E]; [reflexivity|congruence].
Qed.
End Partial.

Definition space_of (info : nat -> cinfo) (c : term) : nat := match coef_info info c with CFun s _ => s | _ => 0%nat end.
Definition on_vec (info : nat -> cinfo) (vx : nat) (c : term) : bool :=
  match coef_info info c with CFun _ v => Nat.eqb v vx | _ => false end.
Definition selected (info : nat -> cinfo) (vx : nat) (f : form) : list term :=
  filter (on_vec info vx) (coefficients info f).
Definition wraps (info : nat -> cinfo) (f : form) (cs : list term) : form :=
  flat_map (fun c => flat_map (wrap (space_of info c) c) f) cs.
Definition join (J : option form) (d : form) (cs : list term) : option form :=
  match cs with [] => J | _ => Some (match J with Some g => g ++ d | None => d end) end.

Lemma loop_spec info sv f x sx vx : functional sv f -> one_object info f -> is_function info x sx vx ->
  forall cs n J, older f n -> (forall c, In c cs -> in_form c f /\ exists s v, coef_info info c = CFun s v) ->
  deriv_loop info f x cs n J = Ok (join J (wraps info f (filter (on_vec info vx) cs)) (filter (on_vec info vx) cs)).
Proof.
  intros Hf Hg ((ix & Kx & Ix) & _). induction cs as [|c cs IH]; intros n J Ho Hc; [reflexivity|].
  cbn [deriv_loop]. destruct (Hc c (or_introl eq_refl)) as (Fc & s & v & Cc).
  assert (Hc' : forall c, In c cs -> in_form c f /\ exists s v, coef_info info c = CFun s v) by (intros; apply Hc; right; assumption).
  assert (D : depends info c x = Ok (on_vec info vx c)).
  { unfold depends, on_vec, vector_id. rewrite Cc. unfold ufl_eq. destruct (kind_eqb (tkind c) (tkind x)) eqn:E.
    - apply kind_eqb_spec in E. unfold coef_info in Cc. rewrite E, Kx in Cc. rewrite Ix in Cc. inversion Cc; subst. rewrite Nat.eqb_refl. reflexivity.
    - cbn [bind]. unfold coef_info at 1. rewrite Kx, Ix. reflexivity. }
  rewrite D. cbn [bind filter]. destruct (on_vec info vx c) eqn:E; [|apply IH; assumption].
  rewrite (partial_spec info sv f n Hf Hg Ho c s v Fc Cc). cbn [bind].
  rewrite IH; [|intros t i Ht Kt; specialize (Ho t i Ht Kt); lia|assumption]. f_equal.
  assert (W : forall l, wraps info f (c :: l) = flat_map (wrap s c) f ++ wraps info f l).
  { intros l. unfold wraps. cbn [flat_map]. unfold space_of at 1. rewrite Cc. reflexivity. }
  rewrite W. destruct (filter (on_vec info vx) cs) eqn:Fl; cbn [join].
  - change (wraps info f []) with (@nil (nat * expr)). rewrite app_nil_r. reflexivity.
  - destruct J; rewrite <- ?app_assoc; reflexivity.
Qed.

Lemma filter_filter_sub {A} (p q : A -> bool) l : (forall x, p x = true -> q x = true) -> filter p (filter q l) = filter p l.
Proof.
  intros H. induction l as [|x l IH]; [reflexivity|]. cbn [filter]. destruct (q x) eqn:Q; cbn [filter]; [rewrite IH; reflexivity|].
  rewrite IH. destruct (p x) eqn:P; [|reflexivity]. rewrite (H x P) in Q. discriminate.
Qed.

Lemma ii_derivative_spec info sv n f x sx vx :
  functional sv f -> is_function info x sx vx -> no_expressions info f -> one_object info f -> older f n ->
  ii_derivative info n f x = Ok (join None (wraps info f (selected info vx f)) (selected info vx f)).
Proof.
  intros Hf Hx He Hg Ho. unfold ii_derivative, is_okay_functional.
  destruct (functional_arguments sv f Hf) as (a & -> & Ka). cbn [bind].
  replace (number a) with 0%nat by (unfold number; rewrite Ka; reflexivity). cbn [Nat.eqb bind].
  destruct (Nat.eqb_spec 0 1); [lia|]. cbn [bind].
  assert (Cx : is_coefficient info x = true) by (destruct Hx as ((i & K & E) & _); unfold is_coefficient, coef_info; rewrite K, E; reflexivity).
  assert (Rx : is_restricted x = false).
  { destruct Hx as (_ & H1 & H2 & H3). unfold is_restricted, restriction_type, hasattr, getattr. rewrite H1, H2, H3. reflexivity. }
  rewrite Cx, Rx. cbn [andb negb].
  destruct (coefficients_spec info f) as (C1 & _ & _).
  rewrite (loop_spec info sv f x sx vx Hf Hg Hx); [|assumption|].
  - assert (E : filter (on_vec info vx) (filter (fun c => negb (is_constant info c)) (coefficients info f)) = selected info vx f).
    { apply filter_filter_sub. intros c. unfold on_vec, is_constant. destruct (coef_info info c); intros K; try discriminate; reflexivity. }
    rewrite E. reflexivity.
  - intros c Hc. apply filter_In in Hc. destruct Hc as [Hc N]. destruct (C1 c Hc) as [Fc Cc]. split; [assumption|].
    unfold is_coefficient, is_constant in *. destruct (coef_info info c) as [s v| | |] eqn:E; try discriminate; [eauto|].
    exfalso. unfold coef_info in E. destruct (tkind c) as [|i] eqn:K; [discriminate|]. exact (He c i Fc K E).
Qed.

(** One argument in the end means that there was only one. *)
Lemma ainsert_inv a l r : is_argument a = true -> (forall t, In t l -> is_argument t = true) -> ainsert a l = Ok r ->
  (forall t, In t r -> t = a \/ In t l) /\ (forall t, t = a \/ In t l -> exists s, In s r /\ tkind s = tkind t).
Proof.
  intros Ha. revert r. induction l as [|s l IH]; intros r Hl H.
  - unfold is_argument in Ha. cbn [ainsert] in H. destruct (tkind a) as [n v|] eqn:E; [|discriminate]. inversion H; subst.
    split; [intros t [<-|[]]; auto|]. intros t [->|[]]. exists a. cbn. auto.
  - assert (Hs := Hl s (or_introl eq_refl)). unfold is_argument in Ha, Hs. cbn [ainsert] in H.
    destruct (tkind a) as [n v|] eqn:E; [|discriminate]. destruct (tkind s) as [m w|] eqn:E'; [|discriminate].
    destruct (Nat.eqb_spec n m) as [X|X].
    + destruct (Nat.eqb_spec v w) as [Y|Y]; [|discriminate]. inversion H; subst. split; [auto|]. intros t [->|Ht]; [|eauto].
      exists s. cbn. split; [auto|congruence].
    + destruct (Nat.ltb_spec n m).
      * inversion H; subst. split; [intros t [<-|Ht]; auto|]. intros t [->|Ht]; [exists a; cbn; auto|exists t; split; [right; assumption|reflexivity]].
      * destruct (ainsert a l) as [q|] eqn:Q; [|discriminate]. cbn [bind] in H. inversion H; subst.
        destruct (IH q) as (I1 & I2); [intros t Ht; apply Hl; right; assumption|reflexivity|]. split.
        -- intros t [<-|Ht]; [cbn; auto|]. destruct (I1 t Ht); cbn; auto.
        -- intros t [->|[<-|Ht]].
           ++ destruct (I2 a) as (y & ? & ?); auto. exists y. cbn. auto.
           ++ exists s. cbn. auto.
           ++ destruct (I2 t) as (y & ? & ?); auto. exists y. cbn. auto.
Qed.
Lemma ainserts_inv ts : forall l r, (forall t, In t ts \/ In t l -> is_argument t = true) -> ainserts ts l = Ok r ->
  (forall t, In t r -> In t ts \/ In t l) /\ (forall t, In t ts \/ In t l -> exists s, In s r /\ tkind s = tkind t).
Proof.
  induction ts as [|a ts IH]; intros l r Ha H.
  - inversion H; subst. split; [auto|]. intros t [[]|Ht]. eauto.
  - cbn [ainserts] in H. destruct (ainsert a l) as [q|] eqn:Q; [|discriminate]. cbn [bind] in H.
    destruct (ainsert_inv a l q) as (A1 & A2); [apply Ha; cbn; auto|intros; apply Ha; auto|assumption|].
    destruct (IH q r) as (I1 & I2); [|assumption|].
    { intros t [Ht|Ht]; [apply Ha; cbn; auto|]. destruct (A1 t Ht) as [->|K]; apply Ha; cbn; auto. }
    split.
    + intros t Ht. destruct (I1 t Ht) as [K|K]; [cbn; auto|]. destruct (A1 t K) as [->|K']; cbn; auto.
    + intros t Ht. assert (K : In t ts \/ (t = a \/ In t l)) by (destruct Ht as [[<-|Ht]|Ht]; auto).
      destruct K as [K|K]; [apply I2; auto|]. destruct (A2 t K) as (s & Hs & Es). destruct (I2 s) as (s' & Hs' & Es'); [auto|].
      exists s'. split; [assumption|congruence].
Qed.
Lemma arguments_one f a : arguments f = Ok [a] ->
  is_argument a = true /\ in_form a f /\ forall s, in_form s f -> is_argument s = true -> tkind s = tkind a.
Proof.
  intros H. destruct (ainserts_inv (filter is_argument (form_terminals f)) [] [a]) as (I1 & I2); [|exact H|].
  { intros t [Ht|[]]. apply filter_In in Ht. tauto. }
  destruct (I1 a (or_introl eq_refl)) as [K|[]]. apply filter_In in K. rewrite form_terminals_in in K. split; [tauto|]. split; [tauto|].
  intros s Hs As. destruct (I2 s) as (s' & [<-|[]] & E). { left. apply filter_In. rewrite form_terminals_in. auto. } congruence.
Qed.
