(** C57: derivatives of functionals and block Jacobians. *)
From Verif Require Import Base BaseProofs UflModel UflProofs JacModel JacProofs JacSemProofs.
From Coq Require Import Reals Lra.
Local Open Scope R_scope.
Local Arguments Nat.eqb : simpl never.

(** The form returned for x is, tested with args 0 and in the direction
    args 1, the derivative of f along the vector of x. *)
Theorem C57_partial : forall info I vecs args sv n f x sx vx,
  functional sv f -> is_function info x sx vx -> no_expressions info f -> one_object info f -> known_marks info vx f -> older f n ->
  (forall m e w q, In (m, e) f -> In (w, q) (points I m) -> smooth I (tval info I vecs args q) e) ->
  exists J, ii_derivative info n f x = Ok J /\ (exists d, form_value info I vecs args J d) /\
    forall d, form_value info I vecs args J d ->
      derivable_pt_lim (fun t => form_at info I (shifted vecs vx (args 1%nat) t) args f) 0 d.
Proof.
  intros info I vecs args sv n f x sx vx Hf Hx He Hg Hk Ho Hs.
  destruct (derivative_correct info I vecs args sv n f x sx vx Hf Hx He Hg Hk Ho Hs) as (J & d & E & V & D).
  exists J. split; [assumption|]. split; [exists d; assumption|]. intros d' V'. rewrite (form_value_fun _ _ _ _ _ _ _ V' V). assumption.
Qed.
Print Assumptions C57_partial.

(** Nothing is returned (the number 0) exactly when no function on the vector
    of x occurs. *)
Theorem C57_zero : forall info sv n f x sx vx,
  functional sv f -> is_function info x sx vx -> no_expressions info f -> one_object info f -> older f n ->
  (ii_derivative info n f x = Ok None <->
   forall s i sp, in_form s f -> tkind s = KOther i -> info i <> CFun sp vx).
Proof.
  intros info sv n f x sx vx Hf Hx He Hg Ho. rewrite (ii_derivative_spec info sv n f x sx vx Hf Hx He Hg Ho).
  destruct (coefficients_spec info f) as (C1 & C2 & _). split.
  - intros H s i sp Fs Ks Es. destruct (C2 s Fs) as (c & Hc & Kc). { unfold is_coefficient, coef_info. rewrite Ks, Es. reflexivity. }
    assert (K : In c (selected info vx f)).
    { apply filter_In. split; [assumption|]. unfold on_vec, coef_info. rewrite Kc, Ks, Es. apply Nat.eqb_refl. }
    destruct (selected info vx f); [destruct K|discriminate].
  - intros H. destruct (selected info vx f) as [|c l] eqn:S; [reflexivity|]. exfalso.
    assert (K : In c (selected info vx f)) by (rewrite S; left; reflexivity). apply filter_In in K. destruct K as [K V].
    unfold on_vec, coef_info in V. destruct (tkind c) as [|i] eqn:Kc; [discriminate|]. destruct (info i) as [sp v| | |] eqn:Ei; try discriminate.
    apply Nat.eqb_eq in V. subst. exact (H c i sp (proj1 (C1 c K)) Kc Ei).
Qed.
Print Assumptions C57_zero.

Lemma mapM_all {A B} (g : A -> res B) l : (forall x, In x l -> exists y, g x = Ok y) ->
  exists ys, mapM g l = Ok ys /\ Forall2 (fun x y => g x = Ok y) l ys.
Proof.
  induction l as [|x l IH]; intros H; [exists []; split; [reflexivity|constructor]|].
  destruct (H x (or_introl eq_refl)) as (y & Hy). destruct IH as (ys & E & F); [intros z Hz; apply H; right; assumption|].
  exists (y :: ys). rewrite mapM_cons, Hy. cbn [bind]. rewrite E. split; [reflexivity|constructor; assumption].
Qed.
Lemma Forall2_nth_l {A B} (P : A -> B -> Prop) l m i x : Forall2 P l m -> nth_error l i = Some x -> exists y, nth_error m i = Some y /\ P x y.
Proof.
  intros F. revert i. induction F as [|a b l m Hab F IH]; intros [|i] H; try discriminate; cbn in *; [|apply IH; assumption].
  inversion H; subst. eauto.
Qed.
Lemma Forall2_len {A B} (P : A -> B -> Prop) l m : Forall2 P l m -> length l = length m.
Proof. intros F. induction F; cbn; congruence. Qed.

(** A square system, with the test function of row i from the space of the
    function i. *)
Theorem C57_block_partial : forall info I vecs args n bf foos,
  length bf = length foos ->
  (forall i f x, nth_error bf i = Some f -> nth_error foos i = Some x -> exists sx vx, functional sx f /\ is_function info x sx vx) ->
  (forall f, In f bf -> no_expressions info f /\ one_object info f /\ older f n) ->
  (forall f x sx vx, In f bf -> In x foos -> is_function info x sx vx -> known_marks info vx f) ->
  (forall f m e w q, In f bf -> In (m, e) f -> In (w, q) (points I m) -> smooth I (tval info I vecs args q) e) ->
  exists M, block_jacobian info n bf foos = Ok M /\ length M = length bf /\
    forall i j f x sx vx, nth_error bf i = Some f -> nth_error foos j = Some x -> is_function info x sx vx ->
      exists row J d, nth_error M i = Some row /\ length row = length foos /\ nth_error row j = Some J /\
        form_value info I vecs args J d /\
        derivable_pt_lim (fun t => form_at info I (shifted vecs vx (args 1%nat) t) args f) 0 d.
Proof.
  intros info I vecs args n bf foos Hl Hd Hb Hk Hs.
  assert (Fb : forall f, In f bf -> exists sv, functional sv f).
  { intros f Hf. apply In_nth_error in Hf. destruct Hf as (i & Hi). destruct (nth_error foos i) as [x|] eqn:E.
    - destruct (Hd i f x Hi E) as (sx & _ & F & _). eauto.
    - exfalso. apply nth_error_None in E. assert (nth_error bf i <> None) by congruence. apply nth_error_Some in H. lia. }
  assert (Ff : forall x, In x foos -> exists sx vx, is_function info x sx vx).
  { intros x Hx. apply In_nth_error in Hx. destruct Hx as (i & Hi). destruct (nth_error bf i) as [f|] eqn:E.
    - destruct (Hd i f x E Hi) as (sx & vx & _ & F). eauto.
    - exfalso. apply nth_error_None in E. assert (nth_error foos i <> None) by congruence. apply nth_error_Some in H. lia. }
  assert (D : forall f x, In f bf -> In x foos -> exists J, ii_derivative info n f x = Ok J).
  { intros f x Hf Hx. destruct (Fb f Hf) as (sv & F). destruct (Ff x Hx) as (sx & vx & G). destruct (Hb f Hf) as (B1 & B2 & B3).
    destruct (C57_partial info I vecs args sv n f x sx vx F G B1 B2 (Hk f x sx vx Hf Hx G) B3) as (J & E & _); [|eauto].
    intros m e w q. apply Hs. assumption. }
  unfold block_jacobian. rewrite (proj2 (Nat.eqb_eq _ _) Hl). cbn [negb].
  assert (A : forallb (is_coefficient info) foos = true).
  { apply forallb_forall. intros x Hx. destruct (Ff x Hx) as (sx & vx & (i & K & E) & _). unfold is_coefficient, coef_info. rewrite K, E. reflexivity. }
  rewrite A. cbn [negb].
  assert (Ok1 : forall sv f, functional sv f -> exists a, is_okay_functional f = Ok a /\ arg_space a = sv).
  { intros sv f F. unfold is_okay_functional. destruct (functional_arguments sv f F) as (a & -> & Ka). cbn [bind]. exists a.
    unfold number, arg_space. rewrite Ka. split; [|reflexivity]. destruct (Nat.eqb_spec 0 1); [lia|reflexivity]. }
  destruct (mapM_all is_okay_functional bf) as (ts & Et & Ft).
  { intros f Hf. destruct (Fb f Hf) as (sv & F). destruct (Ok1 sv f F) as (a & E & _). eauto. }
  rewrite Et. cbn [bind].
  assert (S : spaces_match info ts foos = Ok true).
  { apply spaces_match_spec; [rewrite <- (Forall2_len _ _ _ Ft); assumption|].
    clear - Ft Hl Hd Ok1. revert foos Hl Hd. induction Ft as [|f t bf ts E F IH]; intros [|x foos] Hl Hd; try discriminate; constructor.
    - destruct (Hd 0%nat f x eq_refl eq_refl) as (sx & vx & Hf & (i & K & Ei) & _). destruct (Ok1 sx f Hf) as (a & Ea & Sa).
      rewrite E in Ea. inversion Ea; subst. unfold function_space, coef_info. rewrite K, Ei. reflexivity.
    - apply IH; [cbn in Hl; congruence|]. intros i f' x' H1 H2. apply (Hd (Datatypes.S i) f' x'); assumption. }
  rewrite S. cbn [bind negb].
  destruct (mapM_all (fun bfi => mapM (fun fj => ii_derivative info n bfi fj) foos) bf) as (M & EM & FM).
  { intros f Hf. destruct (mapM_all (fun fj => ii_derivative info n f fj) foos) as (row & Er & _); [intros x Hx; apply D; assumption|]. eauto. }
  exists M. split; [assumption|]. split; [symmetry; apply (Forall2_len _ _ _ FM)|].
  intros i j f x sx vx Hi Hj Hx. destruct (Forall2_nth_l _ _ _ _ _ FM Hi) as (row & Hr & Er).
  assert (If : In f bf) by (eapply nth_error_In; eassumption). assert (Ix : In x foos) by (eapply nth_error_In; eassumption).
  destruct (mapM_all (fun fj => ii_derivative info n f fj) foos) as (row' & Er' & Fr); [intros y Hy; apply D; assumption|].
  rewrite Er in Er'. inversion Er'; subst row'. destruct (Forall2_nth_l _ _ _ _ _ Fr Hj) as (J & HJ & EJ).
  destruct (Fb f If) as (sv & F). destruct (Hb f If) as (B1 & B2 & B3).
  destruct (C57_partial info I vecs args sv n f x sx vx F Hx B1 B2 (Hk f x sx vx If Ix Hx) B3) as (J' & EJ' & (d & V) & DD).
  { intros m e w q. apply Hs. assumption. }
  rewrite EJ in EJ'. inversion EJ'; subst J'. exists row, J, d. split; [assumption|]. split; [symmetry; apply (Forall2_len _ _ _ Fr)|].
  split; [assumption|]. split; [assumption|]. apply DD. assumption.
Qed.
Print Assumptions C57_block_partial.

(** Only square systems with matching spaces are accepted. *)
Theorem C57_accepted : forall info n bf foos M, block_jacobian info n bf foos = Ok M ->
  length bf = length foos /\ length M = length bf /\
  exists ts, Forall2 (fun f t => is_argument t = true /\ in_form t f /\ number t <> 1%nat /\
                      forall s, in_form s f -> is_argument s = true -> tkind s = tkind t) bf ts /\
             Forall2 (fun t x => exists i v, tkind x = KOther i /\ info i = CFun (arg_space t) v) ts foos.
Proof.
  intros info n bf foos M H. unfold block_jacobian in H. destruct (Nat.eqb_spec (length bf) (length foos)) as [Hl|]; [|discriminate].
  cbn [negb] in H. destruct (forallb (is_coefficient info) foos) eqn:A; [|discriminate]. cbn [negb] in H.
  destruct (mapM is_okay_functional bf) as [ts|] eqn:Et; [|discriminate]. cbn [bind] in H.
  destruct (spaces_match info ts foos) as [ok|] eqn:S; [|discriminate]. cbn [bind] in H. destruct ok; [|discriminate]. cbn [negb] in H.
  apply mapM_ok_forall in Et. apply mapM_ok_forall in H. split; [assumption|]. split; [symmetry; apply (Forall2_len _ _ _ H)|].
  exists ts. split.
  - clear - Et. induction Et as [|f t bf ts E F IH]; constructor; [|assumption].
    unfold is_okay_functional in E. destruct (arguments f) as [[|a [|b l]]|] eqn:Ea; try discriminate. cbn [bind] in E.
    destruct (Nat.eqb_spec (number a) 1); [discriminate|]. inversion E; subst t. clear E.
    apply arguments_one in Ea. destruct Ea as (E1 & E2 & E3). auto.
  - apply spaces_match_spec in S; [|rewrite <- (Forall2_len _ _ _ Et); assumption].
    clear - S. induction S as [|t x ts foos E F IH]; constructor; [|assumption]. unfold function_space, coef_info in E.
    destruct (tkind x) as [|i]; [discriminate|]. destruct (info i) as [s v| | |] eqn:Ei; try discriminate. inversion E; subst. eauto.
Qed.
Print Assumptions C57_accepted.

(** What is not a functional, and what is not an unrestricted coefficient, is
    refused. *)
Theorem C57_refuses : forall info n f x J, ii_derivative info n f x = Ok J ->
  (exists t, is_argument t = true /\ in_form t f /\ number t <> 1%nat /\
     forall s, in_form s f -> is_argument s = true -> tkind s = tkind t) /\
  (exists i, tkind x = KOther i /\ info i <> CNone) /\
  a_trace x = None /\ a_restriction x = None /\ a_average x = None.
Proof.
  intros info n f x J H. unfold ii_derivative, is_okay_functional in H.
  destruct (arguments f) as [[|a [|b l]]|] eqn:Ea; try discriminate. cbn [bind] in H.
  destruct (Nat.eqb_spec (number a) 1); [discriminate|]. cbn [bind] in H.
  destruct (is_coefficient info x) eqn:C; [|discriminate]. destruct (is_restricted x) eqn:R; [discriminate|].
  apply arguments_one in Ea. destruct Ea as (E1 & E2 & E3). split; [exists a; auto|]. split.
  - unfold is_coefficient, coef_info in C. destruct (tkind x) as [|i]; [discriminate|]. exists i. split; [reflexivity|]. intros E. rewrite E in C. discriminate.
  - unfold is_restricted, restriction_type, hasattr, getattr in R. destruct (a_trace x), (a_restriction x), (a_average x); try discriminate; auto.
Qed.
Print Assumptions C57_refuses.

(** One coefficient without a vector, wherever it is, makes the differentiation
    fail. *)
Theorem C57_expression_refuted : forall info sv n f x sx vx s i,
  functional sv f -> is_function info x sx vx -> one_object info f -> older f n ->
  in_form s f -> tkind s = KOther i -> info i = CExpr -> ii_derivative info n f x = Err AttributeError.
Proof. exact derivative_expression. Qed.
Print Assumptions C57_expression_refuted.

(** ** A small world: degrees of freedom are read by position.

    One space, one quadrature point; class 2 is the product, 3 the sum, 4 the
    sine, 5 the first partial derivative.  A plain function reads the degree of
    freedom k, a function with the mark trace_ reads k + 1, with some other
    mark k + 2. *)
Definition world_reads (s : nat) (a : option nat * option nat * option nat * list (nat * nat)) (q : unit) (k : nat) (u : nat -> R) : R :=
  match a with
  | (Some _, _, _, _) => u (S k)
  | (None, _, _, []) => u k
  | (None, _, _, _) => u (S (S k))
  end.
Lemma world_linear s a q k u w t : world_reads s a q k (fun j => u j + t * w j) = world_reads s a q k u + t * world_reads s a q k w.
Proof. destruct a as [[[[?|] ?] ?] [|? ?]]; reflexivity. Qed.
Definition world_op (ty : nat) (l : list R) : R :=
  match ty, l with
  | 2%nat, [a; b] => a * b
  | 3%nat, [a; b] => a + b
  | 4%nat, [a] => sin a
  | _, _ => 0
  end.
Definition world : interp :=
  Interp unit (fun _ => [(1, tt)]) world_reads world_linear (fun _ _ _ => 1) world_op (fun ty => if Nat.eqb ty 5 then Some 1%nat else None).

Lemma product_gradient a b : has_gradient (world_op 2) [a; b] [b; a].
Proof.
  split; [reflexivity|]. intros cs ds E D. inversion E as [|c1 x1 l1 m1 E1 F1]; subst. inversion F1 as [|c2 x2 l2 m2 E2 F2]; subst.
  inversion F2; subst. inversion D as [|? d1 ? ? D1 G1]; subst. inversion G1 as [|? d2 ? ? D2 G2]; subst. inversion G2; subst.
  cbn. replace (c2 0 * d1 + (c1 0 * d2 + 0)) with (d1 * c2 0 + c1 0 * d2) by ring.
  change (fun t => c1 t * c2 t) with (c1 * c2)%F. apply derivable_pt_lim_mult; assumption.
Qed.
Lemma sine_gradient a : has_gradient (world_op 4) [a] [cos a].
Proof.
  split; [reflexivity|]. intros cs ds E D. inversion E as [|c1 x1 l1 m1 E1 F1]; subst. inversion F1; subst.
  inversion D as [|? d1 ? ? D1 G1]; subst. inversion G1; subst. cbn. replace (cos (c1 0) * d1 + 0) with (cos (c1 0) * d1) by ring.
  change (fun t => sin (c1 t)) with (comp sin c1). apply derivable_pt_lim_comp; [assumption|apply derivable_pt_lim_sin].
Qed.

Definition fn (i : nat) : term := Term (KOther i) None None None [].
Definition Tfn (i m : nat) : term := Term (KOther i) (Some m) None None [].
Definition Pfn (i m : nat) : term := Term (KOther i) None None None [(0%nat, m)].
Definition vtest : term := Term (KArg 0 0) None None None [].
Definition Tvtest (m : nat) : term := Term (KArg 0 0) (Some m) None None [].
(** Objects 1, 2: u and its trace (the vector 7); 3: another function *)
Definition world_info (i : nat) : cinfo := match i with 1%nat | 2%nat => CFun 0 7 | 3%nat => CFun 0 8 | 4%nat => CExpr | 5%nat => CConst | _ => CNone end.

(** u * Tu * sin(u.dx) * p * v  dx + Tu * c * Tv ds *)
Definition world_form : form :=
  [(0%nat, Node 2 [Node 2 [Leaf (fn 1); Node 2 [Leaf (Tfn 2 9); Node 4 [Node 5 [Leaf (fn 1)]]]]; Node 2 [Leaf (fn 3); Leaf vtest]]);
   (1%nat, Node 2 [Node 2 [Leaf (Tfn 2 9); Leaf (fn 5)]; Leaf (Tvtest 9)])].

Lemma world_terms s : in_form s world_form -> s = fn 1 \/ s = Tfn 2 9 \/ s = fn 3 \/ s = fn 5 \/ s = vtest \/ s = Tvtest 9.
Proof. intros H. apply form_terminals_in in H. cbn in H. repeat destruct H as [<-|H]; auto 7. destruct H. Qed.

Lemma world_smooth_op env ty a b g : ty = 2%nat -> smooth world env a -> smooth world env b ->
  g = [ev world env b; ev world env a] -> smooth world env (Node ty [a; b]).
Proof.
  intros -> Ha Hb ->. eapply sm_op; [reflexivity|discriminate|discriminate| |apply product_gradient].
  intros x [<-|[<-|[]]]; assumption.
Qed.

Example C57_example :
  functional 0 world_form /\ is_function world_info (fn 1) 0 7 /\ no_expressions world_info world_form /\
  one_object world_info world_form /\ known_marks world_info 7 world_form /\ older world_form 6 /\
  (forall vecs args m e w q, In (m, e) world_form -> In (w, q) (points world m) -> smooth world (tval world_info world vecs args q) e) /\
  exists a b c, ii_derivative world_info 6 world_form (fn 1) = Ok (Some [a; b; c]).
Proof.
  split; [|split; [|split; [|split; [|split; [|split; [|split]]]]]].
  - split; [|split; [|discriminate]].
    + intros m e [E|[E|[]]]; inversion E; subst.
      * exists vtest. split; [apply terminals_occurs; cbn; auto 9|reflexivity].
      * exists (Tvtest 9). split; [apply terminals_occurs; cbn; auto 9|reflexivity].
    + intros s k v H K. destruct (world_terms s H) as [->|[->|[->|[->|[->| ->]]]]]; inversion K; auto.
  - split; [exists 1%nat; split; reflexivity|repeat split].
  - intros s i H K. destruct (world_terms s H) as [->|[->|[->|[->|[->| ->]]]]]; inversion K; discriminate.
  - intros s t i Hs Ht Ks Kt _. destruct (world_terms s Hs) as [->|[->|[->|[->|[->| ->]]]]]; inversion Ks; subst;
    destruct (world_terms t Ht) as [->|[->|[->|[->|[->| ->]]]]]; inversion Kt; reflexivity.
  - intros s i sp H K E. destruct (world_terms s H) as [->|[->|[->|[->|[->| ->]]]]]; inversion K; subst; split; try reflexivity; cbn; auto.
  - intros s i H K. destruct (world_terms s H) as [->|[->|[->|[->|[->| ->]]]]]; inversion K; lia.
  - intros vecs args m e w q [E|[E|[]]] _; inversion E; subst.
    + repeat (eapply world_smooth_op; [reflexivity| | |reflexivity]); try constructor.
      eapply (sm_op _ _ 4); [reflexivity|discriminate|discriminate| |apply sine_gradient].
      intros x [<-|[]]. eapply sm_mod; [reflexivity|discriminate].
    + repeat (eapply world_smooth_op; [reflexivity| | |reflexivity]); constructor.
  - do 3 eexists. vm_compute. reflexivity.
Qed.

(** A function marked in another way (PointTrace and others) is differentiated
    as if it were not marked. *)
Definition point_form : form := [(0%nat, Node 2 [Leaf (Pfn 2 9); Leaf vtest])].
Theorem C57_point_refuted : exists info I vecs args sv n f x sx vx J d d',
  functional sv f /\ is_function info x sx vx /\ no_expressions info f /\ one_object info f /\ older f n /\
  (forall m e w q, In (m, e) f -> In (w, q) (points I m) -> smooth I (tval info I vecs args q) e) /\
  ii_derivative info n f x = Ok J /\ form_value info I vecs args J d /\
  derivable_pt_lim (fun t => form_at info I (shifted vecs vx (args 1%nat) t) args f) 0 d' /\ d <> d'.
Proof.
  set (args := fun n j : nat => match n, j with 0%nat, 0%nat => 1 | 1%nat, 0%nat => 1 | _, _ => 0 end).
  assert (T : forall s, in_form s point_form -> s = Pfn 2 9 \/ s = vtest).
  { intros s H. apply form_terminals_in in H. cbn in H. repeat destruct H as [<-|H]; auto. destruct H. }
  exists world_info, world, (fun _ _ => 0), args, 0%nat, 6%nat, point_form, (fn 1), 0%nat, 7%nat.
  eexists. exists 1, 0.
  split; [|split; [|split; [|split; [|split; [|split; [|split; [|split; [|split]]]]]]]].
  - split; [|split; [|discriminate]].
    + intros m e [E|[]]; inversion E; subst. exists vtest. split; [apply terminals_occurs; cbn; auto|reflexivity].
    + intros s k v H K. destruct (T s H) as [->| ->]; inversion K; auto.
  - split; [exists 1%nat; split; reflexivity|repeat split].
  - intros s i H K. destruct (T s H) as [->| ->]; inversion K; discriminate.
  - intros s t i Hs Ht Ks Kt _. destruct (T s Hs) as [->| ->]; inversion Ks; subst; destruct (T t Ht) as [->| ->]; inversion Kt; reflexivity.
  - intros s i H K. destruct (T s H) as [->| ->]; inversion K; lia.
  - intros m e w q [E|[]] _; inversion E; subst. eapply world_smooth_op; [reflexivity| | |reflexivity]; constructor.
  - vm_compute. reflexivity.
  - exists [1]. split; [|cbn; lra]. constructor; [|constructor]. exists [1]. split; [|cbn; lra]. constructor; [|constructor].
    cbn [fst snd is_val].
    apply (lim_ext (fun t => 0 + t * 1)); [|apply lim_affine].
    intros t. cbn. unfold moved, tval. cbn. change (Nat.eqb 2 5) with false. change (Nat.eqb 2 2) with true. cbn. lra.
  - apply (lim_ext (fun t => 0)); [|apply lim_const]. intros t. unfold form_at, shifted, tval. cbn. change (Nat.eqb 2 5) with false. change (Nat.eqb 7 7) with true. cbn. lra.
  - lra.
Qed.
Print Assumptions C57_point_refuted.
