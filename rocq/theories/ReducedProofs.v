(** Specification vocabulary and proofs for ReducedModel.v. *)
From Verif Require Import Base BaseProofs Mat MatProofs ConvertModel CollapseProofs CollapseTermProofs CollapseHaltProofs UflModel UflProofs BlockFormModel BlockFormProofs BlockFormAddProofs ReducedModel.
From Coq Require Import Cantor Permutation.
Local Open Scope nat_scope.
Local Close Scope Q_scope.
Local Close Scope Qc_scope.

(** ** Specification vocabulary *)

(** The value of an integrand for given functions: finite element functions
    (space and coefficients), other terminals, operators. *)
Inductive vtree := VFun (V : nat) (x : vec) | VConst (id : nat) | VNode (ty : nat) (l : list vtree).

(** Coefficient number k of space V, or something that is not a Function. *)
Definition coefficient (id V k : nat) : Prop := id = Cantor.to_nat (S V, k).

Definition of_space (t : term) (V : nat) : Prop :=
  (exists n, tkind t = KArg n V) \/ (exists id k, tkind t = KOther id /\ coefficient id V k).

(** Exchanging an argument for one with the same number, or a coefficient for
    another one, is allowed by UFL. *)
Definition same_role (t s : term) : Prop :=
  match tkind t, tkind s with KArg n _, KArg m _ => n = m | KOther _, KOther _ => True | _, _ => False end.
Inductive leaves_changed (g : term -> term) : expr -> expr -> Prop :=
| lc_leaf t : leaves_changed g (Leaf t) (Leaf (g t))
| lc_node ty l l' : Forall2 (leaves_changed g) l l' -> leaves_changed g (Node ty l) (Node ty l').
Definition role_closed (valid : expr -> Prop) : Prop :=
  forall g e e', (forall t, occurs t e -> same_role t (g t)) -> leaves_changed g e e' -> valid e -> valid e'.

(** Integrands that differ only in the reductions of their functions; UFL does not
    tell them apart. *)
Inductive alike : expr -> expr -> Prop :=
| alike_leaf t s : tkind t = tkind s -> alike (Leaf t) (Leaf s)
| alike_node ty l l' : Forall2 alike l l' -> alike (Node ty l) (Node ty l').
Definition told_apart (f : form) : Prop :=
  forall i j, In i f -> In j f -> fst i = fst j -> alike (snd i) (snd j) -> i = j.

(** UFL accepts one test space and one trial space in a form; and no two
    integrals differ only in reductions. *)
Definition uniform (f : form) : Prop :=
  (forall i j t s n V U, In i f -> In j f -> occurs t (snd i) -> occurs s (snd j) -> tkind t = KArg n V -> tkind s = KArg n U -> U = V) /\
  told_apart f.

Section Spec.
Variable w : world.
Variable asms : list assembler.
(** Integral of an evaluated integrand with respect to a measure. *)
Variable integrate : nat -> vtree -> Qc.
(** Integrands that UFL accepts (linear in each argument). *)
Variable valid : expr -> Prop.

(** A terminal without its reduction: the test function is the finite element
    function with coefficients [v], the trial function with [u]. *)
Definition plain_value (st : store) (v u : vec) (t : term) : vtree :=
  match tkind t with
  | KArg 0 V => VFun V v
  | KArg _ V => VFun V u
  | KOther id => match Cantor.of_nat id with (S V, k) => VFun V (nth k st []) | (0, _) => VConst id end
  end.
(** With its reduction: coefficients in the reduced space given by the matrix,
    which acts on the domain space. *)
Definition value (mesh : nat) (st : store) (v u : vec) (t : term) : vtree :=
  match find (fun A => hasattr t (asm_attr A)) asms, plain_value st v u t with
  | Some A, VFun V x =>
    match getattr t (asm_attr A) with
    | Some d =>
      match asm_domain A t d with
      | Ok V' =>
        let TV := asm_space A V' mesh d in
        match asm_matrix A V' TV mesh d with Ok T => VFun TV (mv T x) | Err _ => VFun V x end
      | Err _ => VFun V x
      end
    | None => VFun V x
    end
  | _, pv => pv
  end.
Fixpoint evaluate (mesh : nat) (st : store) (v u : vec) (e : expr) : vtree :=
  match e with
  | Leaf t => value mesh st v u t
  | Node ty l => VNode ty (map (evaluate mesh st v u) l)
  end.
Fixpoint qsum (l : list Qc) : Qc := match l with [] => q0 | x :: l' => (x + qsum l')%Qc end.
Definition form_value (st : store) (f : form) (v u : vec) : Qc :=
  qsum (map (fun i => integrate (fst i) (evaluate (w_imesh w (fst i)) st v u (snd i))) f).

(** Terminals as the operators and the assemblers expect them: on an integral
    over [mesh] a terminal is either without reduction, and lives on [mesh] so
    that no assembler touches it, or it has one reduction, to [mesh], and the
    assemblers tried earlier (see xii_assembly.py:29-40) do not select it. *)
Definition untouched (mesh : nat) (t : term) : Prop :=
  forall A, In A asms -> hasattr t (asm_attr A) = false /\ asm_sel A mesh t = false /\ asm_filter A mesh t = false.
Definition before (B A : assembler) : Prop := exists l1 l2, asms = l1 ++ A :: l2 /\ In B l1.
Definition reduced_by (mesh : nat) (A : assembler) (t : term) : Prop :=
  In A asms /\ hasattr t (asm_attr A) = true /\
  asm_sel A mesh t = true /\ asm_filter A mesh t = true /\ asm_compat A mesh t = Ok true /\
  (exists d V T, getattr t (asm_attr A) = Some d /\ asm_domain A t d = Ok V /\ ((exists n W, tkind t = KArg n W) \/ of_space t V) /\
     asm_matrix A V (asm_space A V mesh d) mesh d = Ok T /\ nr T = w_dim w (asm_space A V mesh d) /\ nc T = w_dim w V) /\
  (forall B, In B asms -> asm_attr B <> asm_attr A -> hasattr t (asm_attr B) = false) /\
  (forall B, before B A -> asm_sel B mesh t = false).
Definition term_ok (mesh : nat) (t : term) : Prop := untouched mesh t \/ exists A, reduced_by mesh A t.

(** When several kinds of reduction meet in one integrand, the assembler tried
    first does not take the terminals of the others for its own. *)
Definition mixable (mesh : nat) (e : expr) : Prop :=
  forall t s A B, occurs t e -> occurs s e -> reduced_by mesh A t -> reduced_by mesh B s -> before B A ->
    asm_filter B mesh t = false \/ asm_compat B mesh t = Ok false.

(** The space of the functions for which the terminal stands: that of the
    terminal, or the domain of its reduction. *)
Definition home (t : term) (V : nat) : Prop :=
  match find (fun A => hasattr t (asm_attr A)) asms with
  | Some A => exists d, getattr t (asm_attr A) = Some d /\ asm_domain A t d = Ok V
  | None => of_space t V
  end.

(** One test space, one trial space (or none), existing coefficients, and every
    function with the same reduction wherever it occurs in the integrand. *)
Definition argument (n : nat) (oV : option nat) (e : expr) : Prop :=
  match oV with
  | Some V => (exists W, has_space n e W) /\ forall t W, occurs t e -> tkind t = KArg n W -> home t V
  | None => no_space n e
  end.
Definition integrand_ok (st : store) (mesh : nat) (oV oU : option nat) (e : expr) : Prop :=
  (forall t, occurs t e -> term_ok mesh t) /\
  (forall t s, occurs t e -> occurs s e -> tkind t = tkind s -> t = s) /\
  mixable mesh e /\ valid e /\
  argument 0 oV e /\ argument 1 oU e /\ (forall t n V, occurs t e -> tkind t = KArg n V -> n < 2) /\
  (forall t id V k, occurs t e -> tkind t = KOther id -> coefficient id V k -> k < length st).
(** UFL accepts one test function and one trial function in a form. *)
Definition form_ok (st : store) (oV oU : option nat) (f : form) : Prop :=
  f <> [] /\ uniform f /\ forall i, In i f -> integrand_ok st (w_imesh w (fst i)) oV oU (snd i).

(** An operator that [collapse] can turn into the matrix [M]. *)
Definition stands_for (e : ConvertModel.expr) (M : mat) : Prop :=
  built e /\ collapsible e /\ has_op e = true /\ forall neg, oeq (den neg e) (Some (VMat M)).

(** The assembled object has the sizes of the spaces and represents [val]. *)
Definition fits (oV : option nat) (v : vec) : Prop := match oV with Some V => length v = w_dim w V | None => True end.
Definition represents (oV oU : option nat) (r : tensor) (val : vec -> vec -> Qc) : Prop :=
  match oV, oU, r with
  | Some V, Some U, TOp e => exists M, stands_for e M /\
    nr M = w_dim w V /\ nc M = w_dim w U /\ forall v u, fits oV v -> fits oU u -> vdot v (mv M u) = val v u
  | Some V, None, TVec b => length b = w_dim w V /\ forall v u, fits oV v -> vdot v b = val v u
  | None, None, TNum q => forall v u, q = val v u
  | _, _, _ => False
  end.
Definition supported (oV oU : option nat) : Prop := oV <> None \/ oU = None.

(** df.assemble does its job on forms without reductions. *)
Definition assembles_plain (dfa : store -> form -> res tensor) : Prop :=
  forall st f oV oU, supported oV oU -> form_ok st oV oU f ->
    (forall i t, In i f -> occurs t (snd i) -> untouched (w_imesh w (fst i)) t) ->
    exists r, dfa st f = Ok r /\ represents oV oU r (form_value st f).

(** The assemblers: one attribute each, and functions of the reduced space need
    no further reduction. *)
Definition assemblers_ok : Prop :=
  NoDup (map asm_attr asms) /\
  (forall A V mesh d n, In A asms -> untouched mesh (plain_term (KArg n (asm_space A V mesh d)))) /\
  (forall A V mesh d id k, In A asms -> coefficient id (asm_space A V mesh d) k -> untouched mesh (plain_term (KOther id))).

(** Number of places with a reduction. *)
Definition has_reduction (t : term) : bool := existsb (fun A => hasattr t (asm_attr A)) asms.
Definition reductions (e : expr) : nat := length (filter has_reduction (terminals e)).
End Spec.

(** ** Linear algebra *)

Lemma vdot_transpose T v x : length v = nc T -> length x = nr T -> vdot v (mv (mtr T) x) = vdot (mv T v) x.
Proof.
  intros Hv Hx. unfold vdot. rewrite mv_length, Hv.
  transitivity (sumn (nc T) (fun i => sumn (nr T) (fun j => (vnth v i * (ent T j i * vnth x j))%Qc))).
  { apply sumn_ext. intros i Hi. rewrite vnth_mv by (cbn; assumption). cbn. rewrite <- sumn_scal. reflexivity. }
  rewrite sumn_swap. apply sumn_ext. intros j Hj. rewrite vnth_mv by assumption. rewrite <- sumn_scal_r.
  apply sumn_ext. intros. ring.
Qed.

Lemma vdot_vadd v x y : length x = length v -> vdot v (vadd x y) = (vdot v x + vdot v y)%Qc.
Proof.
  intros L. unfold vdot. rewrite <- sumn_plus. apply sumn_ext. intros i Hi. unfold vadd. rewrite vnth_vtab by lia. ring.
Qed.

Lemma vdot_madd v A B u : nr A = nr B -> nc A = nc B -> nr A = length v ->
  vdot v (mv (madd A B) u) = (vdot v (mv A u) + vdot v (mv B u))%Qc.
Proof.
  intros E1 E2 L. unfold vdot. rewrite <- sumn_plus. apply sumn_ext. intros i Hi.
  rewrite !vnth_mv by (cbn; lia). cbn [nc madd ent]. rewrite <- E2.
  replace (vnth v i * _ + vnth v i * _)%Qc with (vnth v i * (sumn (nc A) (fun j => (ent A i j * vnth u j)%Qc) + sumn (nc A) (fun j => (ent B i j * vnth u j)%Qc)))%Qc by ring.
  rewrite <- sumn_plus. f_equal. apply sumn_ext. intros. ring.
Qed.

Lemma stands_mat M : stands_for (EMat M) M.
Proof. repeat split; try constructor; reflexivity. Qed.
Lemma stands_tr M : stands_for (ETr (EMat M)) (mtr M).
Proof. repeat split; try (repeat constructor; fail). Qed.
Lemma stands_add a b A B : stands_for a A -> stands_for b B -> nr A = nr B -> nc A = nc B -> stands_for (py_add a b) (madd A B).
Proof.
  intros (A1 & A2 & A3 & A4) (B1 & B2 & B3 & B4) E1 E2.
  assert (E : py_add a b = EAdd a b) by (destruct a; try reflexivity; discriminate A3). rewrite E.
  split; [constructor; [assumption..|rewrite A3; reflexivity]|]. split; [|split].
  - constructor; [assumption..|]. intros c [-> | ->]; discriminate.
  - cbn. rewrite A3. reflexivity.
  - intros neg. specialize (A4 neg). specialize (B4 neg). cbn [den].
    destruct (den neg a) as [[A'|]|]; cbn in A4; try contradiction. destruct (den neg b) as [[B'|]|]; cbn in B4; try contradiction.
    destruct A4 as (P1 & P2 & P3), B4 as (Q1 & Q2 & Q3). cbn [obind vadd_].
    rewrite (proj2 (Nat.eqb_eq (nr A') (nr B'))), (proj2 (Nat.eqb_eq (nc A') (nc B'))) by congruence. cbn.
    split; [assumption|]. split; [assumption|]. cbn. intros i j Hi Hj. rewrite P3, Q3 by congruence. reflexivity.
Qed.
Lemma stands_mul a b A B : stands_for a A -> stands_for b B -> nc A = nr B -> stands_for (py_mul a b) (mmul A B).
Proof.
  intros (A1 & A2 & A3 & A4) (B1 & B2 & B3 & B4) E. split; [apply built_py_mul; assumption|]. split; [apply coll_py_mul; assumption|]. split.
  - assert (E' : py_mul a b = EMul (chain_of a ++ chain_of b)) by (destruct a; try reflexivity; discriminate A3). rewrite E'.
    cbn. rewrite existsb_app, !existsb_chain_of, A3. reflexivity.
  - intros neg. eapply oeq_trans; [apply den_py_mul; apply built_wf; assumption|]. specialize (A4 neg). specialize (B4 neg).
    destruct (den neg a) as [[A'|]|]; cbn in A4; try contradiction. destruct (den neg b) as [[B'|]|]; cbn in B4; try contradiction.
    cbn [omul obind]. eapply oeq_trans; [apply (vmul_proper (VMat A') (VMat A) (VMat B') (VMat B)); assumption|]. cbn [vmul].
    rewrite (proj2 (Nat.eqb_eq (nc A) (nr B))) by assumption. apply oeq_refl.
Qed.

Lemma stands_collapses e M : stands_for e M ->
  exists N M', (forall n, N <= n -> collapse n e = Ok (EMat M')) /\ meq M' M.
Proof.
  intros (B & C & _ & D). specialize (D tiny). destruct (den tiny e) as [v|] eqn:Ev; [|contradiction].
  destruct (collapse_halts e v B C Ev) as (N & r & H).
  destruct (collapse_sound N e r (built_wf e B) (H N (Nat.le_refl N))) as (v1 & v2 & E1 & E2 & E3).
  rewrite Ev in E2. injection E2 as <-. cbn in D.
  destruct v as [A|]; [|contradiction]. destruct v1 as [A1|]; [|contradiction].
  destruct r; cbn in E1; try discriminate. injection E1 as ->.
  exists N, A1. split; [assumption|]. eapply meq_trans; eassumption.
Qed.

Lemma NoDup_map_inj {X Y} (f : X -> Y) l a b : NoDup (map f l) -> In a l -> In b l -> f b = f a -> b = a.
Proof.
  induction l as [|c l IH]; intros ND HA HB E; [contradiction|]. cbn in ND. inversion ND as [|x m N1 N2]; subst.
  destruct HA as [->|HA], HB as [->|HB]; auto; exfalso; apply N1.
  - rewrite <- E. apply in_map. assumption.
  - rewrite E. apply in_map. assumption.
Qed.

Definition attr_eq_dec (a b : attr) : {a = b} + {a <> b}.
Proof. decide equality. apply Nat.eq_dec. Defined.

Section Proofs.
Variable w : world.
Variable asms : list assembler.
Variable integrate : nat -> vtree -> Qc.
Variable valid : expr -> Prop.
Variable ord : list term -> list term.
Variable dfa : store -> form -> res tensor.
Hypothesis VAL : role_closed valid.
Hypothesis ORD : an_order ord.
Hypothesis DFA : assembles_plain w asms integrate valid dfa.
Hypothesis ASM : assemblers_ok asms.

Notation rep := (represents w).
Notation fval := (form_value w asms integrate).

Lemma rep_ext oV oU r f g : (forall v u, f v u = g v u) -> rep oV oU r f -> rep oV oU r g.
Proof.
  intros E. unfold represents. destruct oV, oU, r; try tauto.
  - intros (M & H0 & H1 & H2 & H3). exists M. repeat (split; [assumption|]). intros. rewrite <- E. auto.
  - intros (H1 & H2). split; auto. intros. rewrite <- E. auto.
  - intros H v u. rewrite <- E. auto.
Qed.

Lemma tadd_rep oV oU a b f g : rep oV oU a f -> rep oV oU b g ->
  exists r, tadd a b = Ok r /\ rep oV oU r (fun v u => (f v u + g v u)%Qc).
Proof.
  unfold represents. destruct oV as [V|], oU as [U|], a as [A|x|p], b as [B|y|q]; try tauto; cbn [tadd].
  - intros (A' & H0 & H1 & H2 & H3) (B' & K0 & K1 & K2 & K3). eexists. split; [reflexivity|].
    exists (madd A' B'). split; [apply stands_add; congruence|]. cbn [nr nc madd].
    repeat split; auto. intros v u Hv Hu. rewrite vdot_madd, H3, K3; auto; cbn in Hv; congruence.
  - intros (H1 & H3) (K1 & K3). rewrite (proj2 (Nat.eqb_eq (length x) (length y))) by congruence.
    eexists. split; [reflexivity|]. split.
    + unfold vadd. rewrite vtab_length. assumption.
    + intros v u Hv. rewrite vdot_vadd, (H3 v u), (K3 v u); auto. cbn in Hv. congruence.
  - intros H K. eexists. split; [reflexivity|]. intros v u. rewrite (H v u), (K v u). reflexivity.
Qed.

Lemma fold_tadd oV oU l : forall vals r0 f0, rep oV oU r0 f0 -> Forall2 (rep oV oU) l vals ->
  exists r, fold_left (fun acc y => do a <- acc; tadd a y) l (Ok r0) = Ok r /\
            rep oV oU r (fun v u => (f0 v u + qsum (map (fun f => f v u) vals))%Qc).
Proof.
  induction l as [|y l IH]; intros vals r0 f0 H0 F; inversion F as [|y' fy l' vs Hy Hl]; subst; cbn [fold_left].
  - exists r0. split; [reflexivity|]. eapply rep_ext; [|exact H0]. intros. cbn. unfold q0. ring.
  - cbn [bind]. destruct (tadd_rep oV oU r0 y f0 fy H0 Hy) as (r1 & -> & H1).
    destruct (IH vs r1 _ H1 Hl) as (r & E & R). exists r. split; [assumption|].
    eapply rep_ext; [|exact R]. intros. cbn. ring.
Qed.

Lemma tsum_rep oV oU l vals : l <> [] -> Forall2 (rep oV oU) l vals ->
  exists r, tsum l = Ok r /\ rep oV oU r (fun v u => qsum (map (fun f => f v u) vals)).
Proof.
  intros NE F. inversion F as [|x fx l' vs Hx Hl]; subst; [contradiction|]. cbn [tsum].
  destruct (fold_tadd oV oU l' vs x fx Hx Hl) as (r & E & R). exists r. split; [assumption|]. exact R.
Qed.

(** ** Terminals *)

Lemma unique_In t e : In t (unique_terminals e) -> occurs t e.
Proof. intros H. apply terminals_occurs. apply set_of_In. exact H. Qed.

Lemma unique_cover st mesh oV oU e t : integrand_ok w asms valid st mesh oV oU e -> occurs t e -> In t (unique_terminals e).
Proof.
  intros (_ & U & _) H. destruct (set_of_cover (terminals e) t) as (s & Hs & E); [apply terminals_occurs; assumption|].
  enough (t = s) by (subst; assumption). apply U; [assumption|apply unique_In; assumption|]. auto.
Qed.

Lemma reduced_unique mesh A B t : reduced_by w asms mesh A t -> In B asms -> hasattr t (asm_attr B) = true -> B = A.
Proof.
  intros (HA & _ & _ & _ & _ & _ & O & _) HB H. destruct ASM as [ND _].
  assert (E : asm_attr B = asm_attr A).
  { destruct (attr_eq_dec (asm_attr B) (asm_attr A)) as [E|N]; [assumption|]. rewrite (O B HB N) in H. discriminate. }
  eapply NoDup_map_inj; eassumption.
Qed.

Lemma find_reduced mesh A t : reduced_by w asms mesh A t -> find (fun A => hasattr t (asm_attr A)) asms = Some A.
Proof.
  intros R. destruct (find _ asms) as [B|] eqn:F.
  - apply find_some in F. destruct F as [HB H]. f_equal. eapply reduced_unique; eassumption.
  - destruct R as (HA & H & _). eapply find_none in F; [|exact HA]. cbn in F. congruence.
Qed.

Lemma find_untouched mesh t : untouched asms mesh t -> find (fun A => hasattr t (asm_attr A)) asms = None.
Proof.
  intros U. destruct (find _ asms) as [B|] eqn:F; [|reflexivity]. apply find_some in F. destruct F as [HB H].
  destruct (U B HB) as [E _]. congruence.
Qed.

Lemma has_reduction_find t : has_reduction asms t = match find (fun A => hasattr t (asm_attr A)) asms with Some _ => true | None => false end.
Proof.
  unfold has_reduction. generalize asms as l. induction l as [|C l IH]; [reflexivity|]. cbn. destruct (hasattr t (asm_attr C)); [reflexivity|assumption].
Qed.

(** ** Substitution of one terminal *)

Definition put (t : term) (k : kind) (s : term) : term := if kind_eqb (tkind s) (tkind t) then plain_term k else s.

Lemma put_hit t k : put t k t = plain_term k.
Proof. unfold put. rewrite (proj2 (kind_eqb_spec _ _) eq_refl). reflexivity. Qed.
Lemma put_miss t k s : tkind s <> tkind t -> put t k s = s.
Proof. intros H. unfold put. destruct (kind_eqb _ _) eqn:E; [apply kind_eqb_spec in E; contradiction|reflexivity]. Qed.

Lemma replace_put st mesh oV oU e t a k : integrand_ok w asms valid st mesh oV oU e -> occurs t e -> hasattr t a = true ->
  replace e (Leaf t) (Leaf (plain_term k)) (Some [a]) = map_leaves (put t k) e.
Proof.
  intros (_ & U & _) Ht Ha. rewrite replace_leaf. apply map_leaves_ext. intros s Hs.
  destruct (is_equal_terminal s t (Some [a])) eqn:E.
  - apply is_equal_terminal_spec in E. destruct E as [K _]. rewrite (U s t Hs Ht K). symmetry. apply put_hit.
  - unfold put. destruct (kind_eqb (tkind s) (tkind t)) eqn:K; [|reflexivity]. exfalso. apply kind_eqb_spec in K.
    assert (s = t) by (apply U; assumption). subst s.
    assert (is_equal_terminal t t (Some [a]) = true); [|congruence]. apply is_equal_terminal_spec. split; [reflexivity|].
    intros b [<-|[]]. unfold hasattr in Ha. destruct (getattr t a) as [v|]; [|discriminate]. eauto.
Qed.

Lemma argument_keep n o e t k : argument asms n o e -> (forall V, tkind t <> KArg n V) -> (forall V, k <> KArg n V) ->
  argument asms n o (map_leaves (put t k) e).
Proof.
  intros H Ht Hk. destruct o as [V|]; cbn in *.
  - destruct H as [(W & (s & Hs & K) & H) H2]. split.
    + exists W. split.
      * exists s. split; [|assumption]. rewrite <- (put_miss t k s) by (rewrite K; intros C; apply (Ht W); congruence).
        apply occurs_map_leaves. assumption.
      * intros s' W' Hs' K'. apply map_leaves_occurs in Hs'. destruct Hs' as (x & Hx & ->). unfold put in K'.
        destruct (kind_eqb (tkind x) (tkind t)); [cbn in K'; destruct (Hk _ K')|]. eauto.
    + intros s' W' Hs' K'. apply map_leaves_occurs in Hs'. destruct Hs' as (x & Hx & ->). unfold put in *.
      destruct (kind_eqb (tkind x) (tkind t)); [cbn in K'; destruct (Hk _ K')|]. eauto.
  - intros s' W Hs' K'. apply map_leaves_occurs in Hs'. destruct Hs' as (x & Hx & ->). unfold put in K'.
    destruct (kind_eqb (tkind x) (tkind t)); [cbn in K'; destruct (Hk _ K')|]. eapply H; eassumption.
Qed.

Lemma argument_new n W TV mesh e t : has_space n e W -> occurs t e -> tkind t = KArg n W -> untouched asms mesh (plain_term (KArg n TV)) ->
  argument asms n (Some TV) (map_leaves (put t (KArg n TV)) e).
Proof.
  intros [_ H] Ht K UN.
  assert (ALL : forall s, occurs s e -> forall W', tkind (put t (KArg n TV) s) = KArg n W' -> put t (KArg n TV) s = plain_term (KArg n TV)).
  { intros s Hs W' K'. unfold put in *. destruct (kind_eqb (tkind s) (tkind t)) eqn:E; [reflexivity|].
    assert (W' = W) by eauto. subst W'. rewrite (proj2 (kind_eqb_spec _ _)) in E; congruence. }
  split.
  - exists TV. split.
    + exists (plain_term (KArg n TV)). split; [|reflexivity]. rewrite <- (put_hit t). apply occurs_map_leaves. assumption.
    + intros s' W' Hs' K'. apply map_leaves_occurs in Hs'. destruct Hs' as (x & Hx & ->). rewrite (ALL x Hx _ K') in K'. cbn in K'. congruence.
  - intros s' W' Hs' K'. apply map_leaves_occurs in Hs'. destruct Hs' as (x & Hx & ->). rewrite (ALL x Hx _ K').
    unfold home. rewrite (find_untouched mesh) by assumption. left. exists n. reflexivity.
Qed.

Lemma leaves_changed_map g e : leaves_changed g e (map_leaves g e).
Proof.
  induction e as [t|f ops IH] using expr_ind2; cbn [map_leaves]; constructor.
  induction IH; cbn [map]; constructor; assumption.
Qed.

Lemma put_integrand_ok st st' mesh oV oU oV' oU' e t k :
  integrand_ok w asms valid st mesh oV oU e -> occurs t e -> untouched asms mesh (plain_term k) ->
  (forall s, occurs s e -> tkind s = k -> tkind s = tkind t) ->
  argument asms 0 oV' (map_leaves (put t k) e) -> argument asms 1 oU' (map_leaves (put t k) e) ->
  same_role t (plain_term k) ->
  (forall n V, k = KArg n V -> n < 2) ->
  (forall id V j, k = KOther id -> coefficient id V j -> j < length st') -> length st <= length st' ->
  integrand_ok w asms valid st' mesh oV' oU' (map_leaves (put t k) e).
Proof.
  intros (I1 & I2 & MX & VE & _ & _ & I5 & I6) Ht U F A0 A1 RO N C L. split; [|split; [|split; [|split; [|split; [|split; [|split] ] ] ] ] ]; try assumption.
  - intros s' H. apply map_leaves_occurs in H. destruct H as (x & Hx & ->). unfold put.
    destruct (kind_eqb _ _); [left; assumption|auto].
  - intros s1 s2 H1 H2 K. apply map_leaves_occurs in H1. destruct H1 as (x & Hx & ->). apply map_leaves_occurs in H2. destruct H2 as (y & Hy & ->).
    unfold put in *. destruct (kind_eqb (tkind x) (tkind t)) eqn:Ex, (kind_eqb (tkind y) (tkind t)) eqn:Ey.
    + reflexivity.
    + cbn in K. exfalso. rewrite (proj2 (kind_eqb_spec _ _)) in Ey; [discriminate|]. apply F; auto.
    + cbn in K. exfalso. rewrite (proj2 (kind_eqb_spec _ _)) in Ex; [discriminate|]. apply F; auto.
    + apply I2; assumption.
  - intros s1 s2 A B H1 H2 R1 R2 BF. apply map_leaves_occurs in H1. destruct H1 as (x & Hx & ->). apply map_leaves_occurs in H2. destruct H2 as (y & Hy & ->).
    assert (NR : forall D, ~ reduced_by w asms mesh D (plain_term k)).
    { intros D (_ & RD & _). destruct D as [ [] ? ? ? ? ? ?]; discriminate RD. }
    unfold put in *. destruct (kind_eqb (tkind x) (tkind t)); [destruct (NR _ R1)|].
    destruct (kind_eqb (tkind y) (tkind t)); [destruct (NR _ R2)|]. apply (MX x y A B); assumption.
  - apply (VAL (put t k) e); [|apply leaves_changed_map|assumption]. intros x Hx. unfold put. destruct (kind_eqb (tkind x) (tkind t)) eqn:E.
    + apply kind_eqb_spec in E. unfold same_role in *. rewrite E. assumption.
    + unfold same_role. destruct (tkind x); [reflexivity|exact Logic.I].
  - intros s' n V H K. apply map_leaves_occurs in H. destruct H as (x & Hx & ->). unfold put in K.
    destruct (kind_eqb _ _); [cbn in K; eauto|eauto].
  - intros s' id V j H K Hc. apply map_leaves_occurs in H. destruct H as (x & Hx & ->). unfold put in K.
    destruct (kind_eqb _ _); [cbn in K; eauto|]. enough (j < length st) by lia. eauto.
Qed.

Lemma terminals_map_leaves g e : terminals (map_leaves g e) = map g (terminals e).
Proof.
  induction e as [t|f ops IH] using expr_ind2; [reflexivity|]. unfold terminals in *. cbn [map_leaves traverse].
  rewrite !flat_map_app. cbn [flat_map]. rewrite !app_nil_r.
  induction IH as [|x l Hx Hl IHl]; [reflexivity|]. cbn [map]. rewrite !flat_map_app, map_app. rewrite Hx, IHl. reflexivity.
Qed.

Lemma put_reductions e t k : occurs t e -> has_reduction asms t = true -> has_reduction asms (plain_term k) = false ->
  reductions asms (map_leaves (put t k) e) < reductions asms e.
Proof.
  intros Ht R N. unfold reductions. rewrite terminals_map_leaves. apply terminals_occurs in Ht.
  assert (LE : forall l, length (filter (has_reduction asms) (map (put t k) l)) <= length (filter (has_reduction asms) l)).
  { induction l as [|x l IH]; [reflexivity|]. cbn [map filter]. unfold put at 1.
    destruct (kind_eqb (tkind x) (tkind t)); [rewrite N|]; destruct (has_reduction asms x); cbn [length]; lia. }
  induction (terminals e) as [|x l IH]; [contradiction|]. cbn [map filter]. destruct Ht as [->|Ht].
  - rewrite put_hit, N, R. cbn [length]. specialize (LE l). lia.
  - specialize (IH Ht). unfold put at 1. destruct (kind_eqb (tkind x) (tkind t)); [rewrite N|]; destruct (has_reduction asms x); cbn [length]; lia.
Qed.

Lemma evaluate_put mesh st st' v u v' u' t k e :
  (forall s, occurs s e -> value asms mesh st' v' u' (put t k s) = value asms mesh st v u s) ->
  evaluate asms mesh st' v' u' (map_leaves (put t k) e) = evaluate asms mesh st v u e.
Proof.
  induction e as [s|f ops IH] using expr_ind2; intros H; cbn [map_leaves evaluate].
  - apply H. constructor.
  - f_equal. rewrite map_map. apply map_ext_in. intros x Hx. rewrite Forall_forall in IH. apply IH; [assumption|].
    intros s Hs. apply H. eapply occurs_node; eassumption.
Qed.

Lemma value_untouched mesh st v u k : untouched asms mesh (plain_term k) -> value asms mesh st v u (plain_term k) = plain_value st v u (plain_term k).
Proof. intros U. unfold value. rewrite (find_untouched mesh) by assumption. reflexivity. Qed.

(** Values only depend on the plain value. *)
Lemma value_plain mesh st st' v u v' u' s : plain_value st' v' u' s = plain_value st v u s ->
  value asms mesh st' v' u' s = value asms mesh st v u s.
Proof. intros E. unfold value. rewrite E. reflexivity. Qed.

Lemma coefficient_of id V k : coefficient id V k <-> Cantor.of_nat id = (S V, k).
Proof.
  unfold coefficient. split.
  - intros ->. apply Cantor.cancel_of_to.
  - intros E. rewrite <- E. symmetry. apply Cantor.cancel_to_of.
Qed.

(** ** One selected integral *)

Definition good (rec : store -> form -> res tensor) (bound : nat) : Prop :=
  forall st m e oV oU, supported oV oU -> integrand_ok w asms valid st (w_imesh w m) oV oU e -> reductions asms e < bound ->
    exists r, rec st [(m, e)] = Ok r /\ rep oV oU r (fun v u => integrate m (evaluate asms (w_imesh w m) st v u e)).

Definition ar_of (oV oU : option nat) : nat := (if oV then 1 else 0) + (if oU then 1 else 0).

Lemma arity_ok st oV oU f : form_ok w asms valid st oV oU f -> arity f = Ok (ar_of oV oU).
Proof.
  intros (NE & UF & H). unfold arity.
  assert (E : forall n o, (forall i, In i f -> argument asms n o (snd i)) -> exists l, form_spaces n f = l /\ length l = (if o then 1 else 0)).
  { intros n [V|] K; [|exists []; split; [apply form_spaces_none; assumption|reflexivity] ].
    destruct f as [|i0 f0] eqn:Ef; [contradiction|]. destruct (K i0 (or_introl eq_refl)) as [(W & HW) _].
    exists [W]. split; [|reflexivity]. apply form_spaces_single; [discriminate|]. intros i Hi.
    destruct (K i Hi) as [(W' & HW') _]. destruct HW as [(t & Ht & Kt) _]. destruct HW' as [(s & Hs & Ks) H2].
    assert (W' = W) by (eapply (proj1 UF i0 i); [left; reflexivity|exact Hi|exact Ht|exact Hs|exact Kt|exact Ks]). subst W'.
    split; [eauto|assumption]. }
  destruct (E 0 oV) as (l0 & -> & L0); [intros i Hi; apply (H i Hi)|]. destruct (E 1 oU) as (l1 & -> & L1); [intros i Hi; apply (H i Hi)|].
  destruct l0 as [|? [|? ?] ]; destruct l1 as [|? [|? ?] ]; destruct oV, oU; cbn in L0, L1; try discriminate; reflexivity.
Qed.

Lemma pick_true (keys : list (term * bool)) : (exists t, In (t, true) keys) -> exists t, pick keys = Some (t, true) /\ In (t, true) keys.
Proof.
  intros (t & Ht). unfold pick. destruct (rev (filter snd keys)) as [|[s b] l] eqn:E.
  - exfalso. assert (In (t, true) (filter snd keys)) by (apply filter_In; auto). apply in_rev in H. rewrite E in H. contradiction.
  - assert (In (s, b) (filter snd keys)). { apply in_rev. rewrite E. left. reflexivity. }
    apply filter_In in H. destruct H as [H1 H2]. cbn in H2. subst b. eauto.
Qed.

Lemma selects_picked st m oV oU e A pre post : asms = pre ++ A :: post -> integrand_ok w asms valid st (w_imesh w m) oV oU e ->
  (forall B, In B pre -> selects w B (m, e) = false) -> selects w A (m, e) = true ->
  exists keys t, mapM (fun t => do b <- asm_compat A (w_imesh w m) t; Ok (t, b)) (filter (asm_filter A (w_imesh w m)) (ord (unique_terminals e))) = Ok keys /\
    pick keys = Some (t, true) /\ occurs t e /\ reduced_by w asms (w_imesh w m) A t.
Proof.
  intros EA I PRE S. set (mesh := w_imesh w m) in *.
  assert (HA : In A asms) by (rewrite EA; apply in_elt).
  assert (IN : forall t, In t (ord (unique_terminals e)) -> occurs t e).
  { intros t H. apply unique_In. eapply Permutation_in; [apply Permutation_sym, ORD|exact H]. }
  assert (CASE : forall t, occurs t e -> untouched asms mesh t \/ reduced_by w asms mesh A t \/ exists B, reduced_by w asms mesh B t /\ before asms A B).
  { intros t H. pose proof I as (I1 & _). destruct (I1 t H) as [U|[B R] ]; [left; assumption|right].
    pose proof R as (HB & _ & SB & _ & _ & _ & _ & O). rewrite EA in HB. apply in_app_or in HB. destruct HB as [HB|[<-|HB] ].
    - exfalso. assert (selects w B (m, e) = true); [|rewrite (PRE B HB) in H0; discriminate].
      unfold selects. apply existsb_exists. exists t. split; [eapply unique_cover; eassumption|exact SB].
    - left. assumption.
    - right. exists B. split; [assumption|]. apply in_split in HB. destruct HB as (l1 & l2 & ->). exists (pre ++ A :: l1), l2. split.
      + rewrite EA, <- app_assoc. reflexivity.
      + apply in_elt. }
  assert (SEL : exists t, occurs t e /\ In t (unique_terminals e) /\ reduced_by w asms mesh A t).
  { unfold selects in S. cbn [fst snd] in S. fold mesh in S. apply existsb_exists in S. destruct S as (t & Ht & S).
    assert (O : occurs t e) by (apply unique_In; assumption). destruct (CASE t O) as [U|[R|(B & R & BF)] ].
    - destruct (U A HA) as (_ & E & _). congruence.
    - eauto.
    - destruct R as (_ & _ & _ & _ & _ & _ & _ & O'). specialize (O' A BF). congruence. }
  assert (KEY : forall t, In t (filter (asm_filter A mesh) (ord (unique_terminals e))) ->
    (reduced_by w asms mesh A t /\ asm_compat A mesh t = Ok true) \/ asm_compat A mesh t = Ok false).
  { intros t H. apply filter_In in H. destruct H as [H1 H2]. apply IN in H1. destruct (CASE t H1) as [U|[R|(B & R & BF)] ].
    - destruct (U A HA) as (_ & _ & E). congruence.
    - left. split; [assumption|apply R].
    - right. destruct SEL as (s & Hs & _ & Rs). pose proof I as (_ & _ & MX & _).
      destruct (MX t s B A H1 Hs R Rs BF) as [E|E]; [congruence|assumption]. }
  set (g := fun t => (t, match asm_compat A mesh t with Ok b => b | _ => false end)).
  exists (map g (filter (asm_filter A mesh) (ord (unique_terminals e)))).
  destruct (pick_true (map g (filter (asm_filter A mesh) (ord (unique_terminals e))))) as (t & P & Pin).
  { destruct SEL as (t & _ & Ht & R). exists t. apply in_map_iff. exists t.
    destruct R as (_ & _ & _ & R1 & R2 & _). unfold g. rewrite R2. split; [reflexivity|]. apply filter_In. split; [|assumption].
    eapply Permutation_in; [apply ORD|assumption]. }
  exists t. split.
  - apply mapM_map, Forall_forall. intros s Hs. unfold g. destruct (KEY s Hs) as [ [_ ->]| ->]; reflexivity.
  - apply in_map_iff in Pin. destruct Pin as (s & E & Hs). pose proof (f_equal fst E) as E1. pose proof (f_equal snd E) as E2. unfold g in E1, E2. cbn in E1, E2. clear E. subst s.
    split; [exact P|]. split; [apply IN; apply filter_In in Hs; tauto|].
    destruct (KEY t Hs) as [ [R _]|C]; [assumption|]. rewrite C in E2. discriminate.
Qed.

Lemma hasattr_plain k a : hasattr (plain_term k) a = false.
Proof. destruct a; reflexivity. Qed.
Lemma has_reduction_plain k : has_reduction asms (plain_term k) = false.
Proof.
  unfold has_reduction. destruct (existsb _ asms) eqn:E; [|reflexivity]. apply existsb_exists in E. destruct E as (A & _ & E).
  rewrite hasattr_plain in E. discriminate.
Qed.

Lemma reduced_has mesh A t : reduced_by w asms mesh A t -> has_reduction asms t = true.
Proof. intros R. rewrite has_reduction_find, (find_reduced mesh A) by assumption. reflexivity. Qed.

Lemma reduce_integral_ok rec st m e oV oU A pre post :
  supported oV oU -> asms = pre ++ A :: post -> (forall B, In B pre -> selects w B (m, e) = false) -> integrand_ok w asms valid st (w_imesh w m) oV oU e -> selects w A (m, e) = true ->
  good rec (reductions asms e) ->
  exists r, reduce_integral w ord rec st A (ar_of oV oU) (m, e) = Ok [r] /\
            rep oV oU r (fun v u => integrate m (evaluate asms (w_imesh w m) st v u e)).
Proof.
  intros SUP EA PRE I S G. destruct (selects_picked st m oV oU e A pre post EA I PRE S) as (keys & t & EK & P & Ht & R).
  assert (HA : In A asms) by (rewrite EA; apply in_elt).
  unfold reduce_integral. cbn [fst snd]. rewrite EK. cbn [bind]. rewrite P. set (mesh := w_imesh w m) in *.
  pose proof R as (_ & Ha & _ & _ & _ & (d & V & T & D & DV & HV & ET & D1 & D2) & _).
  pose proof (find_reduced mesh A t R) as FR.
  rewrite D. cbn [opt_res bind]. rewrite DV. cbn [bind]. rewrite ET. cbn [bind].
  assert (HO : forall V', home asms t V' -> V' = V).
  { intros V' H. unfold home in H. rewrite FR in H. destruct H as (d' & D' & DV'). congruence. }
  destruct ASM as (_ & UA & UF).
  pose proof I as (I1 & I2 & _ & _ & A0 & A1 & I5 & I6).
  assert (HV' : (exists n W, tkind t = KArg n W) \/ exists id k, tkind t = KOther id /\ coefficient id V k).
  { destruct HV as [HV|[(n & K)|HV] ]; [left; assumption|left; eauto|right; assumption]. }
  clear HV. destruct HV' as [(n & W0 & K)|(id & k & K & C)].
  - (* an argument *)
    rewrite K. set (TV := asm_space A V mesh d) in *. 
    assert (N : n < 2) by eauto. destruct n as [|[|n] ]; [| |lia].
    + (* test *)
      destruct oV as [V'|]; [|exfalso; apply (A0 t W0 Ht K)]. destruct A0 as [(W1 & A0) AH]. assert (V' = V) by (apply HO, (AH t W0 Ht K)). subst V'.
      assert (W1 = W0) by (symmetry; apply (proj2 A0 t W0 Ht K)). subst W1.
      rewrite (replace_put st mesh (Some V) oU) by assumption. set (e' := map_leaves (put t (KArg 0 TV)) e) in *.
      assert (I' : integrand_ok w asms valid st mesh (Some TV) oU e').
      { apply (put_integrand_ok st st mesh (Some V) oU); try assumption; try lia.
        - apply UA. assumption.
        - intros s Hs E. rewrite E, K. f_equal. rewrite (proj2 A0 s TV Hs E). reflexivity.
        - apply (argument_new _ W0 TV mesh); try assumption. apply UA. assumption.
        - apply argument_keep; [assumption|intros; congruence|intros; discriminate].
        - unfold same_role. rewrite K. reflexivity.
        - intros n W E. inversion E. lia.
        - intros. discriminate. }
      assert (EV : forall v u, evaluate asms mesh st (mv T v) u e' = evaluate asms mesh st v u e).
      { intros v u. apply evaluate_put. intros s Hs. destruct (kind_eqb (tkind s) (tkind t)) eqn:E.
        - apply kind_eqb_spec in E. rewrite (I2 s t Hs Ht E), put_hit, (value_untouched mesh) by (apply UA; assumption).
          unfold value, plain_value. rewrite FR, K, D, DV. cbv zeta. fold TV. rewrite ET. reflexivity.
        - rewrite put_miss by (intros C; rewrite (proj2 (kind_eqb_spec _ _) C) in E; discriminate). apply value_plain.
          unfold plain_value. destruct (tkind s) as [ [|[|n] ] W|id] eqn:Ks; try reflexivity. exfalso.
          rewrite (proj2 A0 s W Hs Ks), K in E. rewrite (proj2 (kind_eqb_spec _ _) eq_refl) in E. discriminate. }
      destruct (G st m e' (Some TV) oU) as (r & Er & Rr); [left; discriminate|assumption| |].
      { apply put_reductions; [assumption|eapply reduced_has; eassumption|apply has_reduction_plain]. }
      rewrite Er. cbn [bind]. fold mesh in Rr.
      destruct oU as [U|]; cbn [ar_of Nat.add Nat.eqb]; destruct r as [M|b|q]; cbn in Rr; try contradiction.
      * destruct Rr as (M' & R0 & R1 & R2 & R3). eexists. split; [reflexivity|]. cbn [represents]. exists (mmul (mtr T) M').
        split; [apply stands_mul; [apply stands_tr|assumption|cbn; congruence]|]. cbn [nr nc mmul mtr]. repeat split; try assumption.
        intros v u Hv Hu. rewrite mv_mmul by (cbn; congruence). cbn in Hv.
        rewrite vdot_transpose by (rewrite ?mv_length; congruence). rewrite R3.
        -- rewrite EV. reflexivity.
        -- rewrite mv_length. assumption.
        -- exact Hu.
      * destruct Rr as (R1 & R3). eexists. split; [reflexivity|]. cbn [represents]. split; [rewrite mv_length; assumption|].
        intros v u Hv. cbn in Hv. rewrite vdot_transpose by congruence. rewrite (R3 _ u) by (rewrite mv_length; assumption).
        rewrite EV. reflexivity.
    + (* trial *)
      destruct oU as [V'|]; [|exfalso; apply (A1 t W0 Ht K)]. destruct A1 as [(W1 & A1) AH]. assert (V' = V) by (apply HO, (AH t W0 Ht K)). subst V'.
      assert (W1 = W0) by (symmetry; apply (proj2 A1 t W0 Ht K)). subst W1.
      destruct oV as [W|]; [|destruct SUP; [congruence|discriminate] ]. cbn [ar_of Nat.add Nat.eqb].
      rewrite (replace_put st mesh (Some W) (Some V)) by assumption. set (e' := map_leaves (put t (KArg 1 TV)) e) in *.
      assert (I' : integrand_ok w asms valid st mesh (Some W) (Some TV) e').
      { apply (put_integrand_ok st st mesh (Some W) (Some V)); try assumption; try lia.
        - apply UA. assumption.
        - intros s Hs E. rewrite E, K. f_equal. rewrite (proj2 A1 s TV Hs E). reflexivity.
        - apply argument_keep; [assumption|intros; congruence|intros; discriminate].
        - apply (argument_new _ W0 TV mesh); try assumption. apply UA. assumption.
        - unfold same_role. rewrite K. reflexivity.
        - intros n W' E. inversion E. lia.
        - intros. discriminate. }
      assert (EV : forall v u, evaluate asms mesh st v (mv T u) e' = evaluate asms mesh st v u e).
      { intros v u. apply evaluate_put. intros s Hs. destruct (kind_eqb (tkind s) (tkind t)) eqn:E.
        - apply kind_eqb_spec in E. rewrite (I2 s t Hs Ht E), put_hit, (value_untouched mesh) by (apply UA; assumption).
          unfold value, plain_value. rewrite FR, K, D, DV. cbv zeta. fold TV. rewrite ET. reflexivity.
        - rewrite put_miss by (intros C; rewrite (proj2 (kind_eqb_spec _ _) C) in E; discriminate). apply value_plain.
          unfold plain_value. destruct (tkind s) as [ [|[|n] ] W'|id] eqn:Ks; try reflexivity; exfalso.
          + rewrite (proj2 A1 s W' Hs Ks), K in E. rewrite (proj2 (kind_eqb_spec _ _) eq_refl) in E. discriminate.
          + specialize (I5 s _ _ Hs Ks). lia. }
      destruct (G st m e' (Some W) (Some TV)) as (r & Er & Rr); [left; discriminate|assumption| |].
      { apply put_reductions; [assumption|eapply reduced_has; eassumption|apply has_reduction_plain]. }
      rewrite Er. cbn [bind]. fold mesh in Rr. destruct r as [M|b|q]; cbn in Rr; try contradiction.
      destruct Rr as (M' & R0 & R1 & R2 & R3). eexists. split; [reflexivity|]. cbn [represents]. exists (mmul M' T).
      split; [apply stands_mul; [assumption|apply stands_mat|congruence]|]. cbn [nr nc mmul]. repeat split; try assumption.
      intros v u Hv Hu. rewrite mv_mmul by congruence. rewrite R3.
      * rewrite EV. reflexivity.
      * exact Hv.
      * rewrite mv_length. assumption.
  - (* a coefficient *)
    pose proof (proj1 (coefficient_of _ _ _) C) as CO.
    rewrite K. set (TV := asm_space A V mesh d) in *. 
    unfold fun_num. rewrite CO. cbn [snd]. set (st' := st ++ [mv T (nth k st [])]).
    set (id' := fun_id TV (length st)).
    assert (C' : coefficient id' TV (length st)) by reflexivity. pose proof (proj1 (coefficient_of _ _ _) C') as CO'.
    assert (Kl : k < length st) by eauto.
    assert (L' : length st' = length st + 1) by (unfold st'; rewrite app_length; cbn; lia).
    rewrite (replace_put st mesh oV oU) by assumption. set (e' := map_leaves (put t (KOther id')) e) in *.
    assert (I' : integrand_ok w asms valid st' mesh oV oU e').
    { apply (put_integrand_ok st st' mesh oV oU); try assumption; try lia.
      - eapply UF; eassumption.
      - intros s Hs E. exfalso. specialize (I6 s id' TV (length st) Hs E C'). lia.
      - apply argument_keep; [assumption|intros; congruence|intros; discriminate].
      - apply argument_keep; [assumption|intros; congruence|intros; discriminate].
      - unfold same_role. rewrite K. exact Logic.I.
      - intros. discriminate.
      - intros id0 W j E Cj. inversion E; subst id0. apply coefficient_of in Cj. assert (j = length st) by congruence. lia. }
    assert (EV : forall v u, evaluate asms mesh st' v u e' = evaluate asms mesh st v u e).
    { intros v u. apply evaluate_put. intros s Hs. destruct (kind_eqb (tkind s) (tkind t)) eqn:E.
      - apply kind_eqb_spec in E. rewrite (I2 s t Hs Ht E), put_hit, (value_untouched mesh) by (eapply UF; eassumption).
        unfold value, plain_value. rewrite FR, K, D, DV, CO. cbv zeta. fold TV. rewrite ET. cbn [tkind plain_term]. rewrite CO'.
        unfold st'. rewrite app_nth2, Nat.sub_diag by lia. reflexivity.
      - rewrite put_miss by (intros Q; rewrite (proj2 (kind_eqb_spec _ _) Q) in E; discriminate). apply value_plain.
        unfold plain_value. destruct (tkind s) as [n W|id0] eqn:Ks; [reflexivity|].
        destruct (Cantor.of_nat id0) as [ [|W] j] eqn:C0; [reflexivity|]. f_equal. unfold st'. apply app_nth1.
        apply (I6 s id0 W j Hs Ks). apply coefficient_of. assumption. }
    destruct (G st' m e' oV oU) as (r & Er & Rr); [assumption|assumption| |].
    { apply put_reductions; [assumption|eapply reduced_has; eassumption|apply has_reduction_plain]. }
    rewrite Er. cbn [bind]. fold mesh in Rr. exists r. split; [reflexivity|]. eapply rep_ext; [|exact Rr]. intros v u. cbn beta. rewrite EV. reflexivity.
Qed.

(** ** Whole forms *)

Definition ival (st : store) (i : nat * expr) (v u : vec) : Qc := integrate (fst i) (evaluate asms (w_imesh w (fst i)) st v u (snd i)).

Lemma mapM_ext_in {X Y} (g h : X -> res Y) l : (forall x, In x l -> g x = h x) -> mapM g l = mapM h l.
Proof. induction l as [|x l IH]; intros H; [reflexivity|]. rewrite !mapM_cons, (H x (or_introl eq_refl)), IH; [reflexivity|]. intros y Hy. apply H. right. assumption. Qed.

Lemma expr_eqb_iff a : forall b, expr_eqb a b = true <-> alike a b.
Proof.
  induction a as [t|ty l IH] using expr_ind2; intros [s|ty' l']; cbn [expr_eqb].
  - unfold ufl_eq. split; [intros H; constructor; apply kind_eqb_spec; assumption|intros H; inversion H; apply kind_eqb_spec; assumption].
  - split; [discriminate|intros H; inversion H].
  - split; [discriminate|intros H; inversion H].
  - rewrite andb_true_iff, Nat.eqb_eq. split.
    + intros [<- H]. constructor. revert l' H. induction IH as [|x l Hx _ IHl]; intros [|y l'] H; try discriminate H; constructor.
      * apply andb_true_iff in H. apply Hx, H.
      * apply IHl. apply andb_true_iff in H. apply H.
    + intros H. inversion H as [|ty0 l1 l2 F]; subst. split; [reflexivity|]. clear H. revert IH. induction F as [|x y l l' Hxy F IHF]; intros IH; [reflexivity|].
      inversion IH as [|x0 l0 Hx IHl]; subst. apply andb_true_iff. split; [apply Hx; assumption|apply IHF; assumption].
Qed.
Lemma alike_refl a : alike a a.
Proof. induction a as [t|ty l IH] using expr_ind2; constructor; [reflexivity|]. induction IH; constructor; assumption. Qed.
Lemma taken_selects A f i : told_apart f -> In i f -> taken w A f i = selects w A i.
Proof.
  intros TA Hi. unfold taken. destruct (selects w A i) eqn:S.
  - apply existsb_exists. exists i. split; [assumption|]. rewrite S. unfold integral_eqb. rewrite Nat.eqb_refl. apply expr_eqb_iff, alike_refl.
  - apply not_true_iff_false. intros H. apply existsb_exists in H. destruct H as (j & Hj & H). apply andb_true_iff in H. destruct H as [Sj E].
    unfold integral_eqb in E. apply andb_true_iff in E. destruct E as [E1 E2]. apply Nat.eqb_eq in E1. apply expr_eqb_iff in E2.
    rewrite (TA j i Hj Hi E1 E2) in Sj. congruence.
Qed.

Lemma with_module_ok rec st f oV oU A pre post :
  supported oV oU -> asms = pre ++ A :: post -> (forall B i, In B pre -> In i f -> selects w B i = false) -> form_ok w asms valid st oV oU f ->
  (forall i, In i f -> selects w A i = true -> good rec (reductions asms (snd i))) ->
  (forall i, In i f -> selects w A i = false -> good rec (S (reductions asms (snd i)))) ->
  exists r, with_module w ord rec st A (ar_of oV oU) f = Ok r /\ rep oV oU r (fval st f).
Proof.
  intros SUP EA PRE (NE & UF & F) G1 G2.
  assert (C : exists comps, mapM (fun i => if selects w A i then reduce_integral w ord rec st A (ar_of oV oU) i else do r <- rec st [i]; Ok [r]) f = Ok (map (fun r => [r]) comps) /\
              Forall2 (rep oV oU) comps (map (ival st) f)).
  { clear NE UF. induction f as [|[m e] f IH]; [exists []; split; constructor|].
    destruct IH as (comps & E & H).
    - intros B i HB Hi. apply PRE; [assumption|right; assumption].
    - intros i Hi. apply F. right. assumption.
    - intros i Hi. apply G1. right. assumption.
    - intros i Hi. apply G2. right. assumption.
    - rewrite mapM_cons, E. pose proof (F (m, e) (or_introl eq_refl)) as I. cbn [fst snd] in I.
      destruct (selects w A (m, e)) eqn:S.
      + destruct (reduce_integral_ok rec st m e oV oU A pre post SUP EA) as (r & -> & R); [intros B HB; apply PRE; [assumption|left; reflexivity]|assumption|assumption|apply (G1 (m, e)); [left; reflexivity|assumption]|].
        cbn [bind]. exists (r :: comps). split; [reflexivity|]. constructor; assumption.
      + destruct (G2 (m, e) (or_introl eq_refl) S st m e oV oU) as (r & -> & R); [assumption|assumption|cbn [snd]; lia|].
        cbn [bind]. exists (r :: comps). split; [reflexivity|]. constructor; assumption. }
  destruct C as (comps & E & H). unfold with_module.
  rewrite (mapM_ext_in _ (fun i => if selects w A i then reduce_integral w ord rec st A (ar_of oV oU) i else do r <- rec st [i]; Ok [r])) by (intros i Hi; rewrite taken_selects; [reflexivity|apply UF|assumption]).
  rewrite E. cbn [bind].
  assert (Ec : concat (map (fun r => [r]) comps) = comps). { clear. induction comps as [|x l IH]; [reflexivity|]. cbn. rewrite IH. reflexivity. }
  rewrite Ec. destruct (tsum_rep oV oU comps (map (ival st) f)) as (r & -> & R).
  - intros ->. destruct f as [|i f']; [contradiction|]. inversion H.
  - assumption.
  - exists r. split; [reflexivity|]. eapply rep_ext; [|exact R]. intros v u. unfold form_value. rewrite map_map. reflexivity.
Qed.

Lemma dispatch_ok rec st f oV oU l : forall pre,
  supported oV oU -> form_ok w asms valid st oV oU f -> asms = pre ++ l ->
  (forall A, In A pre -> existsb (selects w A) f = false) ->
  (forall A i, In A asms -> existsb (selects w A) f = true -> In i f -> selects w A i = true -> good rec (reductions asms (snd i))) ->
  (forall A i, In A asms -> existsb (selects w A) f = true -> In i f -> selects w A i = false -> good rec (S (reductions asms (snd i)))) ->
  exists r, dispatch w ord dfa rec st l (ar_of oV oU) f = Ok r /\ rep oV oU r (fval st f).
Proof.
  induction l as [|A l IH]; intros pre SUP F EA PRE G1 G2; cbn [dispatch].
  - rewrite app_nil_r in EA. apply DFA; [assumption|assumption|]. intros i t Hi Ht. destruct F as (_ & _ & F). pose proof (F i Hi) as I.
    pose proof I as (I1 & _). destruct (I1 t Ht) as [U|[A R] ]; [assumption|]. exfalso.
    assert (existsb (selects w A) f = true); [|rewrite (PRE A) in H; [discriminate|rewrite <- EA; apply R] ].
    apply existsb_exists. exists i. split; [assumption|]. unfold selects. apply existsb_exists. exists t. split; [|apply R].
    eapply unique_cover; eassumption.
  - assert (HA : In A asms) by (rewrite EA; apply in_elt). destruct (existsb (selects w A) f) eqn:S.
    + apply (with_module_ok rec st f oV oU A pre l); try assumption; [|intros i Hi Si; eapply G1; eauto|intros i Hi Si; eapply G2; eauto].
      intros B i HB Hi. destruct (selects w B i) eqn:E; [|reflexivity]. rewrite <- (PRE B HB). symmetry. apply existsb_exists. eauto.
    + apply (IH (pre ++ [A])); try assumption.
      * rewrite EA, <- app_assoc. reflexivity.
      * intros B HB. apply in_app_or in HB. destruct HB as [HB|[<-|[] ] ]; auto.
Qed.

Lemma assemble_one n : good (xii_assemble w asms ord dfa n) n.
Proof.
  induction n as [|n IH]; intros st m e oV oU SUP I L; [lia|]. cbn [xii_assemble].
  assert (F : form_ok w asms valid st oV oU [(m, e)]).
  { split; [discriminate|]. split; [|intros i [<-|[] ]; assumption].
    split; [|intros i j [<-|[] ] [<-|[] ] _ _; reflexivity].
    intros i j t s n' V' U' [<-|[] ] [<-|[] ] Ht Hs K1 K2. cbn [snd] in Ht, Hs. pose proof I as (_ & _ & _ & _ & A0 & A1 & I5 & _).
    assert (N' : n' < 2) by eauto. destruct n' as [|[|n'] ]; [| |lia].
    - destruct oV as [V|]; [|destruct (A0 t V' Ht K1)]. destruct A0 as [(W & _ & H) _]. rewrite (H t V'), (H s U') by assumption. reflexivity.
    - destruct oU as [V|]; [|destruct (A1 t V' Ht K1)]. destruct A1 as [(W & _ & H) _]. rewrite (H t V'), (H s U') by assumption. reflexivity. }
  rewrite (arity_ok st oV oU) by assumption. cbn [bind].
  destruct (dispatch_ok (xii_assemble w asms ord dfa n) st [(m, e)] oV oU asms []) as (r & E & R); auto.
  - intros A [].
  - intros A i HA S [<-|[] ] Si st' m' e' oV' oU' SUP' I' L'. apply IH; try assumption. cbn [snd] in L'. lia.
  - intros A i HA S [<-|[] ] Si. cbn [existsb] in S. rewrite Si in S. discriminate.
  - exists r. split; [assumption|]. eapply rep_ext; [|exact R]. intros v u. unfold form_value. cbn [map qsum fst snd]. unfold q0. ring.
Qed.

Theorem assemble_correct fuel st f oV oU : supported oV oU -> form_ok w asms valid st oV oU f ->
  (forall i, In i f -> reductions asms (snd i) + 1 < fuel) ->
  exists r, xii_assemble w asms ord dfa fuel st f = Ok r /\ rep oV oU r (fval st f).
Proof.
  intros SUP F B. destruct fuel as [|n].
  { destruct F as [NE _]. destruct f as [|i f]; [contradiction|]. specialize (B i (or_introl eq_refl)). lia. }
  cbn [xii_assemble]. rewrite (arity_ok st oV oU) by assumption. cbn [bind].
  assert (G : forall i, In i f -> good (xii_assemble w asms ord dfa n) (S (reductions asms (snd i)))).
  { intros i Hi st' m' e' oV' oU' SUP' I' L'. apply assemble_one; try assumption. specialize (B i Hi). lia. }
  apply (dispatch_ok _ _ _ _ _ _ []); auto.
  - intros A [].
  - intros A i HA S Hi Si st' m' e' oV' oU' SUP' I' L'. apply (G i Hi); try assumption. lia.
Qed.
End Proofs.

(** ** The modules of xii_assembly.py *)

Definition all_attrs : list attr :=
  [ATrace; AOther 0; AAverage; AOther 1; AOther 2; AOther 3; AOther 4; AOther 5; AOther 6; ARestriction; AOther 7].

(** What each reduction needs from the mesh of the function ([m]) and the mesh
    of the integral ([mesh]); [d] is the value of the attribute. *)
Definition reduction_fits (w : world) (a : attr) (d m mesh : nat) : Prop :=
  match a with
  | ATrace => w_tdim w m = w_tdim w mesh + 1 /\ w_amesh w ATrace d = mesh
  | AOther 0 => w_tdim w m + 1 = w_tdim w mesh
  | AAverage => w_tdim w m = w_tdim w mesh + 2 /\ w_amesh w AAverage d = mesh
  | AOther 1 => w_tdim w m = w_tdim w mesh + 2 /\ w_amesh w (AOther 1) d = mesh
  | AOther 2 => w_tdim w mesh = 1
  | AOther 6 => w_tdim w m = w_tdim w mesh + 1
  | ARestriction => w_tdim w m = w_tdim w mesh /\ m <> mesh /\ w_amesh w ARestriction d = mesh
  | AOther 7 => w_tdim w m = w_tdim w mesh /\ m <> mesh /\ w_amesh w (AOther 7) d = mesh
  | _ => True
  end.
(** Flux averages are made of arguments only (flux_average_form.py:49-57). *)
Definition placed (w : world) (mesh : nat) (t : term) : Prop :=
  ((forall a, In a all_attrs -> getattr t a = None) /\ forall V, of_space t V -> w_mesh w V = mesh) \/
  (exists a d V, In a all_attrs /\ getattr t a = Some d /\ (forall b, In b all_attrs -> b <> a -> getattr t b = None) /\
     of_space t V /\ reduction_fits w a d (w_mesh w V) mesh /\ (a = AOther 1 -> exists n W, tkind t = KArg n W)).
(** Reductions that cannot meet in one integrand. *)
Definition separable (w : world) (mesh : nat) (e : expr) : Prop :=
  forall s t a b V, occurs s e -> occurs t e -> In a all_attrs -> In b all_attrs -> a <> b ->
    getattr s a <> None -> getattr t b <> None -> of_space t V ->
    (a = AAverage \/ a = AOther 1 -> w_tdim w (w_mesh w V) <> w_tdim w mesh + 2) /\ (a = ARestriction -> b <> AOther 7).
(** The space of the functions a terminal stands for: the argument of a flux
    average is of another space (flux_average_form.py:53-57). *)
Definition stands_in (w : world) (t : term) (V : nat) : Prop :=
  match getattr t (AOther 1) with Some d => V = w_domain w d | None => of_space t V end.
Definition function_of (w : world) (n : nat) (oV : option nat) (e : expr) : Prop :=
  match oV with
  | Some V => (exists W, has_space n e W) /\ forall t W, occurs t e -> tkind t = KArg n W -> stands_in w t V
  | None => no_space n e
  end.
Definition integrand_fine (w : world) (valid : expr -> Prop) (st : store) (mesh : nat) (oV oU : option nat) (e : expr) : Prop :=
  (forall t, occurs t e -> placed w mesh t) /\
  (forall t s, occurs t e -> occurs s e -> tkind t = tkind s -> t = s) /\
  separable w mesh e /\ valid e /\
  function_of w 0 oV e /\ function_of w 1 oU e /\ (forall t n V, occurs t e -> tkind t = KArg n V -> n < 2) /\
  (forall t id V k, occurs t e -> tkind t = KOther id -> coefficient id V k -> k < length st).
Definition form_fine (w : world) (valid : expr -> Prop) (st : store) (oV oU : option nat) (f : form) : Prop :=
  f <> [] /\ uniform f /\ forall i, In i f -> 0 < w_tdim w (w_imesh w (fst i)) /\ integrand_fine w valid st (w_imesh w (fst i)) oV oU (snd i).

(** The reduced spaces live on the mesh of the integral. *)
Definition reductions_ok (w : world) (sp : attr -> nat -> nat -> nat -> nat) : Prop :=
  forall a V mesh d, In a all_attrs -> w_mesh w (sp a V mesh d) = mesh.
(** The space of the functions that are reduced: flux averages bring their own
    (flux_average_assembly.py:27-29), all others are of the argument's space [V]. *)
Definition acts_on (w : world) (a : attr) (V d : nat) : nat := match a with AOther 1 => w_domain w d | _ => V end.
(** The matrices of the reductions in the integrand [e] over [mesh] are made
    without an exception and have the sizes of the spaces. *)
Definition matrices_fit (w : world) (sp : attr -> nat -> nat -> nat -> nat) (mt : attr -> nat -> nat -> nat -> nat -> res mat) (mesh : nat) (e : expr) : Prop :=
  forall t a d V, occurs t e -> In a all_attrs -> getattr t a = Some d -> of_space t V ->
    let V' := acts_on w a V d in
    exists T, mt a V' (sp a V' mesh d) mesh d = Ok T /\ nr T = w_dim w (sp a V' mesh d) /\ nc T = w_dim w V'.

Section Modules.
Variable w : world.
Variable valid : expr -> Prop.
Variable sp : attr -> nat -> nat -> nat -> nat.
Variable mt : attr -> nat -> nat -> nat -> nat -> res mat.
Hypothesis RED : reductions_ok w sp.
Notation mods := (modules w sp mt).

Lemma of_space_mesh t V : of_space t V -> t_mesh w t = Some (w_mesh w V).
Proof.
  unfold t_mesh. intros [(n & K)|(id & k & K & C)]; rewrite K; [reflexivity|].
  unfold fun_space. rewrite (proj1 (coefficient_of _ _ _) C). reflexivity.
Qed.
Lemma t_mesh_space t m : t_mesh w t = Some m -> exists V, of_space t V /\ w_mesh w V = m.
Proof.
  unfold t_mesh. destruct (tkind t) as [n V|id] eqn:K.
  - intros E. injection E as <-. exists V. split; [left; eauto|reflexivity].
  - unfold fun_space. destruct (Cantor.of_nat id) as [ [|V] k] eqn:C; cbn; [discriminate|]. intros E. injection E as <-.
    exists V. split; [|reflexivity]. right. exists id, k. split; [assumption|]. apply coefficient_of. assumption.
Qed.

Lemma space_of_ok t V : of_space t V -> space_of t = Ok V.
Proof.
  unfold space_of. intros [(n & K)|(id & k & K & C)]; rewrite K; [reflexivity|].
  unfold fun_space. rewrite (proj1 (coefficient_of _ _ _) C). reflexivity.
Qed.

Lemma modules_attrs : map asm_attr mods = all_attrs.
Proof. reflexivity. Qed.

Lemma plain_untouched mesh t : (0 < w_tdim w mesh \/ exists V, of_space t V) -> (forall a, In a all_attrs -> getattr t a = None) -> (forall V, of_space t V -> w_mesh w V = mesh) ->
  untouched mods mesh t.
Proof.
  intros POS NO LIV.
  assert (HN : forall a, In a all_attrs -> hasattr t a = false) by (intros a Ha; unfold hasattr; rewrite NO by assumption; reflexivity).
  assert (TD : t_tdim w t = m_tdim w mesh \/ (t_tdim w t = (-1)%Z /\ (0 < m_tdim w mesh)%Z)).
  { destruct POS as [P|(V & HV)].
    2:{ left. unfold t_tdim. rewrite (of_space_mesh t V HV), (LIV V HV). reflexivity. }
    assert ((0 < m_tdim w mesh)%Z) by (unfold m_tdim; lia).
    unfold t_tdim. destruct (t_mesh w t) as [m|] eqn:E; [left|right; split; [reflexivity|assumption] ]. apply t_mesh_space in E. destruct E as (V & HV & <-).
    rewrite (LIV V HV). reflexivity. }
  assert (OM : other_mesh w mesh t = false).
  { unfold other_mesh. destruct (t_mesh w t) as [m|] eqn:E; [|reflexivity]. apply t_mesh_space in E. destruct E as (V & HV & <-).
    rewrite (LIV V HV), Nat.eqb_refl. reflexivity. }
  assert (P : (0 <= m_tdim w mesh)%Z) by (unfold m_tdim; lia).
  intros A HA. cbn in HA.
  repeat match goal with H : _ \/ _ |- _ => match type of H with _ = _ \/ _ => destruct H as [<-|H] end end; [..|contradiction];
  cbn [asm_attr asm_sel asm_filter trace_module transpose_trace_module average_module flux_average_module patch_average_module attr_module surface_mean_module restriction_module injection_module];
  rewrite ?HN by (cbn; tauto); rewrite ?andb_false_r; cbn [andb];
  repeat split; try reflexivity; try assumption;
  repeat match goal with
  | |- (_ =? _)%Z = false => apply Z.eqb_neq; lia
  | |- (_ <? _)%Z = false => apply Z.ltb_ge; lia
  end.
Qed.

Lemma modules_ok : assemblers_ok mods.
Proof.
  split; [rewrite modules_attrs; unfold all_attrs; repeat (constructor; [cbn; intuition discriminate|]); constructor|].
  assert (SPC : forall A, In A mods -> In (asm_attr A) all_attrs /\ asm_space A = sp (asm_attr A) /\ asm_matrix A = mt (asm_attr A)).
  { intros A HA. split; [rewrite <- modules_attrs; apply in_map; assumption|]. cbn in HA.
    repeat match goal with H : _ \/ _ |- _ => destruct H as [<-|H] end; [..|contradiction]; split; reflexivity. }
  split.
  - intros A V mesh d n HA. destruct (SPC A HA) as (H1 & -> & _). apply plain_untouched.
    + right. exists (sp (asm_attr A) V mesh d). left. exists n. reflexivity.
    + intros a _. destruct a; reflexivity.
    + intros W [(n' & E)|(id & k & E & _)]; [injection E as _ <-|discriminate]. apply (RED (asm_attr A) V mesh d H1).
  - intros A V mesh d id k HA C. destruct (SPC A HA) as (H1 & E1 & _). rewrite E1 in C. apply plain_untouched.
    + right. exists (sp (asm_attr A) V mesh d). right. exists id, k. split; [reflexivity|assumption].
    + intros a _. destruct a; reflexivity.
    + intros W [(n' & E)|(id' & k' & E & C')]; [discriminate|]. injection E as <-.
      apply coefficient_of in C. apply coefficient_of in C'. rewrite C in C'. injection C' as <- _. apply (RED (asm_attr A) V mesh d H1).
Qed.

(** The assemblers before the last two, whose selection needs no attribute in one case. *)
Lemma before_attrs B A : before mods B A -> In (asm_attr B) all_attrs /\ In (asm_attr A) all_attrs /\ asm_attr B <> asm_attr A /\
  (B = surface_mean_module w sp mt -> A = restriction_module w sp mt \/ A = injection_module w sp mt) /\
  (B = restriction_module w sp mt -> A = injection_module w sp mt) /\ B <> injection_module w sp mt.
Proof.
  intros (l1 & l2 & E & H).
  assert (IB : In B mods) by (rewrite E; apply in_or_app; left; assumption). assert (IA : In A mods) by (rewrite E; apply in_elt).
  split; [rewrite <- modules_attrs; apply in_map; assumption|]. split; [rewrite <- modules_attrs; apply in_map; assumption|].
  repeat (destruct l1 as [|? l1]; [cbn in E; injection E as <- <-|cbn in E; injection E as <- E]); 
  try (exfalso; apply (f_equal (@length _)) in E; rewrite app_length in E; cbn in E; lia);
  cbn in H; repeat match goal with H : _ \/ _ |- _ => destruct H as [<-|H] end; try contradiction;
  (split; [discriminate|]); (split; [intros C; apply (f_equal asm_attr) in C; try discriminate C; auto|]);
  (split; [intros C; apply (f_equal asm_attr) in C; try discriminate C; auto|]); intros C; apply (f_equal asm_attr) in C; discriminate C.
Qed.

Lemma sel_needs B mesh t : In B mods -> B <> surface_mean_module w sp mt -> hasattr t (asm_attr B) = false -> asm_sel B mesh t = false.
Proof.
  intros HB N. cbn in HB. repeat match goal with H : _ \/ _ |- _ => destruct H as [<-|H] end; try contradiction; cbn; intros ->; apply andb_false_r || reflexivity.
Qed.

Lemma acts_own a V d : a <> AOther 1 -> acts_on w a V d = V.
Proof. destruct a as [| | |[|[|n] ] ]; intros N; try reflexivity. congruence. Qed.

Lemma placed_term_ok mesh t : 0 < w_tdim w mesh -> matrices_fit w sp mt mesh (Leaf t) -> placed w mesh t -> term_ok w mods mesh t.
Proof.
  intros POS MF [ [NO LIV]|(a & d & V & Ha & D & OTH & HV & FIT & FLX)]; [left; apply plain_untouched; auto|right].
  assert (HN : forall b, In b all_attrs -> b <> a -> hasattr t b = false) by (intros b Hb Nb; unfold hasattr; rewrite OTH by assumption; reflexivity).
  assert (HH : hasattr t a = true) by (unfold hasattr; rewrite D; reflexivity).
  assert (TD : t_tdim w t = Z.of_nat (w_tdim w (w_mesh w V))) by (unfold t_tdim; rewrite (of_space_mesh t V HV); reflexivity).
  assert (OM : w_mesh w V <> mesh -> other_mesh w mesh t = true).
  { intros N. unfold other_mesh. rewrite (of_space_mesh t V HV). apply negb_true_iff, Nat.eqb_neq. assumption. }
  assert (AM : forall m, w_amesh w a d = m -> has_mesh w a m t = true) by (intros m <-; unfold has_mesh; rewrite D; apply Nat.eqb_refl).
  enough (H : exists A, In A mods /\ asm_attr A = a /\ asm_sel A mesh t = true /\ asm_filter A mesh t = true /\ asm_compat A mesh t = Ok true /\
            (A = restriction_module w sp mt \/ A = injection_module w sp mt -> t_tdim w t = m_tdim w mesh) /\
            asm_domain A t d = (if attr_eq_dec a (AOther 1) then Ok (w_domain w d) else space_of t) /\ asm_space A = sp a /\ asm_matrix A = mt a).
  { destruct H as (A & HA & EA & S1 & S2 & S3 & S4 & S5 & S6 & S7).
    destruct (MF t a d V (occurs_leaf t) Ha D HV) as (T & T1 & T2 & T3).
    exists A. rewrite <- EA in HN, HH, D. repeat split; try assumption.
    - exists d, (acts_on w a V d), T. rewrite S6, S7. split; [assumption|]. destruct (attr_eq_dec a (AOther 1)) as [E1|N1].
      + rewrite E1 in *. split; [assumption|]. split; [left; auto|]. auto.
      + split; [rewrite S5, (space_of_ok t V HV); f_equal; destruct a as [| | |[|[|?] ] ]; reflexivity || congruence|].
        split; [right; rewrite (acts_own a V d N1); assumption|]. auto.
    - intros B HB NB. apply HN; [|assumption]. rewrite <- modules_attrs. apply in_map. assumption.
    - intros B BF. destruct (before_attrs B A BF) as (H1 & H2 & H3 & H4 & H5).
      assert (IB : In B mods) by (destruct BF as (l1 & l2 & -> & H); apply in_or_app; left; assumption).
      assert (SM : B = surface_mean_module w sp mt \/ B <> surface_mean_module w sp mt).
      { destruct (attr_eq_dec (asm_attr B) (AOther 6)) as [E|N]; [left|right; intros ->; apply N; reflexivity].
        apply (NoDup_map_inj asm_attr mods); [apply modules_ok|unfold modules; cbn [In]; tauto|assumption|assumption]. }
      destruct SM as [->|N]; [|apply sel_needs; [assumption|assumption|apply HN; assumption] ].
      cbn [asm_sel surface_mean_module]. apply Z.eqb_neq. rewrite S4 by auto. lia. }
  unfold all_attrs in Ha. cbn in Ha. unfold m_tdim.
  repeat match goal with H : _ \/ _ |- _ => destruct H as [<-|H] end; try contradiction; cbn [reduction_fits] in FIT;
  [ exists (trace_module w sp mt) | exists (transpose_trace_module w sp mt) | exists (average_module w sp mt) | exists (flux_average_module w sp mt)
  | exists (patch_average_module w sp mt) | exists (attr_module sp mt (AOther 3)) | exists (attr_module sp mt (AOther 4)) | exists (attr_module sp mt (AOther 5))
  | exists (surface_mean_module w sp mt) | exists (restriction_module w sp mt) | exists (injection_module w sp mt) ];
  (split; [unfold modules; cbn [In]; tauto|]); (split; [reflexivity|]);
  cbn [asm_sel asm_filter asm_compat trace_module transpose_trace_module average_module flux_average_module patch_average_module attr_module surface_mean_module restriction_module injection_module];
  unfold assert_mesh, assert_attr, m_tdim; rewrite ?HH; rewrite ?(AM mesh) by tauto; rewrite ?OM by tauto; rewrite ?andb_true_r; rewrite ?TD;
  repeat split; try reflexivity;
  try (apply Z.eqb_eq; lia); try (apply Z.ltb_lt; lia);
  try (intros [C|C]; apply (f_equal asm_attr) in C; discriminate C); try (intros _; lia).
Qed.

Lemma stands_home mesh t V : placed w mesh t -> stands_in w t V -> home mods t V.
Proof.
  unfold stands_in, home. intros PL H. destruct (find (fun A => hasattr t (asm_attr A)) mods) as [A|] eqn:F.
  - apply find_some in F. destruct F as [HA HH].
    assert (IA : In (asm_attr A) all_attrs) by (rewrite <- modules_attrs; apply in_map; assumption).
    unfold hasattr in HH. destruct (getattr t (asm_attr A)) as [d|] eqn:D; [|discriminate]. exists d. split; [reflexivity|].
    destruct PL as [ [NO _]|(a & d' & V' & Ha & D' & OTH & _)]; [rewrite (NO _ IA) in D; discriminate|].
    assert (EA : asm_attr A = a) by (destruct (attr_eq_dec (asm_attr A) a) as [E|N]; [assumption|]; rewrite (OTH _ IA N) in D; discriminate).
    cbn in HA. repeat match goal with H : _ = A \/ _ |- _ => destruct H as [<-|H] end; try contradiction; cbn [asm_attr asm_domain flux_average_module trace_module transpose_trace_module average_module patch_average_module attr_module surface_mean_module restriction_module injection_module] in *;
    try (rewrite (OTH (AOther 1)) in H by (cbn; intuition congruence); apply space_of_ok; assumption).
    rewrite D in H. subst V. reflexivity.
  - assert (N : getattr t (AOther 1) = None).
    { eapply find_none in F; [|unfold modules; cbn [In]; right; right; right; left; reflexivity]. cbn beta in F.
      change (asm_attr (flux_average_module w sp mt)) with (AOther 1) in F. unfold hasattr in F. destruct (getattr t (AOther 1)); congruence. }
    rewrite N in H. assumption.
Qed.
Lemma function_argument mesh n oV e : (forall t, occurs t e -> placed w mesh t) -> function_of w n oV e -> argument mods n oV e.
Proof.
  intros PL. destruct oV as [V|]; cbn; [|auto]. intros [HW H]. split; [assumption|]. intros t W Ht K. apply (stands_home mesh); eauto.
Qed.

Lemma fine_ok st mesh oV oU e : 0 < w_tdim w mesh -> matrices_fit w sp mt mesh e -> integrand_fine w valid st mesh oV oU e -> integrand_ok w mods valid st mesh oV oU e.
Proof.
  intros POS MF (F1 & F2 & SE & F3 & F4 & F5 & F6).
  split; [intros t Ht; apply placed_term_ok; auto; intros s a d V Hs; inversion Hs; subst; apply MF; assumption|]. split; [assumption|].
  split; [|split; [assumption|split; [apply (function_argument mesh); assumption|split; [apply (function_argument mesh); assumption|assumption] ] ] ].
  intros t s A B Ht Hs RA RB BF. destruct (before_attrs B A BF) as (IB & IA & NE & SM & RE & NI).
  pose proof RA as (_ & HA & _ & _ & _ & _ & OA & _). pose proof RB as (InB & HB & _).
  assert (HBt : hasattr t (asm_attr B) = false) by (apply OA; assumption).
  assert (GS : getattr s (asm_attr B) <> None) by (unfold hasattr in HB; destruct (getattr s (asm_attr B)); congruence).
  assert (GT : getattr t (asm_attr A) <> None) by (unfold hasattr in HA; destruct (getattr t (asm_attr A)); congruence).
  assert (EV : exists V, of_space t V).
  { destruct (F1 t Ht) as [ [NO _]|(a & d & V & _ & _ & _ & HV & _)]; [|eauto]. rewrite (NO (asm_attr A) IA) in GT. congruence. }
  destruct EV as (V & HV).
  destruct (SE s t (asm_attr B) (asm_attr A) V Hs Ht IB IA NE GS GT HV) as [SE1 SE2].
  assert (TD : t_tdim w t = Z.of_nat (w_tdim w (w_mesh w V))) by (unfold t_tdim; rewrite (of_space_mesh t V HV); reflexivity).
  cbn in InB. repeat match goal with H : _ = B \/ _ |- _ => destruct H as [<-|H] end; try contradiction;
  cbn [asm_attr asm_sel asm_filter asm_compat trace_module transpose_trace_module average_module flux_average_module patch_average_module attr_module surface_mean_module restriction_module injection_module] in *;
  rewrite ?HBt; auto.
  - left. apply Z.eqb_neq. unfold m_tdim. specialize (SE1 (or_introl eq_refl)). lia.
  - left. apply Z.eqb_neq. unfold m_tdim. specialize (SE1 (or_intror eq_refl)). lia.
  - exfalso. apply SE2; [reflexivity|]. rewrite RE by reflexivity. reflexivity.
Qed.

Lemma form_fine_ok st oV oU f : (forall i, In i f -> matrices_fit w sp mt (w_imesh w (fst i)) (snd i)) -> form_fine w valid st oV oU f -> form_ok w mods valid st oV oU f.
Proof. intros MF (NE & UF & F). split; [assumption|]. split; [assumption|]. intros i Hi. destruct (F i Hi). apply fine_ok; auto. Qed.
End Modules.
