(** Proofs for ReuseModel.v. *)
From Coq Require Import Cantor Permutation.
From Verif Require Import Base BaseProofs Mat MatProofs ConvertModel UflModel UflProofs BlockFormModel BlockFormProofs BlockFormAddProofs FillModel FillProofs ReducedModel ReducedProofs ReuseModel.
Local Open Scope nat_scope.
Local Close Scope Q_scope.
Local Close Scope Qc_scope.

(** ** Specification vocabulary *)

(** A coefficient of the form is Function number [k]. *)
Definition mentions (k : nat) (a : form) : Prop :=
  exists i t id V, In i a /\ occurs t (snd i) /\ tkind t = KOther id /\ coefficient id V k.
(** The trial function is not under a flux average (flux_average_form.py:49-57
    accepts arguments only). *)
Definition no_flux (a : form) : Prop :=
  forall i t V, In i a -> occurs t (snd i) -> tkind t = KArg 1 V -> getattr t (AOther 1) = None.
(** Every Function refers to a vector *)
Definition sound (h : heap) : Prop := forall a, In a (h_addr h) -> a < length (h_vecs h).

(** ** The substitution *)
Lemma plug_leaves f e : plug f e = map_leaves (plug_term f) e.
Proof.
  induction e as [t|ty l IH] using expr_ind2; cbn [plug map_leaves]; [reflexivity|]. f_equal.
  apply map_ext_in. rewrite Forall_forall in IH. exact IH.
Qed.
Lemma plug_occurs f e s : occurs s (plug f e) -> exists t, occurs t e /\ s = plug_term f t.
Proof. rewrite plug_leaves. apply map_leaves_occurs. Qed.
Lemma occurs_plug f e t : occurs t e -> occurs (plug_term f t) (plug f e).
Proof. rewrite plug_leaves. apply occurs_map_leaves. Qed.

Lemma plug_attr f t a : getattr (plug_term f t) a = getattr t a.
Proof. unfold plug_term. destruct (tkind t) as [ [|[|n] ] V|id]; [reflexivity|destruct a; reflexivity|reflexivity|reflexivity]. Qed.
Lemma plug_hasattr f t a : hasattr (plug_term f t) a = hasattr t a.
Proof. unfold hasattr. rewrite plug_attr. reflexivity. Qed.

Lemma plug_kind f t : tkind (plug_term f t) = match tkind t with KArg 1 V => KOther (fun_id V f) | k => k end.
Proof. unfold plug_term. destruct (tkind t) as [ [|[|n] ] V|id] eqn:K; cbn; congruence. Qed.

Lemma fun_id_coefficient V f W k : coefficient (fun_id V f) W k <-> W = V /\ k = f.
Proof.
  unfold coefficient, fun_id. split.
  - intros E. apply (f_equal Cantor.of_nat) in E. rewrite !Cantor.cancel_of_to in E. injection E as -> ->. auto.
  - intros [-> ->]. reflexivity.
Qed.

Lemma plug_space f t V : of_space (plug_term f t) V <-> of_space t V.
Proof.
  unfold of_space. rewrite plug_kind. destruct (tkind t) as [ [|[|n] ] W|id] eqn:K; try reflexivity. split.
  - intros [(m & E)|(id & k & E & C)]; [discriminate|]. injection E as <-. apply fun_id_coefficient in C as [-> ->]. left. eauto.
  - intros [(m & E)|(id & k & E & C)]; [|discriminate]. injection E as _ <-. right. exists (fun_id W f), f. split; [reflexivity|]. apply fun_id_coefficient. auto.
Qed.

(** Number of reductions *)
Lemma traverse_plug f e : traverse (plug f e) = map (plug f) (traverse e).
Proof.
  induction e as [t|ty l IH] using expr_ind2; cbn [plug traverse map]; [reflexivity|].
  rewrite map_app. cbn [map plug]. f_equal.
  induction IH as [|x l' H _ IH']; cbn [map]; [reflexivity|]. rewrite map_app, H, IH'. reflexivity.
Qed.
Lemma terminals_plug f e : terminals (plug f e) = map (plug_term f) (terminals e).
Proof.
  unfold terminals. rewrite traverse_plug. induction (traverse e) as [|x l IH]; cbn [map flat_map]; [reflexivity|].
  rewrite map_app, IH. destruct x; reflexivity.
Qed.
Lemma reductions_plug asms f e : reductions asms (plug f e) = reductions asms e.
Proof.
  unfold reductions. rewrite terminals_plug. induction (terminals e) as [|t l IH]; cbn [map filter]; [reflexivity|].
  assert (E : has_reduction asms (plug_term f t) = has_reduction asms t).
  { unfold has_reduction. clear IH. induction asms as [|A m IHm]; cbn [existsb]; [reflexivity|]. rewrite plug_hasattr, IHm. reflexivity. }
  rewrite E. destruct (has_reduction asms t); cbn [length]; rewrite IH; reflexivity.
Qed.

(** ** The plugged form is as the assemblers want it *)
Lemma plug_alike f a b : (forall t V, occurs t a -> tkind t <> KOther (fun_id V f)) -> (forall t V, occurs t b -> tkind t <> KOther (fun_id V f)) ->
  alike (plug f a) (plug f b) -> alike a b.
Proof.
  revert b. induction a as [t|ty l IH] using expr_ind2; intros b Fa Fb H; destruct b as [s|ty' l']; cbn [plug] in H;
    inversion H as [t1 s1 K|ty1 m m' F]; subst.
  - constructor. rewrite !plug_kind in K.
    assert (Ft := fun V => Fa t V (occurs_leaf t)). assert (Fs := fun V => Fb s V (occurs_leaf s)).
    destruct (tkind t) as [ [|[|n] ] V|id], (tkind s) as [ [|[|n'] ] V'|id']; try congruence; try discriminate K.
    assert (E : fun_id V f = fun_id V' f) by congruence. apply (f_equal Cantor.of_nat) in E. unfold fun_id in E.
      rewrite !Cantor.cancel_of_to in E. congruence.
  - constructor. clear H. revert l' Fb F. induction IH as [|x l Hx _ IH']; intros [|y l'] Fb F; cbn [map] in F;
      inversion F as [|x1 y1 m m' A F']; subst; constructor.
    + apply Hx; [| |exact A]; intros t V Ht; [apply Fa|apply Fb]; (eapply occurs_node; [left; reflexivity|exact Ht]).
    + apply IH'; [| |exact F'].
      * intros t V Ht. apply Fa. inversion Ht as [|f0 o z Hz Ht']; subst. eapply occurs_node; [right; exact Hz|exact Ht'].
      * intros t V Ht. apply Fb. inversion Ht as [|f0 o z Hz Ht']; subst. eapply occurs_node; [right; exact Hz|exact Ht'].
Qed.

Section Fine.
Variable w : world.
Variable valid : UflModel.expr -> Prop.

Lemma form_fine_store st st' oV oU a : length st <= length st' -> form_fine w valid st oV oU a -> form_fine w valid st' oV oU a.
Proof.
  intros L (NE & UN & F). split; [assumption|]. split; [assumption|]. intros i Hi. destruct (F i Hi) as (D & A1 & A2 & A3 & A4 & A5 & A6 & A7 & A8).
  split; [assumption|]. repeat (split; [assumption|]). intros t id V k Ht K C. specialize (A8 t id V k Ht K C). lia.
Qed.

Lemma form_fine_plug st V U a f : form_fine w valid st (Some V) (Some U) a -> f < length st -> ~ mentions f a -> no_flux a ->
  (forall i, In i a -> valid (plug f (snd i))) -> form_fine w valid st (Some V) None (plug_form f a).
Proof.
  intros (NE & (UN & TA) & F) Lf FR NF VA.
  assert (FR' : forall i t W, In i a -> occurs t (snd i) -> tkind t <> KOther (fun_id W f)).
  { intros i t W Hi Ht K. apply FR. exists i, t, (fun_id W f), W. repeat (split; [assumption|]). apply fun_id_coefficient. auto. }
  split; [destruct a; [congruence|discriminate]|]. split; [split|].
  - intros i j t s n V1 V2 Hi Hj Ht Hs Kt Ks. unfold plug_form in Hi, Hj. apply in_map_iff in Hi as (i' & <- & Hi). apply in_map_iff in Hj as (j' & <- & Hj).
    cbn [snd] in Ht, Hs. apply plug_occurs in Ht as (t' & Ht & ->). apply plug_occurs in Hs as (s' & Hs & ->).
    rewrite plug_kind in Kt, Ks. destruct (tkind t') as [ [|[|m] ] W|id] eqn:Et; try discriminate;
    destruct (tkind s') as [ [|[|m'] ] W'|id'] eqn:Es; try discriminate; apply (UN i' j' t' s' n V1 V2); first [assumption | congruence].
  - intros i j Hi Hj E A. unfold plug_form in Hi, Hj. apply in_map_iff in Hi as (i' & <- & Hi). apply in_map_iff in Hj as (j' & <- & Hj).
    cbn [fst snd] in E, A. rewrite (TA i' j'); try assumption; [reflexivity|]. eapply plug_alike; [| |exact A]; intros t W Ht; [exact (FR' i' t W Hi Ht)|exact (FR' j' t W Hj Ht)].
  - intros i Hi. unfold plug_form in Hi. apply in_map_iff in Hi as (i' & <- & Hi). cbn [fst snd].
    destruct (F i' Hi) as (D & A1 & A2 & A3 & A4 & A5 & A6 & A7 & A8). split; [assumption|].
    split; [|split; [|split; [|split; [|split; [|split; [|split] ] ] ] ] ].
    + intros s Hs. apply plug_occurs in Hs as (t & Ht & ->). destruct (A1 t Ht) as [ [N M]|(b & d & W & Ib & G & O & S & R & X)].
      * left. split; [intros b Ib; rewrite plug_attr; auto|]. intros W HW. apply M. apply plug_space in HW. exact HW.
      * right. exists b, d, W. split; [assumption|]. split; [rewrite plug_attr; assumption|]. split; [intros; rewrite plug_attr; auto|].
        split; [apply plug_space; assumption|]. split; [assumption|]. intros ->. destruct (X eq_refl) as (n & W' & K). rewrite plug_kind, K.
        destruct n as [|[|n] ]; eauto. rewrite (NF i' t W' Hi Ht K) in G. discriminate.
    + intros t s Ht Hs K. apply plug_occurs in Ht as (t' & Ht & ->). apply plug_occurs in Hs as (s' & Hs & ->).
      rewrite (A2 t' s' Ht Hs); [reflexivity|]. rewrite !plug_kind in K.
      assert (Ft := fun W => FR' i' t' W Hi Ht). assert (Fs := fun W => FR' i' s' W Hi Hs).
      destruct (tkind t') as [ [|[|n] ] V1|id], (tkind s') as [ [|[|n'] ] V2|id']; try congruence.
      assert (E : fun_id V1 f = fun_id V2 f) by congruence. apply (f_equal Cantor.of_nat) in E. unfold fun_id in E.
        rewrite !Cantor.cancel_of_to in E. congruence.
    + intros s t b c W Hs Ht Ib Ic N Gb Gc SW. apply plug_occurs in Ht as (t' & Ht & ->). apply plug_occurs in Hs as (s' & Hs & ->).
      rewrite plug_attr in Gb, Gc. apply plug_space in SW. eapply (A3 s' t' b c); eassumption.
    + apply VA. assumption.
    + destruct A5 as ((W & (t & Ht & K) & H) & S). split.
      * exists W. split.
        -- exists (plug_term f t). split; [apply occurs_plug; assumption|]. rewrite plug_kind, K. reflexivity.
        -- intros s W' Hs Ks. apply plug_occurs in Hs as (s' & Hs & ->). rewrite plug_kind in Ks.
           destruct (tkind s') as [ [|[|n] ] V1|id] eqn:Es; try discriminate. apply (H s'); [assumption|congruence].
      * intros s W' Hs Ks. apply plug_occurs in Hs as (s' & Hs & ->). rewrite plug_kind in Ks.
        destruct (tkind s') as [ [|[|n] ] V1|id] eqn:Es; try discriminate.
        assert (Es' : tkind s' = KArg 0 W') by congruence. specialize (S s' W' Hs Es'). unfold stands_in in *. rewrite plug_attr.
        destruct (getattr s' (AOther 1)); [assumption|]. apply plug_space. assumption.
    + intros s W Hs K. apply plug_occurs in Hs as (s' & Hs & ->). rewrite plug_kind in K. destruct (tkind s') as [ [|[|n] ] V1|id]; discriminate.
    + intros s n W Hs K. apply plug_occurs in Hs as (s' & Hs & ->). rewrite plug_kind in K.
      destruct (tkind s') as [ [|[|m] ] V1|id] eqn:Es; try discriminate; apply (A7 s' n W Hs); congruence.
    + intros s id W k Hs K C. apply plug_occurs in Hs as (s' & Hs & ->). rewrite plug_kind in K.
      destruct (tkind s') as [ [|[|m] ] V1|id'] eqn:Es; try discriminate.
      * injection K as <-. apply fun_id_coefficient in C as [_ ->]. assumption.
      * injection K as ->. eapply A8; eassumption.
Qed.

Variable sp : attr -> nat -> nat -> nat -> nat.
Variable mt : attr -> nat -> nat -> nat -> nat -> res mat.
Notation mods := (modules w sp mt).

Lemma matrices_fit_plug mesh e f : matrices_fit w sp mt mesh e -> matrices_fit w sp mt mesh (plug f e).
Proof.
  intros M s b d V Hs Ib G S. apply plug_occurs in Hs as (t & Ht & ->). rewrite plug_attr in G. apply plug_space in S. eapply M; eassumption.
Qed.

(** ** Values *)
Lemma modules_domain A t s d : In A mods -> (forall V, of_space t V <-> of_space s V) -> asm_domain A t d = asm_domain A s d.
Proof.
  intros HA SP.
  assert (O : own_space t d = own_space s d).
  { unfold own_space, space_of. destruct (tkind t) as [n V|id] eqn:Kt.
    - assert (HV : of_space s V) by (apply SP; left; eauto). destruct HV as [(m & E)|(id & k & E & C)]; rewrite E; [reflexivity|].
      unfold fun_space. rewrite (proj1 (coefficient_of _ _ _) C). reflexivity.
    - destruct (tkind s) as [n V|id'] eqn:Ks.
      + assert (HV : of_space t V) by (apply SP; left; eauto). destruct HV as [(m & E)|(id1 & k & E & C)]; [congruence|].
        assert (id1 = id) by congruence. subst. unfold fun_space. rewrite (proj1 (coefficient_of _ _ _) C). reflexivity.
      + assert (Q : forall i V, fun_space i = Some V <-> exists k, coefficient i V k).
        { intros i V. unfold fun_space. destruct (Cantor.of_nat i) as [ [|x] k] eqn:E; cbn [fst].
          - split; [discriminate|]. intros (k' & C). apply coefficient_of in C. rewrite E in C. discriminate.
          - split.
            + intros X. injection X as ->. exists k. apply coefficient_of. assumption.
            + intros (k' & C). apply coefficient_of in C. rewrite E in C. congruence. }
        assert (W : forall V, fun_space id = Some V <-> fun_space id' = Some V).
        { intros V. rewrite !Q. split; intros (k & C).
          - assert (HV : of_space s V) by (apply SP; right; eauto). destruct HV as [(m & E)|(i1 & k1 & E & C1)]; [congruence|]. exists k1. congruence.
          - assert (HV : of_space t V) by (apply SP; right; eauto). destruct HV as [(m & E)|(i1 & k1 & E & C1)]; [congruence|]. exists k1. congruence. }
        destruct (fun_space id) as [V|] eqn:E1.
        * rewrite (proj1 (W V) eq_refl). reflexivity.
        * destruct (fun_space id') as [V|] eqn:E2; [|reflexivity]. discriminate (proj2 (W V) eq_refl). }
  repeat (destruct HA as [<-|HA]; [first [exact O | reflexivity]|]). destruct HA.
Qed.

(** What is read from the stores *)
Lemma plain_plug st v u f t : (forall n W, tkind t = KArg n W -> n < 2) -> plain_value st v u (plug_term f t) = plain_value st v (nth f st []) t.
Proof.
  intros B. unfold plain_value. rewrite plug_kind. destruct (tkind t) as [ [|[|n] ] W|id] eqn:K; try reflexivity.
  - unfold fun_id. rewrite Cantor.cancel_of_to. reflexivity.
  - specialize (B _ _ eq_refl). lia.
Qed.
Lemma value_plug mesh st v u f t : (forall n W, tkind t = KArg n W -> n < 2) ->
  value mods mesh st v u (plug_term f t) = value mods mesh st v (nth f st []) t.
Proof.
  intros B. unfold value. rewrite plain_plug by assumption.
  assert (E : find (fun A => hasattr (plug_term f t) (asm_attr A)) mods = find (fun A => hasattr t (asm_attr A)) mods).
  { generalize mods. intros ms. induction ms as [|A l IH]; cbn [find]; [reflexivity|]. rewrite plug_hasattr, IH. reflexivity. }
  rewrite E. destruct (find (fun A => hasattr t (asm_attr A)) mods) as [A|] eqn:FA; [|reflexivity].
  destruct (plain_value st v (nth f st []) t); try reflexivity. rewrite plug_attr.
  destruct (getattr t (asm_attr A)); [|reflexivity]. apply find_some in FA as [HA _].
  rewrite (modules_domain A (plug_term f t) t) by (auto; intros; apply plug_space). reflexivity.
Qed.
Lemma evaluate_plug mesh st v u f e : (forall t n W, occurs t e -> tkind t = KArg n W -> n < 2) ->
  evaluate mods mesh st v u (plug f e) = evaluate mods mesh st v (nth f st []) e.
Proof.
  induction e as [t|ty l IH] using expr_ind2; intros B; cbn [plug evaluate].
  - apply value_plug. intros n W. apply B. constructor.
  - f_equal. rewrite map_map. apply map_ext_in. intros x Hx. rewrite Forall_forall in IH. apply IH; [assumption|].
    intros t n W Ht. apply B. eapply occurs_node; eassumption.
Qed.

Lemma evaluate_store mesh st st' v u e :
  (forall t id V k, occurs t e -> tkind t = KOther id -> coefficient id V k -> nth k st [] = nth k st' []) ->
  evaluate mods mesh st v u e = evaluate mods mesh st' v u e.
Proof.
  induction e as [t|ty l IH] using expr_ind2; intros H; cbn [evaluate].
  - assert (E : plain_value st v u t = plain_value st' v u t).
    { unfold plain_value. destruct (tkind t) as [n W|id] eqn:K; [reflexivity|].
      destruct (Cantor.of_nat id) as [ [|W] k] eqn:C; [reflexivity|]. rewrite (H t id W k); [reflexivity|constructor|assumption|]. apply coefficient_of. assumption. }
    unfold value. rewrite E. reflexivity.
  - f_equal. apply map_ext_in. intros x Hx. rewrite Forall_forall in IH. apply IH; [assumption|].
    intros t id W k Ht. apply H. eapply occurs_node; eassumption.
Qed.
End Fine.

(** ** Vectors that give the same products are the same *)
Lemma vdot_ext n x y : length x = n -> length y = n -> (forall v, length v = n -> vdot v x = vdot v y) -> x = y.
Proof.
  intros Lx Ly H. apply vec_ext; [congruence|]. intros i Hi.
  assert (E : forall z, length z = n -> vdot (vtab n (fun j => if j =? i then q1 else q0)) z = vnth z i).
  { intros z Lz. unfold vdot. rewrite vtab_length.
    rewrite (sumn_ext _ _ (fun j => if j =? i then vnth z i else q0)).
    - rewrite (sumn_single n i); [rewrite Nat.eqb_refl; reflexivity|lia|]. intros j _ N. apply Nat.eqb_neq in N. rewrite N. reflexivity.
    - intros j Hj. rewrite vnth_vtab by assumption. destruct (Nat.eqb_spec j i); [subst; unfold q1; ring|unfold q0; ring]. }
  rewrite <- (E x Lx), <- (E y Ly). apply H. apply vtab_length.
Qed.
