(** Collapsing an expression by rewriting its graph: what is returned is right (property C56) *)
From Verif Require Export IterLoopProofs.
From Verif Require Import CollapseProofs BaseProofs MatProofs.
From Coq Require Import Permutation.

(** ** Specification *)
(** Expressions as cbc.block builds them: products have at least two factors, none of them a product *)
Inductive from_blocks : iexpr -> Prop :=
| fb_mat a m : from_blocks (IMat a m)
| fb_num q : from_blocks (INum q)
| fb_add id a b : from_blocks a -> from_blocks b -> from_blocks (IOp id KAdd [a; b])
| fb_sub id a b : from_blocks a -> from_blocks b -> from_blocks (IOp id KSub [a; b])
| fb_tr id a : from_blocks a -> from_blocks (IOp id KTr [a])
| fb_mul id l : 2 <= length l -> (forall e, In e l -> from_blocks e) -> (forall e, In e l -> ~ is_product e) -> from_blocks (IOp id KMul l)
| fb_other id : from_blocks (IOp id KNone []).
(** The matrices of an expression with their addresses *)
Fixpoint matrices (e : iexpr) : list (nat * mat) := match e with IMat a m => [(a, m)] | INum _ => [] | IOp _ _ l => flat_map matrices l end.
(** One address, one matrix *)
Definition one_memory (e : iexpr) : Prop := forall a m m', In (a, m) (matrices e) -> In (a, m') (matrices e) -> m = m'.

(** ** Building the graph *)
(** Leaves are objects of the expression *)
Definition held (H : list (nat * mat)) (v : obj) : Prop := match v with OMat a m => In (a, m) H | ONum _ => True end.
Definition arity (H : list (nat * mat)) (s : bt) : Prop := exists id k l, s = BO id k l /\ length l = match k with KTr => 1 | KNone => 0 | _ => 2 end /\ forall x v, In (BT x v) l -> held H v.
Definition fop (H : list (nat * mat)) (e : iexpr) : Prop := from_blocks e /\ is_op e = true /\ forall p, In p (matrices e) -> In p H.
Lemma fop_steps H : steps (fop H) (arity H).
Proof.
  intros fresh id k ch [O [_ HM]] ND LT.
  assert (SUB : forall c, In c ch -> forall p, In p (matrices c) -> In p H) by (intros c C p P; apply HM; cbn; apply in_flat_map; eauto).
  assert (AR : forall k0 ch' (l : list bt), length ch' = match k0 with KTr => 1 | KNone => 0 | _ => 2 end -> (forall c, In c ch' -> is_op c = false -> In c ch) -> map evb l = map d ch' -> (forall x v, In (BT x v) l -> In (leafof v) ch') -> arity H (BO id k0 l)).
  { intros k0 ch' l LN LC E LF. exists id, k0, l. split; [reflexivity|]. split; [apply (f_equal (@length _)) in E; rewrite !map_length in E; congruence|]. intros x v X. specialize (LF x v X). destruct v as [a m|q]; cbn; [|exact I]. apply (SUB (IMat a m)); [apply LC; [exact LF|reflexivity]|cbn; auto]. }
  inversion O as [| |i a b A B|i a b A B|i a A|i l LN F NP|i]; subst.
  - exists [a; b]. split; [reflexivity|]. split; [reflexivity|]. split; [intros c C Op; split; [destruct C as [<- |[<- |[]]]; assumption|split; [exact Op|exact (SUB c C)]]|]. split; [exact ND|]. split; [auto|]. split; [cbn [meas length]; lia|]. intros l. apply AR; [reflexivity|auto].
  - exists [a; b]. split; [reflexivity|]. split; [reflexivity|]. split; [intros c C Op; split; [destruct C as [<- |[<- |[]]]; assumption|split; [exact Op|exact (SUB c C)]]|]. split; [exact ND|]. split; [auto|]. split; [cbn [meas length]; lia|]. intros l. apply AR; [reflexivity|auto].
  - exists [a]. split; [reflexivity|]. split; [reflexivity|]. split; [intros c C Op; split; [destruct C as [<- |[]]; assumption|split; [exact Op|exact (SUB c C)]]|]. split; [exact ND|]. split; [auto|]. split; [cbn [meas length]; lia|]. intros l. apply AR; [reflexivity|auto].
  - cbn [get_children]. destruct ch as [|c [|x [|y r]]]; [cbn in LN; lia|cbn in LN; lia| |].
    + exists [c; x]. split; [reflexivity|]. split; [reflexivity|]. split; [intros e C Op; split; [apply F; exact C|split; [exact Op|exact (SUB e C)]]|]. split; [exact ND|]. split; [auto|]. split; [cbn [meas length]; lia|]. intros l. apply AR; [reflexivity|auto].
    + set (rest := x :: y :: r) in *. assert (FR : flat_map ichain_of rest = rest) by (apply flat_same; intros e I; apply NP; cbn; auto).
      exists [c; IOp fresh KMul rest]. split; [|split; [|split; [|split; [|split; [|split]]]]].
      * unfold two_children. fold rest. rewrite FR. reflexivity.
      * reflexivity.
      * intros e [<- |[<- |[]]] Op.
        -- split; [apply F; cbn; auto|]. split; [exact Op|]. apply SUB. cbn. auto.
        -- split; [apply fb_mul; [cbn; lia|intros e E; apply F; cbn in *; tauto|intros e E; apply NP; cbn in *; tauto]|]. split; [reflexivity|]. intros p P. apply HM. cbn [matrices flat_map] in P |- *. apply in_app_iff. right. exact P.
      * cbn [flat_map ids] in ND |- *. rewrite app_nil_r. apply (Permutation_NoDup (l := fresh :: (ids c ++ flat_map ids rest))); [apply Permutation_middle|]. constructor; [|exact ND]. intros I. specialize (LT fresh I). lia.
      * intros i I. cbn [flat_map ids] in I |- *. rewrite app_nil_r in I. rewrite in_app_iff in *. cbn [In] in I. destruct I as [I|[I|I]]; auto.
      * cbn [meas map length]. rewrite !list_sum_cons. change (list_sum []) with 0. cbn [meas]. lia.
      * intros l. apply AR; [reflexivity|intros e [<- |[<- |[]]] Op; [cbn; auto|discriminate Op]].
  - exists []. cbn. split; [reflexivity|]. split; [reflexivity|]. split; [intros c []|]. split; [constructor|]. split; [intros i []|]. split; [lia|]. intros l. apply (AR KNone []); [reflexivity|]. intros c [].
Qed.
(** ** Edges *)
Definition key (e : edge) : node * nat := (src e, snd e).
Lemma add_edge_in p c i g x : In x (add_edge p c i g) -> x = (p, c, i) \/ In x g.
Proof. induction g as [|e g IH]; cbn [add_edge]; [intros [<- |[]]; auto|]. destruct (_ && _); cbn; [intros [<- |I]; auto|intros [<- |I]; [auto|destruct (IH I); auto]]. Qed.
Lemma add_edge_keeps p c i g x : In x g -> dst x <> c -> In x (add_edge p c i g).
Proof.
  intros I N. induction g as [|e g IH]; [destruct I|]. cbn [add_edge]. destruct (node_eqb_spec (dst e) c) as [D|D].
  - destruct I as [-> |I]; [contradiction|]. destruct (_ && _); cbn; auto.
  - rewrite andb_false_r. destruct I as [-> |I]; cbn; auto.
Qed.
Lemma add_edge_keys p c i g : NoDup (map key g) -> ~ In (p, i) (map key g) -> NoDup (map key (add_edge p c i g)).
Proof.
  intros N NI. induction g as [|e g IH]; cbn [add_edge map] in *; [constructor; [intros []|constructor]|]. inversion N as [|x y X Y]; subst. destruct (_ && _); cbn [map].
  - constructor; [|exact Y]. intros I. apply NI. right. exact I.
  - constructor; [|apply IH; [exact Y|intros J; apply NI; right; exact J]]. intros I. apply in_map_iff in I. destruct I as [z [E Z]]. apply add_edge_in in Z. destruct Z as [-> |Z]; [apply NI; left; rewrite <- E; reflexivity|]. apply X. rewrite <- E. apply in_map. exact Z.
Qed.
Lemma NoDup_keys_filter f g : NoDup (map key g) -> NoDup (map key (filter f g)).
Proof.
  induction g as [|e g IH]; [auto|]. cbn [map filter]. intros N. inversion N as [|x y X Y]; subst. destruct (f e); [|auto]. cbn [map]. constructor; [|auto]. intros I. apply X. apply in_map_iff in I. destruct I as [z [E Z]]. apply filter_In in Z. rewrite <- E. apply in_map. tauto.
Qed.
Lemma same_key g x y : NoDup (map key g) -> In x g -> In y g -> key x = key y -> x = y.
Proof.
  induction g as [|e g IH]; intros N X Y E; [destruct X|]. cbn [map] in N. inversion N as [|u w U W]; subst. destruct X as [<- |X], Y as [<- |Y]; [reflexivity| | |auto]; exfalso; apply U; [rewrite E|rewrite <- E]; apply in_map; assumption.
Qed.
(** ** Values *)
Section Sound.
Variable str : nat -> mat -> nat.
Variable order : list tree -> list tree.
Hypothesis str_inj : forall a m a' m', str a m = str a' m' -> a = a'.
Hypothesis order_perm : forall l, Permutation (order l) l.
Variable H : list (nat * mat).
Variable root : bt.
Variable S0 : list bt.
Hypothesis ST : static_of (arity H) root S0.
Definition known (h : nat -> mat) (fresh : nat) (v : obj) : Prop := match v with OMat a m => a < fresh /\ h a = m | ONum _ => True end.
Definition repr (terms : list (node * obj)) (c : node) (t : bt) : Prop :=
  match t with BT l v => c = NLab l /\ lookup c terms = Ok v | BO id k _ => c = NOp id k \/ exists v, c = name_of str v /\ lookup c terms = Ok v /\ oeq (Some (value v)) (evb t) end.
Record names (h : nat -> mat) (terms : list (node * obj)) (fresh : nat) : Prop := {
  n_known : forall n v, lookup n terms = Ok v -> known h fresh v;
  n_name : forall n v, lookup n terms = Ok v -> (exists l, n = NLab l) \/ n = name_of str v
}.
Lemma name_not_op v i k : name_of str v <> NOp i k.
Proof. destruct v; discriminate. Qed.
Lemma names_assign h terms fresh v : names h terms fresh -> (known h fresh v \/ exists m, v = OMat fresh m) ->
  exists h', names h' (assign (name_of str v) v terms) (S fresh) /\ forall n w, lookup n terms = Ok w -> lookup n (assign (name_of str v) v terms) = Ok w.
Proof.
  intros [N1 N2] K.
  assert (KEEP : forall n w, lookup n terms = Ok w -> lookup n (assign (name_of str v) v terms) = Ok w).
  { intros n w L. rewrite lookup_assign. destruct (node_eqb_spec (name_of str v) n) as [E|_]; [|exact L]. f_equal. destruct (N2 n w L) as [[l ->]|E']; [destruct v; discriminate E|]. rewrite E' in E. pose proof (N1 n w L) as KW. destruct v as [a m|q], w as [a' m'|q']; cbn [name_of] in E; try discriminate E.
    - injection E as E. apply str_inj in E. subst a'. cbn in KW. destruct K as [K|[m0 K]]; [cbn in K; destruct K as [_ <-]; destruct KW as [_ <-]; reflexivity|]. injection K as -> ->. destruct KW. lia.
    - injection E as ->. reflexivity. }
  exists (fun a => if a =? fresh then match v with OMat _ m => m | ONum _ => h a end else h a). split; [|exact KEEP]. constructor.
  - intros n w. rewrite lookup_assign. destruct (node_eqb (name_of str v) n).
    + intros E. injection E as <-. destruct K as [K|[m ->]]; [destruct v as [a m|q]; cbn in *; [|exact I]; destruct K as [K1 K2]; split; [lia|]; destruct (Nat.eqb_spec a fresh); [lia|exact K2]|]. cbn. split; [lia|]. rewrite Nat.eqb_refl. reflexivity.
    + intros L. specialize (N1 n w L). destruct w as [a m|q]; cbn in *; [|exact I]. destruct N1 as [K1 K2]. split; [lia|]. destruct (Nat.eqb_spec a fresh); [lia|exact K2].
  - intros n w. rewrite lookup_assign. destruct (node_eqb_spec (name_of str v) n) as [<- |_]; [intros E; injection E as <-; auto|apply N2].
Qed.
Lemma repr_keep terms terms' c t : (forall n w, lookup n terms = Ok w -> lookup n terms' = Ok w) -> repr terms c t -> repr terms' c t.
Proof. intros K. destruct t as [l v|id k l]; cbn; [intros [-> L]; auto|]. intros [-> |[v [E [L O]]]]; [auto|right; eauto]. Qed.
Lemma collapse_node_sound fresh id k l args v : collapse_node fresh k args = Ok v -> Forall2 (fun a c => oeq (Some (value a)) (evb c)) args l -> oeq (Some (value v)) (evb (BO id k l)) /\ (In v args \/ exists m, v = OMat fresh m).
Proof.
  intros C F. rewrite evb_BO.
  assert (M : Forall2 oeq (map (fun a => Some (value a)) args) (map evb l)) by (clear C; induction F as [|x y xs ys E F IH]; cbn; [constructor|constructor; assumption]).
  assert (P : oeq (evk k (map (fun a => Some (value a)) args)) (evk k (map evb l))).
  { assert (Tr : forall x y, oeq x y -> oeq (option_map vtr x) (option_map vtr y)) by (intros [[A|p]|] [[B|q]|]; cbn; try tauto; apply mtr_meq).
    destruct M as [|x y xs ys E1 M1]; [destruct k; exact I|]. destruct M1 as [|x2 y2 xs2 ys2 E2 M2]; [destruct k; try exact I; exact (Tr _ _ E1)|]. destruct M2 as [|x3 y3 xs3 ys3 E3 M3]; [|destruct k; exact I].
    destruct k; try exact I; [apply (obind2_proper (vadd_ tiny))|apply (obind2_proper vsub_)|apply omul_proper]; try assumption; intros; [apply vadd_proper|apply vsub_proper]; assumption. }
  assert (Q : oeq (Some (value v)) (evk k (map (fun a => Some (value a)) args)) /\ (In v args \/ exists m, v = OMat fresh m)).
  { destruct k; cbn [collapse_node] in C; destruct args as [|[a A|p] [|[b B|q] [|? ?]]]; try discriminate C; cbn [map evk value obind vadd_ vsub_ omul vmul option_map vtr].
    - destruct (_ && _); [|discriminate C]. injection C as <-. split; [apply oeq_refl|right; eauto].
    - unfold tiny. change threshold with tol14. destruct (qltb (qabs q) tol14); [|discriminate C]. injection C as <-. split; [apply oeq_refl|left; cbn; auto].
    - unfold tiny. change threshold with tol14. destruct (qltb (qabs p) tol14); [|discriminate C]. injection C as <-. split; [apply oeq_refl|left; cbn; auto].
    - destruct (_ && _); [|discriminate C]. injection C as <-. split; [apply oeq_refl|right; eauto].
    - destruct (_ =? _); [|discriminate C]. injection C as <-. split; [apply oeq_refl|right; eauto].
    - injection C as <-. split; [apply oeq_refl|right; eauto].
    - injection C as <-. split; [apply oeq_refl|right; eauto].
    - injection C as <-. split; [apply oeq_refl|right; eauto].
    - injection C as <-. split; [apply oeq_refl|left; cbn; auto]. }
  destruct Q as [Q1 Q2]. split; [|exact Q2]. eapply oeq_trans; [exact Q1|exact P].
Qed.
Lemma collapse_node_arity fresh k args v : collapse_node fresh k args = Ok v -> k <> KNone /\ length args = match k with KTr => 1 | _ => 2 end.
Proof. destruct k, args as [|[a A|p] [|[b B|q] [|? ?]]]; cbn; intros C; try discriminate C; split; try discriminate; reflexivity. Qed.
(** The state of the loop *)
Record good_graph (g : list edge) (terms : list (node * obj)) : Prop := {
  w_repr : forall n c i, In (n, c, i) g -> exists s t, In s S0 /\ n = nodeof s /\ nth_error (kids s) i = Some t /\ repr terms c t;
  w_keys : NoDup (map key g);
  w_pred : forall e s, In e g -> In s S0 -> src e = nodeof s -> s <> root -> exists e', In e' g /\ dst e' = nodeof s
}.
(** A tree as it was found *)
Definition found (terms : list (node * obj)) (t : tree) : Prop := exists s, In s S0 /\ fst t = nodeof s /\ (length (snd t) = length (kids s) -> Forall2 (repr terms) (snd t) (kids s)).
Lemma children_found g terms s : good_graph g terms -> In s S0 -> found terms (nodeof s, children_of g (nodeof s)).
Proof.
  intros [W1 W2 W3] I. exists s. split; [exact I|]. split; [reflexivity|]. cbn [snd]. unfold children_of.
  set (L := filter (fun e => node_eqb (src e) (nodeof s)) g).
  assert (LI : forall e, In e L -> exists t, nth_error (kids s) (snd e) = Some t /\ repr terms (dst e) t).
  { intros [[n c] i] J. unfold L in J. apply filter_In in J. destruct J as [J E]. unfold src in E. cbn [fst snd] in E. destruct (node_eqb_spec n (nodeof s)) as [-> |]; [|discriminate E]. destruct (W1 _ _ _ J) as [s' [t [S' [E' [N R]]]]]. assert (s = s') by (apply (node_unique _ _ _ ST); assumption). subst s'. exists t. split; assumption. }
  assert (LK : NoDup (map key L)) by (apply NoDup_keys_filter; exact W2).
  assert (LS : forall e, In e L -> src e = nodeof s) by (intros e J; unfold L in J; apply filter_In in J; destruct J as [_ E]; destruct (node_eqb_spec (src e) (nodeof s)); [assumption|discriminate E]).
  assert (LN : forall e e', In e L -> In e' L -> snd e = snd e' -> e = e') by (intros e e' J J' E; apply (same_key L); [exact LK|exact J|exact J'|unfold key; rewrite (LS e J), (LS e' J'), E; reflexivity]).
  assert (AR : length (kids s) <= 2). { destruct (st_ok _ _ _ ST s I) as [id [k [l [-> [E _]]]]]. cbn [kids]. rewrite E. destruct k; lia. }
  assert (NDL : NoDup L) by (apply (NoDup_map_inv key); exact LK).
  clearbody L. intros LEN. destruct L as [|e1 [|e2 [|e3 L]]].
  - cbn in LEN. destruct (kids s); [constructor|discriminate LEN].
  - cbn in LEN. destruct (kids s) as [|a [|b r]] eqn:EK; try discriminate LEN. cbn. destruct (LI e1) as [t [N R]]; [cbn; auto|]. destruct (snd e1) as [|j]; [|destruct j; discriminate N]. injection N as <-. constructor; [exact R|constructor].
  - assert (D : snd e1 <> snd e2). { intros E. pose proof (LN e1 e2 (or_introl eq_refl) (or_intror (or_introl eq_refl)) E) as Q. subst e2. inversion NDL as [|x y X Y]; subst. apply X. cbn. auto. }
    destruct (LI e1) as [t1 [N1 R1]]; [cbn; auto|]. destruct (LI e2) as [t2 [N2 R2]]; [cbn; auto|]. cbn [map fold_left insert_index] in LEN |- *. cbn [snd] in LEN |- *.
    destruct (kids s) as [|a [|b [|c r]]]; [destruct (snd e1); discriminate N1| | |cbn in AR; lia]; destruct (snd e1) as [|[|j1]]; try (destruct j1; discriminate N1); try discriminate N1; destruct (snd e2) as [|[|j2]]; try (destruct j2; discriminate N2); try discriminate N2; try congruence; cbn; injection N1 as <-; injection N2 as <-; repeat constructor; assumption.
  - exfalso. assert (B : forall e, In e (e1 :: e2 :: e3 :: L) -> snd e < 2). { intros e J. destruct (LI e J) as [t [N _]]. assert (snd e < length (kids s)) by (apply nth_error_Some; rewrite N; discriminate). lia. }
    inversion NDL as [|x y X Y]; subst. inversion Y as [|x' y' X' Y']; subst. pose proof (B e1 (or_introl eq_refl)). pose proof (B e2 (or_intror (or_introl eq_refl))). pose proof (B e3 (or_intror (or_intror (or_introl eq_refl)))).
    assert (snd e1 = snd e2 \/ snd e1 = snd e3 \/ snd e2 = snd e3) as [E|[E|E]] by lia; apply LN in E; cbn; auto; subst; cbn in X, X'; tauto.
Qed.
(** The value of a tree *)
Lemma found_value h terms fresh t v : names h terms fresh -> found terms t -> collapse_tree fresh t terms = Ok v ->
  (exists s, In s S0 /\ fst t = nodeof s /\ oeq (Some (value v)) (evb s)) /\ (known h fresh v \/ exists m, v = OMat fresh m).
Proof.
  intros NM [s [I [E F]]] C. unfold collapse_tree in C. destruct (mapM (fun c => lookup c terms) (snd t)) as [args|] eqn:EA; [|discriminate C]. cbn [bind] in C. rewrite E in C. destruct (st_ok _ _ _ ST s I) as [id [k [l [Es [AR HL]]]]]. subst s. cbn [nodeof kids] in *.
  destruct (collapse_node_arity _ _ _ _ C) as [NK LA]. assert (LL : length (snd t) = length args).
  { clear - EA. revert args EA. induction (snd t) as [|c cs IH]; intros args EA; [injection EA as <-; reflexivity|]. rewrite mapM_cons in EA. destruct (lookup c terms); [|discriminate EA]. cbn [bind] in EA. destruct (mapM _ cs) as [as'|]; [|discriminate EA]. injection EA as <-. cbn. rewrite (IH as' eq_refl). reflexivity. }
  specialize (F ltac:(rewrite LL, LA, AR; destruct k; congruence)).
  assert (G : Forall2 (fun a c => oeq (Some (value a)) (evb c)) args l /\ forall a, In a args -> known h fresh a).
  { clear C LA LL AR HL I. revert args EA. induction F as [|c t' cs ts R F IH]; intros args EA; [injection EA as <-; split; [constructor|intros a []]|]. rewrite mapM_cons in EA. destruct (lookup c terms) as [a|] eqn:EL; [|discriminate EA]. cbn [bind] in EA. destruct (mapM _ cs) as [as'|]; [|discriminate EA]. injection EA as <-. destruct (IH as' eq_refl) as [I1 I2]. split.
    - constructor; [|exact I1]. destruct t' as [l' v'|id' k' l'].
      + destruct R as [-> L]. rewrite L in EL. injection EL as <-. apply oeq_refl.
      + destruct R as [-> |[w [_ [L O]]]]; [|rewrite L in EL; injection EL as <-; exact O]. exfalso. destruct (n_name _ _ _ NM _ _ EL) as [[x X]|X]; [discriminate X|exact (name_not_op _ _ _ (eq_sym X))].
    - intros a' [<- |J]; [exact (n_known _ _ _ NM _ _ EL)|exact (I2 a' J)]. }
  destruct G as [G1 G2]. destruct (collapse_node_sound fresh id k l args v C G1) as [O V]. split; [exists (BO id k l); auto|]. destruct V as [V|V]; [left; exact (G2 v V)|right; exact V].
Qed.
(** One tree *)
Lemma found_keep terms terms' t : (forall n w, lookup n terms = Ok w -> lookup n terms' = Ok w) -> found terms t -> found terms' t.
Proof. intros K [s [I [E F]]]. exists s. split; [exact I|]. split; [exact E|]. intros L. specialize (F L). clear - K F. induction F as [|c t' cs ts R F IH]; constructor; [apply (repr_keep terms); assumption|exact IH]. Qed.
Lemma round_sound (NS : node -> Prop) trees : forall h g terms fresh done g' terms' fresh' done', names h terms fresh -> good_graph g terms ->
  (forall e, In e g -> ~ NS (src e)) -> (forall t, In t trees -> found terms t /\ ~ NS (fst t) /\ (forall c, In c (snd t) -> NS c) /\ forall e, In e g -> src e = fst t -> NS (dst e)) -> NoDup (map fst trees) ->
  one_round str trees g terms fresh done = Ok (g', terms', fresh', done') -> exists h', names h' terms' fresh' /\ good_graph g' terms'.
Proof.
  induction trees as [|t trees IH]; intros h g terms fresh done g' terms' fresh' done' NM GG NSG TR ND R; cbn [one_round] in R.
  - injection R as <- <- <- <-. eauto.
  - destruct (collapse_tree fresh t terms) as [v|] eqn:EV; [|discriminate R]. cbn [bind] in R. destruct (replace_tree g t (name_of str v)) as [[g1 d1]|] eqn:ER; [|discriminate R]. cbn [bind fst snd] in R.
    destruct (TR t (or_introl eq_refl)) as [FT [NT [LT ET]]]. destruct (found_value h terms fresh t v NM FT EV) as [[s [I [Es OV]]] KV]. destruct (names_assign h terms fresh v NM KV) as [h1 [NM1 KEEP]].
    cbn [map] in ND. inversion ND as [|x y N1 N2]; subst. set (terms1 := assign (name_of str v) v terms) in *.
    assert (LV : lookup (name_of str v) terms1 = Ok v) by (unfold terms1; rewrite lookup_assign, node_eqb_refl; reflexivity).
    assert (GK : good_graph g terms1). { destruct GG as [W1 W2 W3]. constructor; [|exact W2|exact W3]. intros n c i J. destruct (W1 n c i J) as [s' [t' [A [B [C D]]]]]. exists s', t'. repeat (split; [assumption|]). apply (repr_keep terms); assumption. }
    unfold replace_tree in ER. destruct (filter (fun e => node_eqb (dst e) (fst t)) g) as [|e0 [|e1 es]] eqn:EF; [| |discriminate ER].
    + injection ER as <- <-. apply (IH h1 g terms1 (S fresh) true g' terms' fresh' done' NM1 GK NSG); [|exact N2|exact R]. intros t' T'. destruct (TR t' (or_intror T')) as [A [B [C D]]]. split; [apply (found_keep terms); assumption|auto].
    + injection ER as <- <-. assert (E0 : In e0 g /\ dst e0 = fst t). { assert (J : In e0 (filter (fun e => node_eqb (dst e) (fst t)) g)) by (rewrite EF; cbn; auto). apply filter_In in J. destruct J as [J E]. split; [exact J|]. destruct (node_eqb_spec (dst e0) (fst t)); [assumption|discriminate E]. }
      destruct E0 as [E0 D0]. set (tn := fst t :: snd t) in *. set (g0 := filter (fun e => negb (member (src e) tn || member (dst e) tn)) g) in *.
      assert (G0 : forall e, In e g0 <-> In e g /\ ~ In (src e) tn /\ ~ In (dst e) tn). { intros e. unfold g0. rewrite filter_In, negb_true_iff, orb_false_iff. destruct (member_spec (src e) tn), (member_spec (dst e) tn); intuition discriminate. }
      destruct e0 as [[p0 c0] i0]. unfold src, dst in D0. cbn [fst snd] in D0. subst c0. cbn [fst snd] in R. change (src (p0, fst t, i0)) with p0 in R. cbn [snd] in R.
      assert (NEW : exists p' , In p' S0 /\ p0 = nodeof p' /\ nth_error (kids p') i0 = Some s).
      { destruct (w_repr _ _ GK _ _ _ E0) as [p' [t' [P [EP [N RP]]]]]. exists p'. split; [exact P|]. split; [exact EP|]. rewrite N. f_equal. destruct (st_ok _ _ _ ST s I) as [ids [ks [ls [Hs _]]]]. rewrite Es, Hs in RP. cbn [nodeof] in RP. destruct t' as [l' v'|id' k' l'].
        - destruct RP as [RP _]. discriminate RP.
        - destruct RP as [RP|[w [RP _]]]; [|exfalso; exact (name_not_op _ _ _ (eq_sym RP))]. apply (node_unique _ _ _ ST); [exact (st_closed _ _ _ ST _ _ _ _ _ P (nth_error_In _ _ N) eq_refl)|exact I|]. rewrite Hs. cbn. auto. }
      destruct NEW as [p' [P [EP NP]]].
      assert (PS : p0 <> fst t). { rewrite EP, Es. intros E. assert (p' = s) by (apply (node_unique _ _ _ ST); assumption). subst p'. apply nth_error_In in NP. apply bsize_kid in NP. lia. }
      apply (IH h1 (add_edge p0 (name_of str v) i0 g0) terms1 (S fresh) false g' terms' fresh' done' NM1); [| | |exact N2|exact R].
      * destruct GK as [W1 W2 W3]. constructor.
        -- intros n c i J. apply add_edge_in in J. destruct J as [J|J]; [|apply G0 in J; exact (W1 n c i (proj1 J))]. injection J as -> -> ->. exists p', s. split; [exact P|]. split; [exact EP|]. split; [exact NP|]. destruct (st_ok _ _ _ ST s I) as [ids [ks [ls [Hs _]]]]. rewrite Hs. right. exists v. rewrite <- Hs. auto.
        -- apply add_edge_keys; [apply NoDup_keys_filter; exact W2|]. intros J. apply in_map_iff in J. destruct J as [e [Ek J]]. apply G0 in J. destruct J as [J [_ J2]]. assert (e = (p0, fst t, i0)) by (apply (same_key g); [exact W2|exact J|exact E0|exact Ek]). subst e. apply J2. cbn. auto.
        -- intros e s' J S' Se NR.
           assert (SG : exists e1, In e1 g /\ src e1 = nodeof s' /\ nodeof s' <> fst t).
           { apply add_edge_in in J. destruct J as [-> |J]; [exists (p0, fst t, i0); cbn in Se; split; [exact E0|split; [exact Se|rewrite <- Se; exact PS]]|]. apply G0 in J. destruct J as [J [J1 _]]. exists e. split; [exact J|]. split; [exact Se|]. rewrite <- Se. intros E. apply J1. cbn. auto. }
           destruct SG as [e1 [J1 [S1 NF]]]. destruct (W3 e1 s' J1 S' S1 NR) as [e2 [J2 D2]]. exists e2. split; [|exact D2]. apply add_edge_keeps; [|rewrite D2; destruct (st_ok _ _ _ ST s' S') as [ids [ks [ls [Hs _]]]]; rewrite Hs; intros E; exact (name_not_op _ _ _ (eq_sym E))].
           assert (NSS : ~ NS (nodeof s')) by (rewrite <- S1; exact (NSG e1 J1)).
           apply G0. split; [exact J2|]. split.
           ++ intros [E|E]; [apply NSS; rewrite <- D2; apply (ET e2 J2); auto|exact (NSG e2 J2 (LT _ E))].
           ++ rewrite D2. intros [E|E]; [congruence|exact (NSS (LT _ E))].
      * intros e J. apply add_edge_in in J. destruct J as [-> |J]; [exact (NSG _ E0)|]. apply G0 in J. exact (NSG e (proj1 J)).
      * intros t' T'. destruct (TR t' (or_intror T')) as [A [B [C D]]]. split; [apply (found_keep terms); assumption|]. split; [exact B|]. split; [exact C|]. intros e J Se. apply add_edge_in in J. destruct J as [-> |J]; [|apply G0 in J; exact (D e (proj1 J) Se)]. exfalso. apply NT. apply (D _ E0). exact Se.
Qed.
Lemma rounds_sound fuel : forall h g terms fresh g' terms' fresh', names h terms fresh -> good_graph g terms -> rounds str order fuel g terms fresh = Ok (g', terms', fresh') -> exists h', names h' terms' fresh' /\ good_graph g' terms'.
Proof.
  induction fuel as [|fuel IH]; intros h g terms fresh g' terms' fresh' NM GG R; [discriminate R|]. cbn [rounds] in R.
  destruct (one_round str (order (collapsable_trees g)) g terms fresh false) as [[[[g1 terms1] fresh1] d1]|] eqn:ER; [|discriminate R]. cbn [bind] in R.
  assert (X : exists h', names h' terms1 fresh1 /\ good_graph g1 terms1).
  { pose proof (order_perm (collapsable_trees g)) as OP.
    apply (round_sound (fun n => is_leaf g n = true) (order (collapsable_trees g)) h g terms fresh false g1 terms1 fresh1 d1 NM GG); [| | |exact ER].
    - intros e J. rewrite leaf_spec. intros N. apply N. apply in_map. exact J.
    - intros t T. apply (Permutation_in _ OP) in T. unfold collapsable_trees in T. apply in_map_iff in T. destruct T as [p [<- T]]. apply filter_In in T. destruct T as [T F]. cbn [fst snd]. unfold roots in T. rewrite distinct_In in T. pose proof T as T0. apply in_map_iff in T. destruct T as [[[n c] i] [<- J]]. destruct (w_repr _ _ GG _ _ _ J) as [s [t' [I [E _]]]]. change (src (n, c, i)) with n in *. subst n. rewrite forallb_forall in F. split; [apply children_found; assumption|]. split; [rewrite leaf_spec; tauto|]. split; [exact F|].
      intros e Je Se. apply F. unfold children_of. assert (K : forall l acc x, In x (map fst l) \/ In x (map fst acc) -> In x (map fst (fold_left (fun l0 ci => insert_index ci l0) l acc))).
      { clear. assert (INS : forall ci l x, x = fst ci \/ In x (map fst l) -> In x (map fst (insert_index ci l))). { intros ci l x. induction l as [|cj l IH]; cbn [insert_index map]; [cbn; intuition congruence|]. destruct (_ <=? _); cbn [map In] in *; intuition congruence. } induction l as [|ci l IH]; intros acc x; cbn [map fold_left In]; [tauto|]. intros [[E|Hx]|Hx]; apply IH; [right; apply INS; left; auto|left; exact Hx|right; apply INS; auto]. }
      apply K. left. rewrite map_map. apply in_map_iff. exists e. split; [reflexivity|]. apply filter_In. split; [exact Je|]. rewrite Se. apply node_eqb_refl.
    - apply (Permutation_NoDup (Permutation_map fst (Permutation_sym OP))). apply collapsable_roots. }
  destruct X as [h1 [NM1 GG1]]. destruct d1; [injection R as <- <- <-; eauto|]. exact (IH _ _ _ _ _ _ _ NM1 GG1 R).
Qed.
(** At the end *)
Lemma last_value h g terms fresh p v : names h terms fresh -> good_graph g terms -> roots g = [p] -> collapse_tree fresh (p, children_of g p) terms = Ok v -> oeq (Some (value v)) (evb root).
Proof.
  intros NM GG RG C. assert (SP : forall e, In e g -> src e = p). { intros e J. assert (X : In (src e) (roots g)) by (unfold roots; apply distinct_In; apply in_map; exact J). rewrite RG in X. destruct X as [X|[]]. auto. }
  assert (EP : exists e, In e g /\ src e = p). { assert (X : In p (roots g)) by (rewrite RG; cbn; auto). unfold roots in X. rewrite distinct_In in X. apply in_map_iff in X. destruct X as [e [A B]]. eauto. }
  destruct EP as [[[n c] i] [J E]]. change (src (n, c, i)) with n in E. subst n. destruct (w_repr _ _ GG _ _ _ J) as [s [t [I [Es _]]]].
  assert (ER : s = root).
  { destruct (node_eqb_spec (nodeof s) (nodeof root)) as [E|E]; [apply (node_unique _ _ _ ST); [exact I|exact (st_root _ _ _ ST)|exact E]|]. exfalso. assert (NR : s <> root) by (intros ->; apply E; reflexivity).
    destruct (w_pred _ _ GG _ s J I Es NR) as [[[n' c'] i'] [J' D']]. change (dst (n', c', i')) with c' in D'. pose proof (SP _ J') as Sn. change (src (n', c', i')) with n' in Sn. subst n' c'. destruct (w_repr _ _ GG _ _ _ J') as [s' [t' [I' [Es' [N R]]]]]. assert (s' = s) by (apply (node_unique _ _ _ ST); congruence). subst s'.
    destruct (st_ok _ _ _ ST s I) as [ids [ks [ls [Hs _]]]]. destruct t' as [l' v'|id' k' l']; [destruct R as [R _]; rewrite Hs in R; discriminate R|]. destruct R as [R|[w [R _]]]; [|rewrite Hs in R; exact (name_not_op _ _ _ (eq_sym R))]. pose proof (nth_error_In _ _ N) as K.
    assert (BO id' k' l' = s) by (apply (node_unique _ _ _ ST); [exact (st_closed _ _ _ ST _ _ _ _ _ I K eq_refl)|exact I|cbn; auto]). apply bsize_kid in K. rewrite H0 in K. lia. }
  subst p s. destruct (found_value h terms fresh _ v NM (children_found g terms root GG I) C) as [[s [I' [E O]]] _]. assert (root = s) by (apply (node_unique _ _ _ ST); [exact I|exact I'|exact E]). subst s. exact O.
Qed.
End Sound.
Lemma NoDup_map_on {A B} (f : A -> B) l : NoDup l -> (forall x y, In x l -> In y l -> f x = f y -> x = y) -> NoDup (map f l).
Proof.
  induction 1 as [|x l X N IH]; intros J; cbn; constructor; [|apply IH; intros a b Ia Ib; apply J; cbn; auto]. intros I. apply in_map_iff in I. destruct I as [y [E Y]]. apply X. rewrite <- (J y x (or_intror Y) (or_introl eq_refl) E). exact Y.
Qed.
Lemma dst_edges S0 : map dst (flat_map edges1 S0) = kidnodes S0.
Proof. induction S0 as [|s l IH]; [reflexivity|]. cbn [flat_map kidnodes]. rewrite map_app, IH. f_equal. unfold edges1. generalize (nodeof s). intros p. generalize 0. induction (kids s) as [|c cs IHc]; intros i; [reflexivity|]. cbn. rewrite IHc. reflexivity. Qed.
Lemma expr2graph_more fuel : forall b b' n, expr2graph fuel b = Ok b' -> expr2graph (fuel + n) b = Ok b'.
Proof.
  induction fuel as [|fuel IH]; intros b b' n E; [discriminate E|]. cbn [expr2graph plus] in *. destruct (b_stack b) as [|[a m|q|id k ch] st]; [exact E|exact (IH _ _ n E)|exact (IH _ _ n E)|]. destruct (two_children _ _ _); [|discriminate E]. cbn [bind] in *. exact (IH _ _ n E).
Qed.
Theorem collapse_iter_sound str order fuel fresh e v : (forall a m a' m', str a m = str a' m' -> a = a') -> (forall l, Permutation (order l) l) ->
  from_blocks e -> NoDup (ids e) -> (forall i, In i (ids e) -> i < fresh) -> one_memory e -> (forall a m, In (a, m) (matrices e) -> a < fresh) ->
  collapse_iter str order fuel fresh e = Ok v -> oeq (Some (value v)) (den tiny (forget e)).
Proof.
  intros SI OP FB ND LT OM AM R. destruct e as [a m|q|id k ch]; [injection R as <-; apply oeq_refl|injection R as <-; apply oeq_refl|].
  set (e := IOp id k ch) in *. unfold collapse_iter in R. cbn [e] in R. fold e in R. set (b := {| b_edges := []; b_terms := []; b_count := 0; b_fresh := fresh; b_stack := [e] |}) in *.
  destruct (expr2graph fuel b) as [b1|] eqn:EB; [|discriminate R]. cbn [bind] in R. destruct (rounds str order fuel (b_edges b1) (b_terms b1) (b_fresh b1)) as [[[g terms] fr]|] eqn:ER; [|discriminate R]. cbn [bind] in R. destruct (roots g) as [|p [|p' ps]] eqn:RG; try discriminate R.
  set (H := matrices e).
  destruct (build (fop H) (arity H) ltac:(intros x X; apply X) (fop_steps H) (fuel + S (meas e)) b) as [b' [ts [S0 [E BF]]]]; cbn [b b_stack b_fresh b_edges b_terms b_count].
  - cbn [map]. rewrite list_sum_cons. change (list_sum []) with 0. lia.
  - constructor; [|constructor]. split; [exact FB|]. split; [reflexivity|]. intros x X. exact X.
  - cbn [flat_map]. rewrite app_nil_r. exact ND.
  - cbn [flat_map]. rewrite app_nil_r. exact LT.
  - intros x i k0 [].
  - intros x w [].
  - rewrite (expr2graph_more fuel b b1 _ EB) in E. injection E as <-. destruct BF as [Be Br Bk Bc Bf Bt Bl Bi Ba Bcl Bp Bo Bn Bs Bfr]. inversion Br as [|x root y ts' [R1 [R2 R3]] F']; subst. inversion F'; subst. cbn [b b_edges app] in Be.
    assert (ST : static_of (arity H) root S0). { constructor; [apply Ba; cbn; auto|exact Bcl| |exact Bo|exact Bn]. intros s I. destruct (Bp s I) as [[<- |[]]|P]; auto. }
    assert (GG : good_graph str root S0 (b_edges b1) (b_terms b1)).
    { assert (EI : forall n c i, In (n, c, i) (b_edges b1) <-> exists s t, In s S0 /\ nth_error (kids s) i = Some t /\ n = nodeof s /\ c = nodeof t).
      { intros n c i. rewrite Be, in_flat_map. split.
        - intros [s [I J]]. unfold edges1 in J. apply number_In in J. destruct J as [j [t [N Q]]]. injection Q as -> -> ->. eauto 7.
        - intros [s [t [I [N [-> ->]]]]]. exists s. split; [exact I|]. unfold edges1. apply number_In. eauto. }
      constructor.
      - intros n c i J. apply EI in J. destruct J as [s [t [I [N [-> ->]]]]]. exists s, t. repeat (split; [assumption || reflexivity|]). destruct t as [l w|id' k' l']; cbn; [split; [reflexivity|exact (Bt s l w I (nth_error_In _ _ N))]|auto].
      - apply NoDup_map_on.
        + rewrite Be. apply (NoDup_map_inv dst). rewrite dst_edges. pose proof (st_nodup _ _ _ ST) as N. inversion N; assumption.
        + intros [[n c] i] [[n' c'] i'] J J' Q. unfold key, src in Q. cbn [fst snd] in Q. injection Q as <- <-. apply EI in J, J'. destruct J as [s [t [I [N [-> ->]]]]], J' as [s' [t' [I' [N' [E' ->]]]]]. assert (s = s') by (apply (node_unique _ _ _ ST); assumption). subst s'. rewrite N in N'. injection N' as <-. reflexivity.
      - intros x s J I Es NR. destruct (Bp s I) as [[EQ|[]]|[s' [I' K]]]; [congruence|]. apply In_nth_error in K. destruct K as [i K]. exists (nodeof s', nodeof s, i). split; [apply EI; eauto 7|reflexivity]. }
    assert (NM : exists h, names str h (b_terms b1) (b_fresh b1)). { exists (fun a => match find (fun p => fst p =? a) H with Some p => snd p | None => Mat 0 0 (fun _ _ => q0) end). constructor.
      - intros n w L. destruct (Bfr n w L) as [L'|[s [l [I [K ->]]]]]; [discriminate L'|]. destruct (Bo s I) as [id' [k' [l' [-> [_ HL]]]]]. specialize (HL l w K). destruct w as [a m|q]; cbn [held known] in HL |- *; [|exact Logic.I]. split; [specialize (AM a m HL); cbn [b b_fresh] in Bf; lia|]. destruct (find (fun p0 => fst p0 =? a) H) as [[a' m']|] eqn:EF.
        + apply find_some in EF. destruct EF as [EF1 EF2]. cbn in EF2. apply Nat.eqb_eq in EF2. subst a'. cbn. exact (OM a m' m EF1 HL).
        + exfalso. apply (find_none _ _ EF) in HL. cbn in HL. rewrite Nat.eqb_refl in HL. discriminate HL.
      - intros n w L. left. destruct (Bfr n w L) as [L'|[s [l [_ [_ ->]]]]]; [discriminate L'|eauto]. }
    destruct NM as [h NM]. destruct (rounds_sound str order SI OP H root S0 ST fuel h _ _ _ _ _ _ NM GG ER) as [h' [NM' GG']].
    pose proof (last_value str H root S0 ST h' g terms fr p v NM' GG' RG R) as O. rewrite R3 in O. exact O.
Qed.
