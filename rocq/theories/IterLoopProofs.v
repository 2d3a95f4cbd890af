(** Collapsing an expression by rewriting its graph: the loop (property C56) *)
From Verif Require Export IterProofs.
From Verif Require Import CollapseProofs BaseProofs MatProofs.
From Coq Require Import Permutation.

Record static_of (okq : bt -> Prop) (root : bt) (S0 : list bt) : Prop := {
  st_root : In root S0;
  st_closed : forall s c id k l, In s S0 -> In c (kids s) -> c = BO id k l -> In c S0;
  st_parent : forall s, In s S0 -> s = root \/ exists s', In s' S0 /\ In s (kids s');
  st_ok : forall s, In s S0 -> okq s;
  st_nodup : NoDup (nodeof root :: kidnodes S0)
}.
Definition static := static_of okb.
Lemma flat_map_unique {A B} (f : A -> list B) l x y z : NoDup (flat_map f l) -> In x l -> In y l -> In z (f x) -> In z (f y) -> x = y.
Proof.
  induction l as [|a l IH]; intros N X Y FX FY; [destruct X|]. cbn in N. destruct (NoDup_app_e _ _ N) as [N1 [N2 N3]].
  destruct X as [<- |X], Y as [<- |Y]; [reflexivity| | |apply IH; assumption]; exfalso; apply (N3 z); trivial; apply in_flat_map; eauto.
Qed.
Lemma flat_map_part {A B} (f : A -> list B) l x : NoDup (flat_map f l) -> In x l -> NoDup (f x).
Proof. induction l as [|a l IH]; intros N X; [destruct X|]. cbn in N. destruct (NoDup_app_e _ _ N) as [N1 [N2 N3]]. destruct X as [<- |X]; auto. Qed.
Lemma NoDup_one {A} (L : list A) x : NoDup L -> (forall e, In e L <-> e = x) -> L = [x].
Proof.
  intros N E. destruct L as [|a L]; [destruct (proj2 (E x) eq_refl)|]. assert (a = x) by (apply E; cbn; auto). subst a. f_equal. destruct L as [|b L]; [reflexivity|]. assert (b = x) by (apply E; cbn; auto). subst b. inversion N as [|u w U]; subst. exfalso. apply U. cbn. auto.
Qed.
Lemma NoDup_two {A} (L : list A) x y : x <> y -> NoDup L -> (forall e, In e L <-> e = x \/ e = y) -> L = [x; y] \/ L = [y; x].
Proof.
  intros D N E. destruct L as [|a L]; [destruct (proj2 (E x) (or_introl eq_refl))|]. inversion N as [|u w U W]; subst. destruct (proj1 (E a) (or_introl eq_refl)) as [-> | ->].
  - left. f_equal. apply NoDup_one; [exact W|]. intros e. split; [intros I; destruct (proj1 (E e) (or_intror I)) as [-> | ->]; [tauto|reflexivity]|intros ->]. destruct (proj2 (E y) (or_intror eq_refl)) as [I|I]; [congruence|exact I].
  - right. f_equal. apply NoDup_one; [exact W|]. intros e. split; [intros I; destruct (proj1 (E e) (or_intror I)) as [-> | ->]; [reflexivity|tauto]|intros ->]. destruct (proj2 (E x) (or_introl eq_refl)) as [I|I]; [congruence|exact I].
Qed.
Lemma okb_kids s : okb s -> (exists a, kids s = [a]) \/ exists a b, kids s = [a; b].
Proof. intros [[id [k [l [-> [E _]]]]] [M H]]. rewrite E in H. cbn [kids]. destruct k, l as [|a [|b [|c l]]]; cbn in H; try discriminate H; eauto. Qed.
Lemma okb_op s : okb s -> exists id k l, s = BO id k l.
Proof. intros [[id [k [l [-> _]]]] _]. eauto. Qed.
Lemma node_eqb_dec (a b : node) : {a = b} + {a <> b}.
Proof. destruct (node_eqb_spec a b); auto. Qed.

(** Collapsing one node *)
Lemma veq_mat a M : veq (value a) (VMat M) -> exists x m, a = OMat x m /\ meq m M.
Proof. destruct a; cbn; [eauto|tauto]. Qed.
Lemma collapse_node_good fresh id k l args : okb (BO id k l) -> Forall2 (fun a c => oeq (Some (value a)) (evb c)) args l ->
  exists m, collapse_node fresh k args = Ok (OMat fresh m) /\ oeq (Some (VMat m)) (evb (BO id k l)).
Proof.
  intros [[id' [k' [l' [E [EV KM]]]]] [M HM]] F. injection E as <- <- <-. rewrite HM. rewrite EV in HM.
  assert (VM : forall a c P, oeq (Some (value a)) (evb c) -> evb c = Some (VMat P) -> exists x m, a = OMat x m /\ meq m P). { intros a c P H R. rewrite R in H. cbn in H. apply veq_mat. exact H. }
  destruct k, l as [|c1 [|c2 [|c3 l]]]; cbn [map evk] in HM; try discriminate HM.
  - inversion F as [|a1 x as1 y F1 F' ]; subst. inversion F' as [|a2 x2 as2 y2 F2 F'']; subst. inversion F''; subst. destruct (KM ltac:(discriminate) c1) as [P HP]; [cbn; auto|]. destruct (KM ltac:(discriminate) c2) as [Q HQ]; [cbn; auto|]. destruct (VM _ _ _ F1 HP) as [x1 [m1 [-> E1]]]. destruct (VM _ _ _ F2 HQ) as [x2' [m2 [-> E2]]]. rewrite HP, HQ in HM. cbn [obind vadd_] in HM. cbn [collapse_node].
    pose proof E1 as (R1 & C1 & _). pose proof E2 as (R2 & C2 & _). rewrite R1, R2, C1, C2. destruct ((nr P =? nr Q) && (nc P =? nc Q)) eqn:EB; [|discriminate HM]. injection HM as <-. cbn [py_assert bind]. apply andb_prop in EB. destruct EB as [EB1 EB2]. apply Nat.eqb_eq in EB1, EB2. exists (madd m1 m2). split; [reflexivity|]. cbn. apply madd_meq; [assumption|assumption|congruence|congruence].
  - inversion F as [|a1 x as1 y F1 F' ]; subst. inversion F' as [|a2 x2 as2 y2 F2 F'']; subst. inversion F''; subst. destruct (KM ltac:(discriminate) c1) as [P HP]; [cbn; auto|]. destruct (KM ltac:(discriminate) c2) as [Q HQ]; [cbn; auto|]. destruct (VM _ _ _ F1 HP) as [x1 [m1 [-> E1]]]. destruct (VM _ _ _ F2 HQ) as [x2' [m2 [-> E2]]]. rewrite HP, HQ in HM. cbn [obind vsub_] in HM. cbn [collapse_node].
    pose proof E1 as (R1 & C1 & _). pose proof E2 as (R2 & C2 & _). rewrite R1, R2, C1, C2. destruct ((nr P =? nr Q) && (nc P =? nc Q)) eqn:EB; [|discriminate HM]. injection HM as <-. cbn [py_assert bind]. apply andb_prop in EB. destruct EB as [EB1 EB2]. apply Nat.eqb_eq in EB1, EB2. exists (msub m1 m2). split; [reflexivity|]. cbn. apply msub_meq; [assumption|assumption|congruence|congruence].
  - inversion F as [|a1 x as1 y F1 F' ]; subst. inversion F' as [|a2 x2 as2 y2 F2 F'']; subst. inversion F''; subst. pose proof (omul_proper _ _ _ _ F1 F2) as O. rewrite HM in O. destruct a1 as [x1 m1|q1], a2 as [y1 m2|q2]; cbn [omul obind value vmul oeq] in O; cbn [collapse_node].
    + destruct (nc m1 =? nr m2); [|destruct O]. cbn [py_assert bind]. eexists. split; [reflexivity|]. exact O.
    + eexists. split; [reflexivity|]. exact O.
    + eexists. split; [reflexivity|]. exact O.
    + destruct O.
  - inversion F as [|a1 x as1 y F1 F' ]; subst. inversion F'; subst. destruct (KM ltac:(discriminate) c1) as [P HP]; [cbn; auto|]. destruct (VM _ _ _ F1 HP) as [x1 [m1 [-> E1]]]. rewrite HP in HM. injection HM as <-. cbn [collapse_node]. exists (mtr m1). split; [reflexivity|]. cbn. apply mtr_meq. exact E1.
Qed.

Section Static.
Variable okq : bt -> Prop.
Variable root : bt.
Variable S0 : list bt.
Hypothesis ST : static_of okq root S0.
Lemma kids_unique s s' i j c c' : In s S0 -> In s' S0 -> nth_error (kids s) i = Some c -> nth_error (kids s') j = Some c' -> nodeof c = nodeof c' -> s = s' /\ i = j /\ c = c'.
Proof.
  intros I I' N N' E. pose proof (st_nodup _ _ _ ST) as ND. inversion ND as [|x y X Y]; subst.
  assert (M1 : nth_error (map nodeof (kids s)) i = Some (nodeof c)) by (apply map_nth_error; exact N). assert (M2 : nth_error (map nodeof (kids s')) j = Some (nodeof c)) by (rewrite E; apply map_nth_error; exact N').
  assert (s = s') by (apply (flat_map_unique _ _ _ _ (nodeof c) Y I I'); [exact (nth_error_In _ _ M1)|exact (nth_error_In _ _ M2)]). subst s'.
  pose proof (flat_map_part _ _ _ Y I) as P. cbn beta in P. assert (i = j). { apply (proj1 (NoDup_nth_error _) P); [apply nth_error_Some; rewrite M1; discriminate|rewrite M1, M2; reflexivity]. } subst j. split; [reflexivity|]. split; [reflexivity|congruence].
Qed.
Lemma root_no_kid s c : In s S0 -> In c (kids s) -> nodeof c <> nodeof root.
Proof. intros I K E. pose proof (st_nodup _ _ _ ST) as ND. inversion ND as [|x y X Y]; subst. apply X. unfold kidnodes. apply in_flat_map. exists s. split; [exact I|]. rewrite <- E. apply in_map. exact K. Qed.
Lemma node_unique s s' : In s S0 -> In s' S0 -> nodeof s = nodeof s' -> s = s'.
Proof.
  intros I I' E. destruct (st_parent _ _ _ ST s I) as [-> |[p [P K]]], (st_parent _ _ _ ST s' I') as [-> |[p' [P' K']]].
  - reflexivity.
  - exfalso. apply (root_no_kid p' s' P' K'). congruence.
  - exfalso. apply (root_no_kid p s P K). congruence.
  - apply In_nth_error in K, K'. destruct K as [i K], K' as [j K']. apply (kids_unique p p' i j s s' P P' K K' E).
Qed.
End Static.

Section Loop.
Variable str : nat -> mat -> nat.
Variable order : list tree -> list tree.
Hypothesis str_inj : forall a m a' m', str a m = str a' m' -> a = a'.
Hypothesis order_perm : forall l, Permutation (order l) l.
Variable root : bt.
Variable S0 : list bt.
Hypothesis ST : static root S0.

Definition cur (al : list bt) (nm : node -> node) (c : bt) : node :=
  match c with BT l _ => NLab l | BO id k _ => if member (NOp id k) (map nodeof al) then NOp id k else nm (NOp id k) end.
Lemma member_spec n l : reflect (In n l) (member n l).
Proof.
  apply iff_reflect. unfold member. rewrite existsb_exists. split; [intros I; exists n; split; [exact I|apply node_eqb_refl]|]. intros [m [I E]]. destruct (node_eqb_spec n m); [congruence|discriminate E].
Qed.
Record inv (al : list bt) (nm : node -> node) (g : list edge) (terms : list (node * obj)) (fresh : nat) : Prop := {
  v_root : In root al;
  v_incl : forall s, In s al -> In s S0;
  v_up : forall s c, In s S0 -> In c (kids s) -> In c al -> In s al;
  v_g : forall e, In e g <-> exists s i c, In s al /\ nth_error (kids s) i = Some c /\ e = (nodeof s, cur al nm c, i);
  v_gn : NoDup g;
  v_lab : forall s l v, In s S0 -> In (BT l v) (kids s) -> lookup (NLab l) terms = Ok v;
  v_str : forall c, In c S0 -> ~ In c al -> exists a m, nm (nodeof c) = NStr (str a m) /\ a < fresh /\ lookup (NStr (str a m)) terms = Ok (OMat a m) /\ oeq (Some (VMat m)) (evb c);
  v_inj : forall c c', In c S0 -> In c' S0 -> ~ In c al -> ~ In c' al -> nm (nodeof c) = nm (nodeof c') -> c = c'
}.
Section Inv.
Variables (al : list bt) (nm : node -> node) (g : list edge) (terms : list (node * obj)) (fresh : nat).
Hypothesis V : inv al nm g terms fresh.
Lemma alive_node c : In c S0 -> (In (nodeof c) (map nodeof al) <-> In c al).
Proof.
  intros I. split; [|apply in_map]. intros J. apply in_map_iff in J. destruct J as [s [E J]]. assert (s = c) by (apply (node_unique okb root S0 ST); [exact (v_incl _ _ _ _ _ V s J)|exact I|exact E]). subst. exact J.
Qed.
Lemma alive_dec c : In c S0 -> In c al \/ ~ In c al.
Proof. intros I. destruct (member_spec (nodeof c) (map nodeof al)) as [M|M]; rewrite alive_node in M by exact I; auto. Qed.
Lemma cur_alive c : In c S0 -> In c al -> cur al nm c = nodeof c.
Proof. intros I A. destruct (okb_op c (st_ok _ _ _ ST c I)) as [id [k [l ->]]]. cbn. destruct (member_spec (NOp id k) (map nodeof al)) as [M|M]; [reflexivity|]. exfalso. apply M. apply (in_map nodeof) in A. exact A. Qed.
Lemma cur_dead c : In c S0 -> ~ In c al -> cur al nm c = nm (nodeof c).
Proof. intros I A. destruct (okb_op c (st_ok _ _ _ ST c I)) as [id [k [l ->]]]. cbn [cur nodeof]. destruct (member_spec (NOp id k) (map nodeof al)) as [M|M]; [|reflexivity]. exfalso. apply A. apply alive_node; assumption. Qed.
(** The nodes below an operator *)
Lemma cur_cases s c : In s S0 -> In c (kids s) -> (exists l v, c = BT l v /\ cur al nm c = NLab l) \/ (In c S0 /\ In c al /\ cur al nm c = nodeof c) \/ (In c S0 /\ ~ In c al /\ cur al nm c = nm (nodeof c)).
Proof.
  intros I K. destruct c as [l v|id k l]; [left; eexists _, _; split; reflexivity|]. right. pose proof (st_closed _ _ _ ST _ _ _ _ _ I K eq_refl) as C. destruct (alive_dec _ C) as [A|A]; [left; split; [exact C|split; [exact A|apply cur_alive; assumption]]|right; split; [exact C|split; [exact A|apply cur_dead; assumption]]].
Qed.
Lemma cur_inj s c s' c' : In s S0 -> In c (kids s) -> In s' S0 -> In c' (kids s') -> cur al nm c = cur al nm c' -> c = c'.
Proof.
  intros I K I' K' E.
  set (nk := fun n => match n with NOp _ _ => 0 | NLab _ => 1 | NStr _ => 2 | NNum _ => 3 end).
  assert (NK : forall c, In c S0 -> ~ In c al -> nk (nm (nodeof c)) = 2) by (intros x X A; destruct (v_str _ _ _ _ _ V x X A) as [a [m [H _]]]; rewrite H; reflexivity).
  assert (OP : forall c, In c S0 -> nk (nodeof c) = 0) by (intros x X; destruct (okb_op x (st_ok _ _ _ ST x X)) as [i [k [l ->]]]; reflexivity).
  destruct (cur_cases s c I K) as [[l [v [-> C]]]|[[X [A C]]|[X [A C]]]], (cur_cases s' c' I' K') as [[l' [v' [-> C']]]|[[X' [A' C']]|[X' [A' C']]]]; rewrite C, C' in E;
    pose proof (f_equal nk E) as Q; try rewrite (NK _ X A) in Q; try rewrite (OP _ X) in Q; try rewrite (NK _ X' A') in Q; try rewrite (OP _ X') in Q; cbn [nk] in Q; try discriminate Q; clear Q.
  - injection E as <-. apply In_nth_error in K, K'. destruct K as [i K], K' as [j K']. apply (kids_unique okb root S0 ST s s' i j _ _ I I' K K'). reflexivity.
  - apply (node_unique okb root S0 ST); assumption.
  - apply (v_inj _ _ _ _ _ V); assumption.
Qed.
Lemma children_al s : In s al -> children_of g (nodeof s) = map (cur al nm) (kids s).
Proof.
  intros A. pose proof (v_incl _ _ _ _ _ V s A) as I. unfold children_of.
  set (L := filter (fun e => node_eqb (src e) (nodeof s)) g).
  assert (LI : forall e, In e L <-> exists i c, nth_error (kids s) i = Some c /\ e = (nodeof s, cur al nm c, i)).
  { intros e. unfold L. rewrite filter_In, (v_g _ _ _ _ _ V). split.
    - intros [[s' [i [c [A' [N ->]]]]] E]. cbn in E. destruct (node_eqb_spec (nodeof s') (nodeof s)) as [E'|]; [|discriminate E]. assert (s' = s) by (apply (node_unique okb root S0 ST); [exact (v_incl _ _ _ _ _ V s' A')|exact I|exact E']). subst. eauto.
    - intros [i [c [N ->]]]. split; [eauto 7|cbn; apply node_eqb_refl]. }
  assert (LN : NoDup L) by (apply NoDup_filter; exact (v_gn _ _ _ _ _ V)).
  destruct (okb_kids s (st_ok _ _ _ ST s I)) as [[a K]|[a [b K]]]; rewrite K in LI |- *.
  - assert (E : L = [(nodeof s, cur al nm a, 0)]). { apply NoDup_one; [exact LN|]. intros e. rewrite LI. split; [intros [[|[|i]] [c [N ->]]]; try discriminate N; injection N as <-; reflexivity|intros ->; exists 0, a; split; reflexivity]. } rewrite E. reflexivity.
  - assert (E : L = [(nodeof s, cur al nm a, 0); (nodeof s, cur al nm b, 1)] \/ L = [(nodeof s, cur al nm b, 1); (nodeof s, cur al nm a, 0)]).
    { apply NoDup_two; [congruence|exact LN|]. intros e. rewrite LI. split; [intros [[|[|[|i]]] [c [N ->]]]; try discriminate N; injection N as <-; auto|intros [-> | ->]; [exists 0, a; split; reflexivity|exists 1, b; split; reflexivity]]. }
    destruct E as [-> | ->]; reflexivity.
Qed.
Lemma sources n : In n (map src g) <-> exists s, In s al /\ n = nodeof s.
Proof.
  rewrite in_map_iff. split.
  - intros [e [<- I]]. apply (v_g _ _ _ _ _ V) in I. destruct I as [s [i [c [A [_ ->]]]]]. eauto.
  - intros [s [A ->]]. assert (K : exists c, nth_error (kids s) 0 = Some c) by (destruct (okb_kids s (st_ok _ _ _ ST s (v_incl _ _ _ _ _ V s A))) as [[a ->]|[a [b ->]]]; cbn; eauto). destruct K as [c K]. exists (nodeof s, cur al nm c, 0). split; [reflexivity|]. apply (v_g _ _ _ _ _ V). eauto 7.
Qed.
Lemma leaf_spec n : is_leaf g n = true <-> ~ In n (map src g).
Proof.
  unfold is_leaf. rewrite negb_true_iff. split.
  - intros E I. apply in_map_iff in I. destruct I as [e [<- I]]. apply not_true_iff_false in E. apply E. apply existsb_exists. exists e. split; [exact I|apply node_eqb_refl].
  - intros N. apply not_true_iff_false. intros E. apply existsb_exists in E. destruct E as [e [I E]]. destruct (node_eqb_spec (src e) n) as [<- |]; [|discriminate E]. apply N. apply in_map. exact I.
Qed.
Lemma distinct_In n l : In n (distinct l) <-> In n l.
Proof.
  induction l as [|a l IH]; cbn; [tauto|]. rewrite filter_In, IH. split; [tauto|]. intros [-> |I]; [auto|]. destruct (node_eqb_spec a n) as [-> |N]; auto.
Qed.
Lemma distinct_NoDup l : NoDup (distinct l).
Proof. induction l as [|a l IH]; cbn; constructor; [|apply NoDup_filter; exact IH]. rewrite filter_In, node_eqb_refl. intros [_ E]. discriminate E. Qed.
Definition valid (t : tree) : Prop := exists s, In s al /\ t = (nodeof s, map (cur al nm) (kids s)) /\ forall c, In c (kids s) -> ~ In c al.
Lemma kid_leaf s c : In s S0 -> In c (kids s) -> (is_leaf g (cur al nm c) = true <-> ~ In c al).
Proof.
  intros I K. rewrite leaf_spec, sources. split.
  - intros N A. apply N. exists c. split; [exact A|]. apply cur_alive; [exact (v_incl _ _ _ _ _ V c A)|exact A].
  - intros A [s' [A' E]]. destruct (okb_op s' (st_ok _ _ _ ST s' (v_incl _ _ _ _ _ V s' A'))) as [id [k [l H]]]. destruct (cur_cases s c I K) as [[l' [v [-> C]]]|[[X [B C]]|[X [B C]]]]; [rewrite C, H in E; discriminate E|tauto|]. destruct (v_str _ _ _ _ _ V c X B) as [a [m [N _]]]. rewrite C, N, H in E. discriminate E.
Qed.
Lemma collapsable_spec t : In t (collapsable_trees g) <-> valid t.
Proof.
  unfold collapsable_trees. rewrite in_map_iff. split.
  - intros [p [<- P]]. apply filter_In in P. destruct P as [P F]. unfold roots in P. rewrite distinct_In, sources in P. destruct P as [s [A ->]]. rewrite (children_al s A) in F |- *. exists s. split; [exact A|]. split; [reflexivity|]. intros c K. apply (kid_leaf s c (v_incl _ _ _ _ _ V s A) K). rewrite forallb_forall in F. apply F. apply in_map. exact K.
  - intros [s [A [-> L]]]. exists (nodeof s). split; [rewrite (children_al s A); reflexivity|]. apply filter_In. split; [unfold roots; apply distinct_In; apply sources; eauto|]. rewrite (children_al s A). apply forallb_forall. intros n I. apply in_map_iff in I. destruct I as [c [<- K]]. apply (kid_leaf s c (v_incl _ _ _ _ _ V s A) K). exact (L c K).
Qed.
Lemma collapsable_roots : NoDup (map fst (collapsable_trees g)).
Proof. unfold collapsable_trees. rewrite map_map, map_id. apply NoDup_filter. apply distinct_NoDup. Qed.
(** There is always something to collapse *)
Lemma smallest (l : list bt) : l <> [] -> exists s, In s l /\ forall c, In c l -> bsize s <= bsize c.
Proof.
  induction l as [|a l IH]; [congruence|]. intros _. destruct l as [|b l]; [exists a; split; [cbn; auto|]; intros c [<- |[]]; lia|]. destruct IH as [s [I M]]; [discriminate|]. destruct (Nat.le_gt_cases (bsize a) (bsize s)) as [L|L]; [exists a|exists s]; (split; [cbn in *; tauto|]); intros c [<- |C]; try lia; specialize (M c C); lia.
Qed.
Lemma progress : exists t, valid t.
Proof.
  destruct (smallest al) as [s [A M]]; [intros E; pose proof (v_root _ _ _ _ _ V) as R; rewrite E in R; destruct R|]. exists (nodeof s, map (cur al nm) (kids s)), s. split; [exact A|]. split; [reflexivity|]. intros c K C. specialize (M c C). apply bsize_kid in K. lia.
Qed.
Lemma only_root : (forall c, In c (kids root) -> ~ In c al) -> forall s, In s al -> s = root.
Proof.
  intros N s A. assert (G : forall n s, In s al -> list_sum (map bsize S0) < bsize s + n -> s = root).
  { clear s A. assert (B : forall s, In s S0 -> bsize s <= list_sum (map bsize S0)). { intros s I. apply in_split in I. destruct I as [l1 [l2 ->]]. rewrite map_app, list_sum_app. cbn [map]. rewrite list_sum_cons. lia. }
    induction n as [|n IH]; intros s A L; [specialize (B s (v_incl _ _ _ _ _ V s A)); lia|]. destruct (st_parent _ _ _ ST s (v_incl _ _ _ _ _ V s A)) as [E|[p [P K]]]; [exact E|]. pose proof (v_up _ _ _ _ _ V p s P K A) as AP. assert (p = root) by (apply IH; [exact AP|pose proof (bsize_kid p s K); lia]). subst p. exfalso. exact (N s K A). }
  apply (G (S (list_sum (map bsize S0))) s A). lia.
Qed.
(** The value of a tree *)
Lemma tree_value s : In s al -> (forall c, In c (kids s) -> ~ In c al) -> exists m, collapse_tree fresh (nodeof s, map (cur al nm) (kids s)) terms = Ok (OMat fresh m) /\ oeq (Some (VMat m)) (evb s).
Proof.
  intros A L. pose proof (v_incl _ _ _ _ _ V s A) as I. unfold collapse_tree. cbn [fst snd].
  assert (G : forall l, (forall c, In c l -> In c (kids s)) -> exists args, mapM (fun c => lookup c terms) (map (cur al nm) l) = Ok args /\ Forall2 (fun a c => oeq (Some (value a)) (evb c)) args l).
  { induction l as [|c l IH]; intros Sub; [exists []; split; [reflexivity|constructor]|]. destruct IH as [args [E F]]; [intros x X; apply Sub; cbn; auto|]. cbn [map]. rewrite mapM_cons.
    assert (X : exists a, lookup (cur al nm c) terms = Ok a /\ oeq (Some (value a)) (evb c)).
    { pose proof (Sub c (or_introl eq_refl)) as K. destruct (cur_cases s c I K) as [[l' [v [-> C]]]|[[X [B C]]|[X [B C]]]].
      - rewrite C. exists v. split; [exact (v_lab _ _ _ _ _ V s l' v I K)|]. apply oeq_refl.
      - exfalso. exact (L c K B).
      - destruct (v_str _ _ _ _ _ V c X B) as [a [m [N [_ [LK EQ]]]]]. rewrite C, N, LK. exists (OMat a m). split; [reflexivity|exact EQ]. }
    destruct X as [a [-> X]]. cbn [bind]. rewrite E. exists (a :: args). split; [reflexivity|]. constructor; assumption. }
  destruct (G (kids s)) as [args [E F]]; [auto|]. rewrite E. cbn [bind]. destruct (okb_op s (st_ok _ _ _ ST s I)) as [id [k [l H]]]. pose proof (st_ok _ _ _ ST s I) as OK. subst s. cbn [nodeof]. apply collapse_node_good; [exact OK|exact F].
Qed.
(** No node of the graph has the name of a new matrix *)
Lemma new_name s c m : In s S0 -> In c (kids s) -> cur al nm c <> NStr (str fresh m).
Proof.
  intros I K E. destruct (cur_cases s c I K) as [[l' [v [-> C]]]|[[X [B C]]|[X [B C]]]]; rewrite C in E.
  - discriminate E.
  - destruct (okb_op c (st_ok _ _ _ ST c X)) as [id [k [l ->]]]. discriminate E.
  - destruct (v_str _ _ _ _ _ V c X B) as [a [m' [N [LT _]]]]. rewrite N in E. injection E as E. apply str_inj in E. lia.
Qed.
Lemma lookup_new n m v : (forall a m', n = NStr (str a m') -> a < fresh) -> (forall x, n <> NNum x) -> lookup n (assign (NStr (str fresh m)) v terms) = lookup n terms.
Proof. intros N _. rewrite lookup_assign. destruct (node_eqb_spec (NStr (str fresh m)) n) as [<- |_]; [|reflexivity]. specialize (N _ _ eq_refl). lia. Qed.
Lemma keep_terms m : inv al nm g (assign (NStr (str fresh m)) (OMat fresh m) terms) (S fresh).
Proof.
  destruct V as [V1 V2 V3 V4 V5 V6 V7 V8]. constructor; auto.
  - intros s l v I K. rewrite lookup_new; [exact (V6 s l v I K)|discriminate|discriminate].
  - intros c I A. destruct (V7 c I A) as [a [m' [N [LT [LK EQ]]]]]. exists a, m'. split; [exact N|]. split; [lia|]. split; [|exact EQ]. rewrite lookup_new; [exact LK| |discriminate]. intros a' m'' E. injection E as E. apply str_inj in E. lia.
Qed.
(** Collapsing a tree that is not the whole *)
Definition drop (s : bt) : list bt := filter (fun x => negb (node_eqb (nodeof x) (nodeof s))) al.
Definition rename (s : bt) (n : node) : node -> node := fun x => if node_eqb x (nodeof s) then n else nm x.
Lemma drop_In s x : In s al -> (In x (drop s) <-> In x al /\ x <> s).
Proof.
  intros A. unfold drop. rewrite filter_In, negb_true_iff. split; intros [X Y]; (split; [exact X|]).
  - intros ->. rewrite node_eqb_refl in Y. discriminate Y.
  - destruct (node_eqb_spec (nodeof x) (nodeof s)) as [E|]; [|reflexivity]. exfalso. apply Y. apply (node_unique okb root S0 ST); [exact (v_incl _ _ _ _ _ V x X)|exact (v_incl _ _ _ _ _ V s A)|exact E].
Qed.
Lemma drop_length s : In s al -> length (drop s) < length al.
Proof.
  intros A. unfold drop. apply in_split in A. destruct A as [l1 [l2 ->]]. rewrite filter_app, !app_length. cbn [filter]. rewrite node_eqb_refl. cbn [negb length].
  assert (F : forall l, length (filter (fun x => negb (node_eqb (nodeof x) (nodeof s))) l) <= length l) by (intros l; induction l as [|a l IH]; cbn; [lia|destruct (negb _); cbn; lia]). pose proof (F l1). pose proof (F l2). lia.
Qed.
Lemma cur_drop s n x c : In s al -> In x S0 -> In c (kids x) -> cur (drop s) (rename s n) c = if node_eqb (nodeof c) (nodeof s) then n else cur al nm c.
Proof.
  intros A I K. destruct (okb_op s (st_ok _ _ _ ST s (v_incl _ _ _ _ _ V s A))) as [id [k [l Es]]]. destruct c as [l' v|i k0 l0]; [cbn; rewrite Es; reflexivity|].
  pose proof (st_closed _ _ _ ST _ _ _ _ _ I K eq_refl) as C. cbn [cur]. unfold rename. change (NOp i k0) with (nodeof (BO i k0 l0)). set (c := BO i k0 l0) in *. destruct (node_eqb_spec (nodeof c) (nodeof s)) as [E|E].
  - assert (c = s) by (apply (node_unique okb root S0 ST); [exact C|exact (v_incl _ _ _ _ _ V s A)|exact E]). destruct (member_spec (nodeof c) (map nodeof (drop s))) as [M|M]; [|reflexivity]. exfalso. apply in_map_iff in M. destruct M as [y [Y1 Y2]]. apply drop_In in Y2; [|exact A]. destruct Y2 as [Y2 Y3]. apply Y3. apply (node_unique okb root S0 ST); [exact (v_incl _ _ _ _ _ V y Y2)|exact (v_incl _ _ _ _ _ V s A)|congruence].
  - destruct (member_spec (nodeof c) (map nodeof (drop s))) as [M|M], (member_spec (nodeof c) (map nodeof al)) as [M'|M']; try reflexivity; exfalso.
    + apply M'. apply in_map_iff in M. destruct M as [y [Y1 Y2]]. rewrite <- Y1. apply in_map. apply drop_In in Y2; tauto.
    + apply M. apply in_map_iff in M'. destruct M' as [y [Y1 Y2]]. rewrite <- Y1. apply in_map. apply drop_In; [exact A|]. split; [exact Y2|]. intros ->. congruence.
Qed.
Lemma step_tree s m : In s al -> s <> root -> (forall c, In c (kids s) -> ~ In c al) -> oeq (Some (VMat m)) (evb s) ->
  exists g', replace_tree g (nodeof s, map (cur al nm) (kids s)) (NStr (str fresh m)) = Ok (g', false) /\
  inv (drop s) (rename s (NStr (str fresh m))) g' (assign (NStr (str fresh m)) (OMat fresh m) terms) (S fresh).
Proof.
  intros A NR L EV. pose proof (v_incl _ _ _ _ _ V s A) as I. destruct (st_parent _ _ _ ST s I) as [E|[p [P K]]]; [contradiction|].
  pose proof (v_up _ _ _ _ _ V p s P K A) as AP. destruct (In_nth_error _ _ K) as [ip Kp].
  unfold replace_tree. cbn [fst snd].
  assert (FE : filter (fun e => node_eqb (dst e) (nodeof s)) g = [(nodeof p, nodeof s, ip)]).
  { apply NoDup_one; [apply NoDup_filter; exact (v_gn _ _ _ _ _ V)|]. intros e. rewrite filter_In, (v_g _ _ _ _ _ V). split.
    - intros [[x [i [c [AX [N ->]]]]] D]. unfold dst in D. cbn [fst snd] in D. destruct (node_eqb_spec (cur al nm c) (nodeof s)) as [E|]; [|discriminate D]. pose proof (v_incl _ _ _ _ _ V x AX) as X. rewrite <- (cur_alive s I A) in E. assert (c = s) by (apply (cur_inj x c p s X (nth_error_In _ _ N) P K E)). subst c. destruct (kids_unique okb root S0 ST x p i ip s s X P N Kp eq_refl) as [-> [-> _]]. rewrite cur_alive by assumption. reflexivity.
    - intros ->. split; [exists p, ip, s; split; [exact AP|]; split; [exact Kp|]; rewrite cur_alive by assumption; reflexivity|]. unfold dst. cbn. apply node_eqb_refl. }
  rewrite FE. unfold src at 1. cbn [fst snd].
  set (tn := nodeof s :: map (cur al nm) (kids s)). set (g0 := filter (fun e => negb (member (src e) tn || member (dst e) tn)) g).
  assert (G0 : forall e, In e g0 <-> exists x i c, In x al /\ x <> s /\ c <> s /\ nth_error (kids x) i = Some c /\ e = (nodeof x, cur al nm c, i)).
  { intros e. unfold g0. rewrite filter_In, (v_g _ _ _ _ _ V), negb_true_iff, orb_false_iff. split.
    - intros [[x [i [c [AX [N ->]]]]] [D1 D2]]. exists x, i, c. unfold src, dst in D1, D2. cbn [fst snd] in D1, D2. split; [exact AX|]. split; [intros ->; destruct (member_spec (nodeof s) tn) as [|M]; [discriminate D1|]; apply M; cbn; auto|]. split; [|auto]. intros ->. rewrite cur_alive in D2 by assumption. destruct (member_spec (nodeof s) tn) as [|M]; [discriminate D2|]. apply M. cbn. auto.
    - intros [x [i [c [AX [XS [CS [N ->]]]]]]]. pose proof (v_incl _ _ _ _ _ V x AX) as X. pose proof (nth_error_In _ _ N) as KX. split; [eauto 7|]. unfold src, dst. cbn [fst snd]. split.
      + destruct (member_spec (nodeof x) tn) as [M|]; [|reflexivity]. exfalso. destruct M as [M|M]; [apply XS; apply (node_unique okb root S0 ST); auto|]. apply in_map_iff in M. destruct M as [c' [E K']]. rewrite <- (cur_alive x X AX) in E. destruct (okb_op x (st_ok _ _ _ ST x X)) as [ix [kx [lx Ex]]].
        destruct (cur_cases s c' I K') as [[l' [v [-> C]]]|[[Y [B C]]|[Y [B C]]]]; [rewrite C, cur_alive, Ex in E by assumption; discriminate E|exact (L c' K' B)|]. destruct (v_str _ _ _ _ _ V c' Y B) as [a [m' [N' _]]]. rewrite C, N', cur_alive, Ex in E by assumption. discriminate E.
      + destruct (member_spec (cur al nm c) tn) as [M|]; [|reflexivity]. exfalso. destruct M as [M|M].
        * rewrite <- (cur_alive s I A) in M. apply CS. symmetry. exact (cur_inj p s x c P K X KX M).
        * apply in_map_iff in M. destruct M as [c' [E K']]. pose proof (cur_inj s c' x c I K' X KX E) as EC. subst c'. destruct (In_nth_error _ _ K') as [j Kj]. destruct (kids_unique okb root S0 ST s x j i c c I X Kj N eq_refl) as [-> _]. congruence. }
  assert (NE : forall j, ~ In (nodeof p, NStr (str fresh m), j) g0).
  { intros j J. apply G0 in J. destruct J as [x [i [c [AX [_ [_ [N E]]]]]]]. injection E as _ E _. exact (new_name x c m (v_incl _ _ _ _ _ V x AX) (nth_error_In _ _ N) (eq_sym E)). }
  rewrite add_edge_new by exact NE. eexists. split; [reflexivity|].
  assert (PS : p <> s) by (intros ->; apply bsize_kid in K; lia).
  constructor.
  - apply drop_In; [exact A|]. split; [exact (v_root _ _ _ _ _ V)|congruence].
  - intros x X. apply drop_In in X; [|exact A]. apply (v_incl _ _ _ _ _ V). tauto.
  - intros x c X KX C. apply drop_In in C; [|exact A]. apply drop_In; [exact A|]. split; [apply (v_up _ _ _ _ _ V x c X KX); tauto|]. intros ->. exact (L c KX (proj1 C)).
  - intros e. rewrite in_app_iff, G0. split.
    + intros [[x [i [c [AX [XS [CS [N ->]]]]]]]|[<- |[]]].
      * exists x, i, c. pose proof (v_incl _ _ _ _ _ V x AX) as X. pose proof (nth_error_In _ _ N) as KX. split; [apply drop_In; auto|]. split; [exact N|]. rewrite (cur_drop s _ x c A X KX). destruct (node_eqb_spec (nodeof c) (nodeof s)) as [E|_]; [|reflexivity]. exfalso. apply CS. apply (kids_unique okb root S0 ST x p i ip c s X P N Kp E).
      * exists p, ip, s. split; [apply drop_In; auto|]. split; [exact Kp|]. rewrite (cur_drop s _ p s A P K), node_eqb_refl. reflexivity.
    + intros [x [i [c [AX [N ->]]]]]. apply drop_In in AX; [|exact A]. destruct AX as [AX XS]. pose proof (v_incl _ _ _ _ _ V x AX) as X. pose proof (nth_error_In _ _ N) as KX. rewrite (cur_drop s _ x c A X KX). destruct (node_eqb_spec (nodeof c) (nodeof s)) as [E|E].
      * right. left. destruct (kids_unique okb root S0 ST x p i ip c s X P N Kp E) as [-> [-> _]]. reflexivity.
      * left. exists x, i, c. repeat (split; [assumption || (intros ->; apply E; reflexivity)|]). reflexivity.
  - apply NoDup_app_i; [apply NoDup_filter; exact (v_gn _ _ _ _ _ V)|constructor; [intros []|constructor]|]. intros e J [<- |[]]. exact (NE _ J).
  - intros x l v X KX. rewrite lookup_new; [exact (v_lab _ _ _ _ _ V x l v X KX)|discriminate|discriminate].
  - intros c C D. destruct (node_eqb_spec (nodeof c) (nodeof s)) as [E|E].
    + assert (c = s) by (apply (node_unique okb root S0 ST); assumption). subst c. exists fresh, m. unfold rename. rewrite node_eqb_refl. split; [reflexivity|]. split; [lia|]. split; [rewrite lookup_assign, node_eqb_refl; reflexivity|exact EV].
    + assert (DA : ~ In c al). { intros J. apply D. apply drop_In; [exact A|]. split; [exact J|]. intros ->. apply E. reflexivity. }
      destruct (v_str _ _ _ _ _ V c C DA) as [a [m' [N' [LT [LK EQ]]]]]. exists a, m'. unfold rename. destruct (node_eqb_spec (nodeof c) (nodeof s)) as [|_]; [contradiction|]. split; [exact N'|]. split; [lia|]. split; [|exact EQ]. rewrite lookup_new; [exact LK| |discriminate]. intros a' m'' Q. injection Q as Q. apply str_inj in Q. lia.
  - assert (DD : forall c, In c S0 -> ~ In c (drop s) -> nodeof c <> nodeof s -> ~ In c al). { intros c C D E J. apply D. apply drop_In; [exact A|]. split; [exact J|]. intros ->. apply E. reflexivity. }
    assert (NF : forall c, In c S0 -> ~ In c al -> nm (nodeof c) <> NStr (str fresh m)). { intros c C D E. destruct (v_str _ _ _ _ _ V c C D) as [a [m' [N' [LT _]]]]. rewrite N' in E. injection E as E. apply str_inj in E. lia. }
    intros c c' C C' D D'. unfold rename. destruct (node_eqb_spec (nodeof c) (nodeof s)) as [E|E], (node_eqb_spec (nodeof c') (nodeof s)) as [E'|E']; intros H.
    + apply (node_unique okb root S0 ST); congruence.
    + exfalso. apply (NF c' C' (DD c' C' D' E')). auto.
    + exfalso. apply (NF c C (DD c C D E)). auto.
    + apply (v_inj _ _ _ _ _ V); auto.
Qed.
End Inv.
Lemma valid_keep al nm g terms fresh s n t : inv al nm g terms fresh -> In s al -> valid al nm t -> fst t <> nodeof s -> valid (drop al s) (rename nm s n) t.
Proof.
  intros V A [x [AX [-> L]]] NS. cbn in NS. pose proof (v_incl _ _ _ _ _ V x AX) as X. exists x. split; [apply (drop_In al nm g terms fresh V); [exact A|split; [exact AX|congruence]]|]. split.
  - f_equal. apply map_ext_in. intros c K. rewrite (cur_drop al nm g terms fresh V s n x c A X K). destruct (node_eqb_spec (nodeof c) (nodeof s)) as [E|_]; [|reflexivity]. exfalso. apply (L c K). apply (alive_node al nm g terms fresh V); [|rewrite E; apply in_map; exact A]. destruct c as [l v|i k l]; [|exact (st_closed _ _ _ ST _ _ _ _ _ X K eq_refl)]. destruct (okb_op s (st_ok _ _ _ ST s (v_incl _ _ _ _ _ V s A))) as [i [k [l' ->]]]. discriminate E.
  - intros c K D. apply (drop_In al nm g terms fresh V) in D; [|exact A]. exact (L c K (proj1 D)).
Qed.
Lemma round_spec trees : forall al nm g terms fresh done, inv al nm g terms fresh -> NoDup (map fst trees) -> (forall t, In t trees -> valid al nm t /\ fst t <> nodeof root) ->
  exists al' nm' g' terms' fresh', one_round str trees g terms fresh done = Ok (g', terms', fresh', match trees with [] => done | _ => false end) /\ inv al' nm' g' terms' fresh' /\ length al' + length trees <= length al.
Proof.
  induction trees as [|t trees IH]; intros al nm g terms fresh done V ND VT.
  - exists al, nm, g, terms, fresh. split; [reflexivity|]. split; [exact V|]. cbn. lia.
  - cbn [one_round]. destruct (VT t (or_introl eq_refl)) as [[s [A [-> L]]] NR]. cbn [fst] in NR. destruct (tree_value al nm g terms fresh V s A L) as [m [E EV]]. rewrite E. cbn [bind name_of].
    assert (SR : s <> root) by (intros ->; apply NR; reflexivity). destruct (step_tree al nm g terms fresh V s m A SR L EV) as [g' [E' V']]. rewrite E'. cbn [bind fst snd]. cbn in ND. inversion ND as [|x y N1 N2]; subst.
    destruct (IH _ _ _ _ _ false V' N2) as [al' [nm' [g'' [terms' [fresh' [R [V'' LN]]]]]]].
    + intros t T. destruct (VT t (or_intror T)) as [VT1 VT2]. split; [|exact VT2]. apply (valid_keep _ _ _ _ _ s _ t V A VT1). intros E2. apply N1. rewrite <- E2. apply in_map. exact T.
    + exists al', nm', g'', terms', fresh'. split; [rewrite R; destruct trees; reflexivity|]. split; [exact V''|]. pose proof (drop_length al nm g terms fresh V s A). cbn [length]. lia.
Qed.
Lemma rounds_spec fuel : forall al nm g terms fresh, inv al nm g terms fresh -> length al <= fuel ->
  exists al' nm' g' terms' fresh', rounds str order fuel g terms fresh = Ok (g', terms', fresh') /\ inv al' nm' g' terms' fresh' /\ (forall s, In s al' -> s = root).
Proof.
  induction fuel as [|fuel IH]; intros al nm g terms fresh V LE.
  - pose proof (v_root _ _ _ _ _ V) as R. destruct al; [destruct R|cbn in LE; lia].
  - cbn [rounds]. set (trees := order (collapsable_trees g)). pose proof (order_perm (collapsable_trees g)) as OP. fold trees in OP.
    assert (TV : forall t, In t trees <-> valid al nm t). { intros t. rewrite <- (collapsable_spec al nm g terms fresh V). split; apply Permutation_in; [exact OP|apply Permutation_sym; exact OP]. }
    assert (TN : NoDup (map fst trees)) by (apply (Permutation_NoDup (Permutation_map fst (Permutation_sym OP))); apply collapsable_roots).
    destruct (progress al nm g terms fresh V) as [t0 VT0].
    destruct (in_dec node_eqb_dec (nodeof root) (map fst trees)) as [IR|IR].
    + apply in_map_iff in IR. destruct IR as [t [Et It]]. pose proof It as Vt. apply TV in Vt. destruct Vt as [s [A [-> L]]]. cbn in Et. assert (s = root) by (apply (node_unique okb root S0 ST); [exact (v_incl _ _ _ _ _ V s A)|exact (st_root _ _ _ ST)|exact Et]). subst s.
      pose proof (only_root al nm g terms fresh V L) as OR.
      assert (ET : trees = [(nodeof root, map (cur al nm) (kids root))]). { apply NoDup_one; [apply (NoDup_map_inv fst); exact TN|]. intros t. rewrite TV. split; [intros [s [AS [-> _]]]; rewrite (OR s AS); reflexivity|intros ->; exists root; auto]. }
      rewrite ET. cbn [one_round]. destruct (tree_value al nm g terms fresh V root A L) as [m [E EV]]. rewrite E. cbn [bind name_of]. unfold replace_tree. cbn [fst snd].
      assert (FE : filter (fun e => node_eqb (dst e) (nodeof root)) g = []).
      { destruct (filter (fun e => node_eqb (dst e) (nodeof root)) g) as [|e l] eqn:EF; [reflexivity|]. exfalso. assert (IE : In e (filter (fun e => node_eqb (dst e) (nodeof root)) g)) by (rewrite EF; cbn; auto). apply filter_In in IE. destruct IE as [IE D]. apply (v_g _ _ _ _ _ V) in IE. destruct IE as [x [i [c [AX [N ->]]]]]. unfold dst in D. cbn [fst snd] in D. destruct (node_eqb_spec (cur al nm c) (nodeof root)) as [Q|]; [|discriminate D]. rewrite (OR x AX) in N. pose proof (nth_error_In _ _ N) as K.
        destruct (okb_op root (st_ok _ _ _ ST root (st_root _ _ _ ST))) as [ir [kr [lr Er]]]. destruct (cur_cases al nm g terms fresh V root c (st_root _ _ _ ST) K) as [[l' [v [-> C]]]|[[Y [B C]]|[Y [B C]]]]; [rewrite C, Er in Q; discriminate Q|exact (L c K B)|]. destruct (v_str _ _ _ _ _ V c Y B) as [a [m' [N' _]]]. rewrite C, N', Er in Q. discriminate Q. }
      rewrite FE. cbn [bind fst snd]. exists al, nm, g, (assign (NStr (str fresh m)) (OMat fresh m) terms), (S fresh). split; [reflexivity|]. split; [apply keep_terms; exact V|exact OR].
    + assert (NE : trees <> []) by (intros E; apply TV in VT0; rewrite E in VT0; destruct VT0).
      destruct (round_spec trees al nm g terms fresh false V TN) as [al' [nm' [g' [terms' [fresh' [R [V' LN]]]]]]].
      * intros t T. split; [apply TV; exact T|]. intros E. apply IR. rewrite <- E. apply in_map. exact T.
      * rewrite R. cbn [bind]. destruct trees as [|t trees]; [congruence|]. cbn [length] in LN. apply (IH al' nm' g' terms' fresh' V'). lia.
Qed.
End Loop.
Theorem collapse_iter_right str order e M fresh : (forall a m a' m', str a m = str a' m' -> a = a') -> (forall l, Permutation (order l) l) ->
  of_matrices e -> NoDup (ids e) -> (forall i, In i (ids e) -> i < fresh) -> den tiny (forget e) = Some (VMat M) ->
  exists n, forall fuel, n <= fuel -> exists a m, collapse_iter str order fuel fresh e = Ok (OMat a m) /\ meq m M.
Proof.
  intros SI OP OM ND LT DM. destruct e as [a m|q|id k ch].
  - exists 0. intros fuel _. exists a, m. split; [reflexivity|]. injection DM as ->. apply meq_refl.
  - inversion OM.
  - set (e := IOp id k ch) in *. set (b := {| b_edges := []; b_terms := []; b_count := 0; b_fresh := fresh; b_stack := [e] |}).
    assert (MO : mop e) by (split; [exact OM|split; [reflexivity|exists M; exact DM]]).
    assert (B0 : forall fuel, meas e < fuel -> exists b' ts S0, expr2graph fuel b = Ok b' /\ built_from okb [e] b b' ts S0).
    { intros fuel LF. apply (build mop okb ltac:(intros x X; apply X) mop_steps fuel b); cbn [b b_stack b_fresh b_edges b_terms b_count].
      - cbn [map]. rewrite list_sum_cons. change (list_sum []) with 0. lia.
      - constructor; [exact MO|constructor].
      - cbn [flat_map]. rewrite app_nil_r. exact ND.
      - cbn [flat_map]. rewrite app_nil_r. exact LT.
      - intros x i k0 [].
      - intros x v []. }
    exists (S (meas e)). intros fuel LF. destruct (B0 fuel) as [b' [ts [S0 [E BF]]]]; [lia|]. unfold collapse_iter. cbn [e]. fold e. fold b. rewrite E. cbn [bind].
    destruct BF as [Be Br Bk Bc Bf Bt Bl Bi Ba Bcl Bp Bo Bn Bs Bfr]. inversion Br as [|x root y ts' [R1 [R2 R3]] F']; subst. inversion F'; subst. cbn [b b_edges app] in Be.
    assert (ST : static root S0). { constructor; [apply Ba; cbn; auto|exact Bcl| |exact Bo|exact Bn]. intros s I. destruct (Bp s I) as [[<- |[]]|P]; auto. }
    assert (V : inv str root S0 S0 (fun n => n) (b_edges b') (b_terms b') (b_fresh b')).
    { assert (CU : forall s c, In s S0 -> In c (kids s) -> cur S0 (fun n => n) c = nodeof c). { intros s c I K. destruct c as [l v|i k0 l]; [reflexivity|]. cbn. destruct (member (NOp i k0) (map nodeof S0)); reflexivity. }
      constructor; auto.
      - exact (st_root _ _ _ ST).
      - intros x. rewrite Be, in_flat_map. split.
        + intros [s [I J]]. unfold edges1 in J. apply number_In in J. destruct J as [j [c [N ->]]]. exists s, j, c. split; [exact I|]. split; [exact N|]. rewrite (CU s c I (nth_error_In _ _ N)). reflexivity.
        + intros [s [i [c [I [N ->]]]]]. exists s. split; [exact I|]. unfold edges1. apply number_In. exists i, c. split; [exact N|]. rewrite (CU s c I (nth_error_In _ _ N)). reflexivity.
      - rewrite Be. apply (NoDup_map_inv dst). assert (Q : map dst (flat_map edges1 S0) = kidnodes S0).
        { clear. induction S0 as [|s l IH]; [reflexivity|]. cbn [flat_map kidnodes]. rewrite map_app, IH. f_equal. unfold edges1. generalize (nodeof s). intros p. generalize 0. induction (kids s) as [|c cs IHc]; intros i; [reflexivity|]. cbn. rewrite IHc. reflexivity. }
        rewrite Q. pose proof (st_nodup _ _ _ ST) as N. inversion N; assumption.
      - intros c I N. contradiction.
      - intros c c' I I' N. contradiction. }
    destruct (rounds_spec str order SI OP root S0 ST fuel _ _ _ _ _ V) as [al [nm [g [terms [fr [R [V' OR]]]]]]]; [cbn [map] in Bs; rewrite list_sum_cons in Bs; change (list_sum []) with 0 in Bs; lia|]. rewrite R. cbn [bind].
    assert (RG : roots g = [nodeof root]). { apply NoDup_one; [apply distinct_NoDup|]. intros n. unfold roots. rewrite distinct_In, (sources str root S0 ST al nm g terms fr V'). split; [intros [s [A ->]]; rewrite (OR s A); reflexivity|intros ->; exists root; split; [exact (v_root _ _ _ _ _ _ _ _ V')|reflexivity]]. }
    rewrite RG, (children_al str root S0 ST al nm g terms fr V' root (v_root _ _ _ _ _ _ _ _ V')).
    destruct (tree_value str root S0 ST al nm g terms fr V' root (v_root _ _ _ _ _ _ _ _ V')) as [m [TE TV]].
    { intros c K A. pose proof (OR c A) as EC. subst c. apply bsize_kid in K. lia. }
    exists fr, m. split; [exact TE|]. rewrite R3 in TV. unfold d in TV. rewrite DM in TV. exact TV.
Qed.
