(** Properties C21-C25: block forms and substitution in integrands. *)
From Verif Require Import Base BaseProofs UflModel UflProofs BlockFormModel BlockFormProofs BlockFormAddProofs BlockFormPermProofs.
From Coq Require Import QArith Qcanon Qabs Permutation.
Local Open Scope nat_scope.
Local Close Scope Q_scope.
Local Close Scope Qc_scope.

(** Arguments used in the examples: test and trial functions of spaces. *)
Definition plain (k : kind) : term := Term k None None None [].
Definition tst (v : nat) : expr := Leaf (plain (KArg 0 v)).
Definition trl (v : nat) : expr := Leaf (plain (KArg 1 v)).
Definition inner_of (a b : expr) : expr := Node 7 [a; b].

(** ** C25 replace *)

Theorem C25_replace : forall attributes arg r e,
  substituted attributes arg r e (replace e (Leaf arg) r attributes) /\
  (forall e', substituted attributes arg r e e' -> e' = replace e (Leaf arg) r attributes).
Proof.
  intros at_ arg r e. split; [apply replace_substituted|]. intros e' H. eapply substituted_fun; [exact H|apply replace_substituted].
Qed.
Print Assumptions C25_replace.

Theorem C25_absent : forall attributes arg r e,
  (forall s, occurs s e -> ~ hit attributes s arg) -> replace e (Leaf arg) r attributes = e.
Proof. exact replace_absent. Qed.
Print Assumptions C25_absent.

Theorem C25_gone : forall attributes arg r e s,
  occurs s (replace e (Leaf arg) r attributes) -> hit attributes s arg -> occurs s r.
Proof. exact replace_gone. Qed.
Print Assumptions C25_gone.

(** A compound expression in the place of arg; the class fixes the number of
    operands. *)
Theorem C25_compound_partial : forall ar attributes g ys r e, arities ar e -> arities ar (Node g ys) ->
  substituted_expr (Node g ys) r e (replace e (Node g ys) r attributes).
Proof. exact replace_expr. Qed.
Print Assumptions C25_compound_partial.

(** Without that condition two list tensors match when one is a prefix. *)
Theorem C25_prefix_refuted : exists g ys r e, (forall s, subterm s e -> ~ same_expr s (Node g ys)) /\
  replace e (Node g ys) r None <> e.
Proof.
  exists 3, [tst 0], (tst 1), (Node 3 [tst 0; tst 2]). split; [|vm_compute; discriminate].
  intros s Hs H. inversion H as [|f xs ys F]; subst.
  assert (L : length xs = 1) by (inversion F as [|? ? ? ? _ F']; subst; inversion F'; subst; reflexivity).
  inversion Hs as [E|f ops y Hy Hs']; subst; [cbn in L; lia|].
  destruct Hy as [<-|[<-|[]]]; inversion Hs'.
Qed.
Print Assumptions C25_prefix_refuted.

Definition traced (k : kind) (mesh : nat) : term := Term k (Some mesh) None None [].
Example C25_case : replace (inner_of (Leaf (traced (KArg 1 0) 5)) (inner_of (trl 0) (tst 0))) (Leaf (traced (KArg 1 0) 5)) (tst 9) (Some [ATrace])
  = inner_of (tst 9) (inner_of (trl 0) (tst 0)) /\
  (exists s, occurs s (inner_of (trl 0) (tst 0)) /\ ~ hit (Some [ATrace]) s (traced (KArg 1 0) 5)).
Proof.
  split; [reflexivity|]. exists (plain (KArg 1 0)). split; [eapply occurs_node; [left; reflexivity|constructor]|].
  intros [_ H]. destruct (H ATrace (or_introl eq_refl)) as (v & E & _). discriminate.
Qed.

(** ** C24 form_adjoint *)

Theorem C24_adjoint_partial : forall ord e, an_order ord -> exchangeable e ->
  exists e', expr_adjoint ord e = Ok e' /\ swapped e e' /\ expr_adjoint ord e' = Ok e.
Proof.
  intros ord e HO HE. exists (map_leaves swap_term e). split; [apply expr_adjoint_swaps; assumption|].
  split; [apply map_leaves_swapped|]. rewrite expr_adjoint_swaps by (try assumption; apply swapped_exchangeable; assumption).
  f_equal. apply swap_twice. assumption.
Qed.
Print Assumptions C24_adjoint_partial.

Theorem C24_form_partial : forall ord f, an_order ord -> (forall x, In x f -> exchangeable (snd x)) ->
  exists g, form_adjoint ord (BForm f) = Ok (BForm g) /\
    Forall2 (fun x y => fst x = fst y /\ swapped (snd x) (snd y)) f g /\
    form_adjoint ord (BForm g) = Ok (BForm f).
Proof.
  intros ord f HO H. exists (map swap_integral f). split; [apply form_adjoint_swaps; assumption|]. split.
  - clear H. induction f as [|x f IH]; cbn [map]; constructor; [|assumption]. split; [reflexivity|apply map_leaves_swapped].
  - rewrite form_adjoint_swaps; [|assumption|].
    + do 2 f_equal. rewrite map_map. rewrite <- (map_id f) at 2. apply map_ext_in. intros [m e] Hx. unfold swap_integral. cbn [fst snd].
      f_equal. apply swap_twice. apply (H (m, e) Hx).
    + intros y Hy. apply in_map_iff in Hy. destruct Hy as (x & <- & Hx). apply swapped_exchangeable. apply H. assumption.
Qed.
Print Assumptions C24_form_partial.

(** Same space for test and trial function: both end up as one of them,
    whatever the order of the set. *)
Theorem C24_same_space_refuted : forall ord, an_order ord -> exists e, expr_adjoint ord (inner_of (trl 0) (tst 0)) = Ok e /\
  (e = inner_of (trl 0) (trl 0) \/ e = inner_of (tst 0) (tst 0)) /\ ~ swapped (inner_of (trl 0) (tst 0)) e.
Proof.
  intros ord HO. specialize (HO (arguments (inner_of (trl 0) (tst 0)))).
  change (arguments (inner_of (trl 0) (tst 0))) with [plain (KArg 1 0); plain (KArg 0 0)] in HO. unfold expr_adjoint.
  change (arguments (inner_of (trl 0) (tst 0))) with [plain (KArg 1 0); plain (KArg 0 0)].
  assert (SW : forall a, swapped (inner_of (trl 0) (tst 0)) a -> a = inner_of (tst 0) (trl 0)).
  { intros a H. apply swapped_map_leaves in H. subst. reflexivity. }
  apply Permutation_length_2_inv in HO. destruct HO as [->| ->]; eexists; (split; [reflexivity|]).
  - split; [left; reflexivity|]. intros H. apply SW in H. discriminate.
  - split; [right; reflexivity|]. intros H. apply SW in H. discriminate.
Qed.
Print Assumptions C24_same_space_refuted.

(** An integrand with u and its trace: one of the two is treated wrongly,
    whatever the order of the set. *)
Theorem C24_mixed_attributes_refuted : forall ord, an_order ord ->
  let e := inner_of (inner_of (trl 0) (Leaf (traced (KArg 1 0) 5))) (tst 1) in
  exists e', expr_adjoint ord e = Ok e' /\ ~ swapped e e'.
Proof.
  intros ord HO e. specialize (HO (arguments e)). unfold expr_adjoint.
  assert (A : arguments e = [plain (KArg 1 0); plain (KArg 0 1)]) by reflexivity. rewrite A in *. clear A.
  assert (SW : forall a, swapped e a -> a = inner_of (inner_of (tst 0) (Leaf (traced (KArg 0 0) 5))) (trl 1)).
  { intros a H. apply swapped_map_leaves in H. subst. reflexivity. }
  apply Permutation_length_2_inv in HO. destruct HO as [->| ->]; eexists; (split; [reflexivity|]); intros H; apply SW in H; discriminate.
Qed.
Print Assumptions C24_mixed_attributes_refuted.

(** Attributes other than trace_, restriction_, average_ are lost. *)
Theorem C24_other_attributes_refuted : forall ord, an_order ord ->
  let e := inner_of (Leaf (Term (KArg 1 0) None None None [(4, 2)])) (tst 1) in
  exists e', expr_adjoint ord e = Ok e' /\ ~ swapped e e'.
Proof.
  intros ord HO e. specialize (HO (arguments e)). unfold expr_adjoint.
  assert (A : arguments e = [Term (KArg 1 0) None None None [(4, 2)]; plain (KArg 0 1)]) by reflexivity. rewrite A in *. clear A.
  assert (SW : forall a, swapped e a -> a = inner_of (Leaf (Term (KArg 0 0) None None None [(4, 2)])) (trl 1)).
  { intros a H. apply swapped_map_leaves in H. subst. reflexivity. }
  apply Permutation_length_2_inv in HO. destruct HO as [->| ->]; eexists; (split; [reflexivity|]); intros H; apply SW in H; discriminate.
Qed.
Print Assumptions C24_other_attributes_refuted.

Definition ex24 : expr := inner_of (Leaf (traced (KArg 1 0) 5)) (Node 2 [tst 1; Leaf (plain (KOther 8))]).
Lemma ex24_occurs t : occurs t ex24 -> t = traced (KArg 1 0) 5 \/ t = plain (KArg 0 1) \/ t = plain (KOther 8).
Proof.
  intros H. apply terminals_occurs in H. destruct H as [<-|[<-|[<-|[]]]]; auto.
Qed.
Lemma ex24_exchangeable : exchangeable ex24.
Proof.
  split; [|split].
  - intros t n v Ht K. destruct (ex24_occurs t Ht) as [->|[->| ->]]; inversion K; subst; cbn; auto.
  - intros t s n v Ht Hs K K'. destruct (ex24_occurs t Ht) as [->|[->| ->]], (ex24_occurs s Hs) as [->|[->| ->]];
      inversion K; subst; inversion K'; subst; reflexivity.
  - intros t s v w Ht Hs K K'. destruct (ex24_occurs t Ht) as [->|[->| ->]], (ex24_occurs s Hs) as [->|[->| ->]];
      inversion K; subst; inversion K'; subst; discriminate.
Qed.
Example C24_case : an_order (fun l => l) /\ exchangeable ex24 /\
  expr_adjoint (fun l => l) ex24 = Ok (inner_of (Leaf (traced (KArg 0 0) 5)) (Node 2 [trl 1; Leaf (plain (KOther 8))])).
Proof. split; [intros l; apply Permutation_refl|]. split; [apply ex24_exchangeable|reflexivity]. Qed.

(** ** C21 add *)

(** The initial block forms are empty. *)
Theorem C21_initial : forall zf W, W <> [] ->
  (exists rows, block_form zf W 2 = Ok (Bil W rows) /\ state2 W rows (fun _ _ => [])) /\
  ((forall v, In v W -> zf v <> [] /\ forall x, In x (zf v) -> has_space 0 (snd x) v /\ no_space 1 (snd x)) ->
   exists bs, block_form zf W 1 = Ok (Lin W bs) /\ state1 W bs (fun i => zf (nth i W 0))).
Proof.
  intros zf W NE. destruct W as [|w W]; [contradiction|]. split.
  - cbn [block_form Nat.ltb Nat.leb andb Nat.eqb]. eexists. split; [reflexivity|]. split.
    + split; [rewrite map_length; reflexivity|]. intros r Hr. apply in_map_iff in Hr. destruct Hr as (k & <- & _). apply repeat_length.
    + intros i j Hi Hj. split; [|intros x []]. exists (BNum (Q2Qc 0)). split; [|left; auto]. unfold blk.
      rewrite nth_error_map. destruct (nth_error (w :: W) i) eqn:E; [|apply nth_error_None in E; lia]. cbn [option_map].
      destruct (nth_error (repeat (BNum (Q2Qc 0)) (length (w :: W))) j) eqn:F.
      * apply nth_error_In, repeat_spec in F. congruence.
      * apply nth_error_None in F. rewrite repeat_length in F. lia.
  - intros H. cbn [block_form Nat.ltb Nat.leb andb Nat.eqb]. eexists. split; [reflexivity|]. split; [apply map_length|].
    intros i Hi. pose proof (nth_In (w :: W) 0 Hi) as HIN. destruct (H _ HIN) as [H1 H2].
    assert (EN : nth_error (w :: W) i = Some (nth i (w :: W) 0)) by (apply nth_error_nth'; assumption). split.
    + exists (BForm (zf (nth i (w :: W) 0))). rewrite nth_error_map, EN. split; [reflexivity|]. right. auto.
    + intros x Hx. destruct (H2 x Hx). eauto.
Qed.
Print Assumptions C21_initial.

(** Every integral goes to the end of its block, the other blocks keep their
    integrals. *)
(** Only linear and bilinear forms on at least one space are made *)
Theorem C21_arity : forall zf W n, (n <> 1 -> n <> 2 -> block_form zf W n = Err AssertionError) /\ (n = 1 \/ n = 2 -> block_form zf [] n = Err StopIteration).
Proof.
  intros zf W n. split; [intros N1 N2; unfold block_form; destruct n as [|[|[|n]]]; try congruence; reflexivity|intros [-> | ->]; reflexivity].
Qed.
Print Assumptions C21_arity.
Theorem C21_add_bilinear : forall V0 rows c f addr, f <> [] -> state2 V0 rows c ->
  (forall x, In x f -> addressed2 V0 (snd x) (fst (addr x)) (snd (addr x))) ->
  exists rows', add (Bil V0 rows) f = Ok (Bil V0 rows') /\
    state2 V0 rows' (fun i j => c i j ++ filter (fun x => (fst (addr x) =? i) && (snd (addr x) =? j)) f).
Proof. intros V0 rows c f addr NE ST H. apply (add_bil V0 addr f rows c NE H ST). Qed.
Print Assumptions C21_add_bilinear.

Theorem C21_add_linear : forall V0 bs c f addr, f <> [] -> state1 V0 bs c ->
  (forall x, In x f -> addressed1 V0 (snd x) (addr x)) ->
  exists bs', add (Lin V0 bs) f = Ok (Lin V0 bs') /\ state1 V0 bs' (fun i => c i ++ filter (fun x => addr x =? i) f).
Proof. intros V0 bs c f addr NE ST H. apply (add_lin V0 addr f bs c NE H ST). Qed.
Print Assumptions C21_add_linear.

(** Any order of additions gives the same integrals in every block. *)
Theorem C21_any_order : forall V0 rows c fs gs addr, state2 V0 rows c -> Permutation (concat fs) (concat gs) ->
  (forall f, In f (fs ++ gs) -> f <> []) ->
  (forall x, In x (concat fs) -> addressed2 V0 (snd x) (fst (addr x)) (snd (addr x))) ->
  exists rf rg cf cg, adds (Bil V0 rows) fs = Ok (Bil V0 rf) /\ adds (Bil V0 rows) gs = Ok (Bil V0 rg) /\
    state2 V0 rf cf /\ state2 V0 rg cg /\ forall i j, Permutation (cf i j) (cg i j).
Proof.
  intros V0 rows c fs gs addr ST P NE H.
  destruct (adds_bil V0 addr fs) with (rows := rows) (c := c) as (rf & E1 & S1); [|assumption|].
  { intros f Hf. split; [apply NE, in_or_app; left; assumption|]. intros x Hx. apply H. apply in_concat. eauto. }
  destruct (adds_bil V0 addr gs) with (rows := rows) (c := c) as (rg & E2 & S2); [|assumption|].
  { intros f Hf. split; [apply NE, in_or_app; right; assumption|]. intros x Hx. apply H.
    apply (Permutation_in x (Permutation_sym P)). apply in_concat. eauto. }
  exists rf, rg. do 2 eexists. split; [exact E1|]. split; [exact E2|]. split; [exact S1|]. split; [exact S2|].
  intros i j. cbn beta. apply Permutation_app_head, Permutation_filter, P.
Qed.
Print Assumptions C21_any_order.

(** Rejection, for forms with one integral. *)
Theorem C21_rejects_partial : forall V0 rows x,
  (exists v u, has_space 0 (snd x) v /\ has_space 1 (snd x) u /\ (~ In v V0 \/ ~ In u V0)) ->
  add (Bil V0 rows) [x] = Err StopIteration.
Proof. intros V0 rows x H. apply add1_foreign. assumption. Qed.
Print Assumptions C21_rejects_partial.

(** In a form with several integrals the StopIteration is swallowed by
    list(map(...)): the integral with a foreign space and everything after it
    are silently dropped. *)
Theorem C21_rejects_refuted : forall V0 rows c f x g addr, f <> [] -> state2 V0 rows c ->
  (forall y, In y f -> addressed2 V0 (snd y) (fst (addr y)) (snd (addr y))) ->
  (exists v u, has_space 0 (snd x) v /\ has_space 1 (snd x) u /\ (~ In v V0 \/ ~ In u V0)) ->
  exists rows', add (Bil V0 rows) (f ++ x :: g) = Ok (Bil V0 rows') /\
    state2 V0 rows' (fun i j => c i j ++ filter (fun y => (fst (addr y) =? i) && (snd (addr y) =? j)) f).
Proof.
  intros V0 rows c f x g addr NE ST H HX. unfold add.
  assert (L : (1 <? length (f ++ x :: g)) = true).
  { apply Nat.ltb_lt. rewrite app_length. destruct f; [contradiction|]. cbn [length]. lia. }
  rewrite L, (add_map_foreign V0 addr f x g rows c H ST HX). apply add_map_bil; assumption.
Qed.
Print Assumptions C21_rejects_refuted.

Lemma inner_spaces u v : has_space 0 (inner_of (trl u) (tst v)) v /\ has_space 1 (inner_of (trl u) (tst v)) u.
Proof.
  assert (O : forall t, occurs t (inner_of (trl u) (tst v)) -> t = plain (KArg 1 u) \/ t = plain (KArg 0 v)).
  { intros t H. apply terminals_occurs in H. destruct H as [<-|[<-|[]]]; auto. }
  split; (split; [|intros t w Ht K; destruct (O t Ht) as [->| ->]; inversion K; reflexivity]).
  - exists (plain (KArg 0 v)). split; [apply terminals_occurs; right; left; reflexivity|reflexivity].
  - exists (plain (KArg 1 u)). split; [apply terminals_occurs; left; reflexivity|reflexivity].
Qed.

(** inner(p, v)*dx + inner(u, q)*dx on W = [V, Q]; with a third space it is
    accepted and cut short. *)
Example C21_case : exists rows, block_form (fun _ => []) [0; 1] 2 = Ok (Bil [0; 1] rows) /\
  addressed2 [0; 1] (inner_of (trl 1) (tst 0)) 0 1 /\
  add (Bil [0; 1] rows) [(9, inner_of (trl 1) (tst 0)); (9, inner_of (trl 2) (tst 0)); (9, inner_of (trl 0) (tst 1))] =
  Ok (Bil [0; 1] [[BNum (Q2Qc 0); BForm [(9, inner_of (trl 1) (tst 0))]]; [BNum (Q2Qc 0); BNum (Q2Qc 0)]]).
Proof.
  eexists. split; [reflexivity|]. split; [|reflexivity].
  exists 0, 1. destruct (inner_spaces 1 0) as [A B]. split; [assumption|]. split; [assumption|]. split.
  - split; [reflexivity|]. intros k Hk. lia.
  - split; [reflexivity|]. intros [|k] Hk; [discriminate|lia].
Qed.

(** ** C22 permute *)

(** Every listing of the indices of two or more blocks is accepted, and gives
    the symmetric permutation. *)
Theorem C22_permute_partial : forall V0 rows o, 2 <= length V0 -> shaped (length V0) rows -> lists_all (length V0) o ->
  exists V0' rows', permute (Bil V0 rows) (ByIndex o) = Ok (Bil V0' rows') /\
    length V0' = length V0 /\ shaped (length V0) rows' /\
    (forall k z, nth_error o k = Some z -> nth_error V0' k = nth_error V0 (Z.to_nat z)) /\
    (forall k l zk zl, nth_error o k = Some zk -> nth_error o l = Some zl ->
       blk rows' k l = blk rows (Z.to_nat zk) (Z.to_nat zl)).
Proof.
  intros V0 rows o Hn SH HO. pose proof (lists_all_length _ _ HO) as L.
  exists (permuted1 0 V0 o), (permuted2 rows o). split.
  - destruct o as [|z o]; [cbn in L; lia|]. apply permute_bil; assumption.
  - split; [unfold permuted1; rewrite map_length; assumption|]. split; [apply permuted2_shaped; assumption|]. split.
    + intros k z Hk. apply permuted1_nth; [assumption|]. apply HO. eapply nth_error_In; eassumption.
    + intros k l zk zl Hk Hl. apply (permuted2_blk (length V0)); try assumption; apply HO; eapply nth_error_In; eassumption.
Qed.
Print Assumptions C22_permute_partial.

Theorem C22_permute_linear_partial : forall V0 bs o, 2 <= length V0 -> length bs = length V0 -> lists_all (length V0) o ->
  exists V0' bs', permute (Lin V0 bs) (ByIndex o) = Ok (Lin V0' bs') /\ length V0' = length V0 /\ length bs' = length V0 /\
    (forall k z, nth_error o k = Some z -> nth_error V0' k = nth_error V0 (Z.to_nat z) /\ nth_error bs' k = nth_error bs (Z.to_nat z)).
Proof.
  intros V0 bs o Hn LB HO. pose proof (lists_all_length _ _ HO) as L.
  exists (permuted1 0 V0 o), (permuted1 dflt bs o). split.
  - destruct o as [|z o]; [cbn in L; lia|]. apply permute_lin; assumption.
  - split; [unfold permuted1; rewrite map_length; assumption|]. split; [unfold permuted1; rewrite map_length; assumption|].
    intros k z Hk. assert (0 <= z < Z.of_nat (length V0))%Z by (apply HO; eapply nth_error_In; eassumption).
    split; apply permuted1_nth; try assumption. rewrite LB. assumption.
Qed.
Print Assumptions C22_permute_linear_partial.

(** The inverse ordering restores the block form. *)
Theorem C22_inverse : forall V0 rows o p, 2 <= length V0 -> shaped (length V0) rows -> lists_all (length V0) o -> undoes o p ->
  exists b, permute (Bil V0 rows) (ByIndex o) = Ok b /\ permute b (ByIndex p) = Ok (Bil V0 rows).
Proof.
  intros V0 rows o p Hn SH HO HU. pose proof (lists_all_length _ _ HO) as L. pose proof (undoes_lists_all _ _ _ HO HU) as HP.
  pose proof (lists_all_length _ _ HP) as Lp.
  exists (Bil (permuted1 0 V0 o) (permuted2 rows o)).
  assert (LV : length (permuted1 0 V0 o) = length V0) by (unfold permuted1; rewrite map_length; assumption). split.
  - destruct o as [|z o]; [cbn in L; lia|]. apply permute_bil; assumption.
  - assert (E : permute_idx (Bil (permuted1 0 V0 o) (permuted2 rows o)) p = Ok (Bil V0 rows)).
    { rewrite permute_bil; rewrite ?LV; try assumption; [|apply permuted2_shaped; assumption].
      rewrite (permuted1_undo 0 V0 o p), (permuted2_undo (length V0) rows o p); try assumption; [reflexivity|lia]. }
    destruct p as [|z p]; [cbn in Lp; lia|]. exact E.
Qed.
Print Assumptions C22_inverse.

(** Anything accepted is a listing. *)
Theorem C22_rejects : forall b o b', permute b (ByIndex o) = Ok b' ->
  lists_all (length (match b with Lin V _ => V | Bil V _ => V end)) o.
Proof.
  intros b o b' H. destruct o as [|z o]; [discriminate|].
  assert (E : permute_idx b (z :: o) = Ok b') by exact H. rewrite permute_idx_checks in E.
  destruct (checks _ (z :: o)) as [[]|] eqn:C; [|discriminate]. apply checks_sound in C. tauto.
Qed.
Print Assumptions C22_rejects.

(** A block form with one block cannot be permuted, not even by [0]. *)
Theorem C22_one_block_refuted : forall v b, lists_all 1 [0%Z] /\ permute (Bil [v] [[b]]) (ByIndex [0%Z]) = Err ValueError.
Proof.
  intros v b. split; [|reflexivity]. split; [constructor; [intros []|constructor]|]. intros z. cbn. lia.
Qed.
Print Assumptions C22_one_block_refuted.

(** Orderings given by the spaces. *)
Theorem C22_by_space_partial : forall V0 rows l, 2 <= length V0 -> shaped (length V0) rows -> NoDup V0 -> Permutation V0 l ->
  exists o rows', lists_all (length V0) o /\
    permute (Bil V0 rows) (BySpace l) = Ok (Bil l rows') /\ permute (Bil V0 rows) (ByIndex o) = Ok (Bil l rows').
Proof.
  intros V0 rows l Hn SH ND P. destruct (by_space V0 l ND P) as (o & E & HO & EL). exists o, (permuted2 rows o).
  pose proof (lists_all_length _ _ HO) as L. split; [assumption|].
  assert (X : permute_idx (Bil V0 rows) o = Ok (Bil l (permuted2 rows o))).
  { rewrite permute_bil by assumption. rewrite EL. reflexivity. }
  split.
  - destruct l as [|v l]; [apply Permutation_length in P; cbn in P; lia|]. unfold permute. rewrite E. exact X.
  - destruct o as [|z o]; [cbn in L; lia|]. exact X.
Qed.
Print Assumptions C22_by_space_partial.

Example C22_case : lists_all 3 [2; 0; 1]%Z /\ undoes [2; 0; 1]%Z [1; 2; 0]%Z /\
  permute (Lin [10; 11; 12] [BConst (Q2Qc 0); BConst (Q2Qc 1); BConst (Q2Qc 2)]) (ByIndex [2; 0; 1]%Z)
  = Ok (Lin [12; 10; 11] [BConst (Q2Qc 2); BConst (Q2Qc 0); BConst (Q2Qc 1)]).
Proof.
  split; [|split; [|reflexivity]].
  - split; [repeat constructor; cbn; lia|]. intros z. cbn. lia.
  - split; [reflexivity|]. intros [|[|[|k]]] z H; cbn in H; try (inversion H; subst; cbn; split; [lia|reflexivity]). destruct k; discriminate.
Qed.

(** ** C23 make_selfadjoint *)

Inductive adjoint_block : block -> block -> Prop :=
| adjoint_num q : adjoint_block (BNum q) (BNum q)
| adjoint_const q : adjoint_block (BConst q) (BConst q)
| adjoint_form f g : Forall2 (fun x y => fst x = fst y /\ swapped (snd x) (snd y)) f g -> adjoint_block (BForm f) (BForm g).

(** Numbers below DOLFIN_EPS = 3e-16 are what the code takes for zero blocks. *)
Definition zero_block (b : block) : Prop :=
  exists q, (b = BNum q \/ b = BConst q) /\ (Qabs q < 3 # 10000000000000000)%Q.

(** A number, or integrals of test functions of space i and trial functions of space j. *)
Definition good_block (V0 : list nat) (i j : nat) (b : block) : Prop :=
  match b with
  | BForm f => f <> [] /\ exists v u, nth_error V0 i = Some v /\ nth_error V0 j = Some u /\
      forall x, In x f -> has_space 0 (snd x) v /\ has_space 1 (snd x) u /\ exchangeable (snd x)
  | _ => True
  end.

Lemma is_null_spec b : is_null b = true <-> zero_block b.
Proof.
  unfold zero_block. destruct b as [q|q|f]; cbn [is_null].
  - unfold eps. destruct (Qcompare (Qabs q) (3 # 10000000000000000)) eqn:E; split; intros H; try discriminate.
    + destruct H as (p & [X|X] & L); inversion X; subst. apply Qeq_alt in E. exfalso. apply (Qlt_irrefl (3 # 10000000000000000)). rewrite <- E at 1. assumption.
    + exists q. split; [left; reflexivity|]. apply Qlt_alt. assumption.
    + reflexivity.
    + destruct H as (p & [X|X] & L); inversion X; subst. apply Qgt_alt in E. exfalso. apply (Qlt_irrefl (3 # 10000000000000000)). eapply Qlt_trans; eassumption.
  - unfold eps. destruct (Qcompare (Qabs q) (3 # 10000000000000000)) eqn:E; split; intros H; try discriminate.
    + destruct H as (p & [X|X] & L); inversion X; subst. apply Qeq_alt in E. exfalso. apply (Qlt_irrefl (3 # 10000000000000000)). rewrite <- E at 1. assumption.
    + exists q. split; [right; reflexivity|]. apply Qlt_alt. assumption.
    + reflexivity.
    + destruct H as (p & [X|X] & L); inversion X; subst. apply Qgt_alt in E. exfalso. apply (Qlt_irrefl (3 # 10000000000000000)). eapply Qlt_trans; eassumption.
  - split; [discriminate|]. intros (p & [X|X] & _); inversion X.
Qed.

Lemma has_space_swapped n e v : n < 2 -> exchangeable e -> has_space n e v -> has_space (1 - n) (map_leaves swap_term e) v.
Proof.
  intros Hn (E1 & _) [(t & Ht & K) U]. split.
  - exists (swap_term t). split; [apply occurs_map_leaves; assumption|]. apply swap_kind; assumption.
  - intros s w Hs Ks. apply map_leaves_occurs in Hs. destruct Hs as (t' & Ht' & ->).
    destruct (tkind t') as [m x|id] eqn:Kt.
    + destruct (E1 t' m x Ht' Kt) as [Hm _]. rewrite (swap_kind t' m x Kt Hm) in Ks.
      apply (U t' w Ht'). rewrite Kt. destruct m as [|[|m]], n as [|[|n]]; try lia; cbn in Ks; congruence.
    + unfold swap_term in Ks. rewrite Kt in Ks. congruence.
Qed.

Definition adj_of (b : block) : block := match b with BForm f => BForm (map swap_integral f) | _ => b end.

Lemma adj_of_adjoint b : adjoint_block b (adj_of b).
Proof.
  destruct b; constructor. induction f as [|x f IH]; cbn [map]; constructor; [|assumption]. split; [reflexivity|apply map_leaves_swapped].
Qed.

Lemma adj_of_good ord V0 i j b : an_order ord -> good_block V0 i j b ->
  form_adjoint ord b = Ok (adj_of b) /\ admissible V0 j i (adj_of b).
Proof.
  intros HO H. destruct b as [q|q|f]; [split; [reflexivity|exact I]|split; [reflexivity|exact I]|].
  destruct H as (NE & v & u & Hv & Hu & H). split; [apply form_adjoint_swaps; [assumption|intros x Hx; apply H; assumption]|].
  exists u, v. split; [assumption|]. split; [assumption|].
  assert (NE' : map swap_integral f <> []) by (destruct f; [contradiction|discriminate]).
  split; apply form_spaces_single; try assumption; intros y Hy; apply in_map_iff in Hy; destruct Hy as (x & <- & Hx); destruct (H x Hx) as (A & B & C).
  - apply (has_space_swapped 1); [lia|assumption|assumption].
  - apply (has_space_swapped 0); [lia|assumption|assumption].
Qed.

Definition bl (rows : list (list block)) (i j : nat) : block := match blk rows i j with Some b => b | None => dflt end.

Theorem C23_upper_partial : forall ord V0 rows, an_order ord -> shaped (length V0) rows ->
  (forall i j, j < i -> i < length V0 -> zero_block (bl rows i j)) ->
  (forall i j, i < j -> j < length V0 -> good_block V0 i j (bl rows i j)) ->
  exists rows', make_selfadjoint ord (Bil V0 rows) = Ok (Bil V0 rows') /\ shaped (length V0) rows' /\
    (forall i j, i <= j -> j < length V0 -> bl rows' i j = bl rows i j) /\
    (forall i j, i < j -> j < length V0 -> adjoint_block (bl rows i j) (bl rows' j i)).
Proof.
  intros ord V0 rows HO SH HZ HG. unfold make_selfadjoint.
  assert (BL : forall i j, i < length V0 -> j < length V0 -> blk rows i j = Some (bl rows i j)).
  { intros i j Hi Hj. destruct (shaped_blk _ rows i j SH Hi Hj) as (b & Hb). unfold bl. rewrite Hb. reflexivity. }
  rewrite upper_spec by assumption. cbn [bind].
  assert (F : forallb (fun ij => null_at rows (fst ij) (snd ij)) (below (length V0)) = true).
  { apply forallb_forall. intros [i j] Hij. apply below_In in Hij. cbn [fst snd]. unfold null_at. rewrite BL by lia.
    apply is_null_spec. apply HZ; lia. }
  rewrite F.
  destruct (fill_spec ord true V0 (below (length V0))) with (rows := rows) (adj := fun p q => adj_of (bl rows q p)) as (rows' & E & SH' & R1 & R2).
  - intros i j Hij. apply below_In. assumption.
  - apply below_NoDup.
  - assumption.
  - intros i j p q Hij T. apply below_In in Hij. unfold tgt in T. inversion T; subst p q. exists (bl rows j i). split; [apply BL; lia|].
    apply adj_of_good; [assumption|]. apply HG; lia.
  - rewrite E. cbn [bind]. exists rows'. split; [reflexivity|]. split; [assumption|]. split.
    + intros i j Hij Hj. unfold bl. rewrite R2; [reflexivity|]. intros (k & l & Hkl & T). unfold tgt in T. inversion T; subst. apply below_In in Hkl. lia.
    + intros i j Hij Hj. assert (X : blk rows' j i = Some (adj_of (bl rows i j))).
      { apply (R1 j i j i); [apply below_In; lia|reflexivity]. }
      unfold bl at 2. rewrite X. apply adj_of_adjoint.
Qed.
Print Assumptions C23_upper_partial.

Theorem C23_lower_partial : forall ord V0 rows, an_order ord -> shaped (length V0) rows ->
  (forall i j, i < j -> j < length V0 -> zero_block (bl rows i j)) ->
  (forall i j, j < i -> i < length V0 -> good_block V0 i j (bl rows i j)) ->
  (exists i j, j < i /\ i < length V0 /\ ~ zero_block (bl rows i j)) ->
  exists rows', make_selfadjoint ord (Bil V0 rows) = Ok (Bil V0 rows') /\ shaped (length V0) rows' /\
    (forall i j, j <= i -> i < length V0 -> bl rows' i j = bl rows i j) /\
    (forall i j, j < i -> i < length V0 -> adjoint_block (bl rows i j) (bl rows' j i)).
Proof.
  intros ord V0 rows HO SH HZ HG (i0 & j0 & Hj0 & Hi0 & NZ). unfold make_selfadjoint.
  assert (BL : forall i j, i < length V0 -> j < length V0 -> blk rows i j = Some (bl rows i j)).
  { intros i j Hi Hj. destruct (shaped_blk _ rows i j SH Hi Hj) as (b & Hb). unfold bl. rewrite Hb. reflexivity. }
  rewrite upper_spec by assumption. cbn [bind].
  assert (F : forallb (fun ij => null_at rows (fst ij) (snd ij)) (below (length V0)) = false).
  { apply not_true_is_false. intros F. rewrite forallb_forall in F. apply NZ. apply is_null_spec.
    assert (IN : In (i0, j0) (below (length V0))) by (apply below_In; lia).
    specialize (F (i0, j0) IN). cbn [fst snd] in F. unfold null_at in F. rewrite BL in F by lia. assumption. }
  rewrite F, lower_spec by assumption. cbn [bind].
  assert (F2 : forallb (fun ij => null_at rows (snd ij) (fst ij)) (below (length V0)) = true).
  { apply forallb_forall. intros [i j] Hij. apply below_In in Hij. cbn [fst snd]. unfold null_at. rewrite BL by lia.
    apply is_null_spec. apply HZ; lia. }
  rewrite F2.
  destruct (fill_spec ord false V0 (below (length V0))) with (rows := rows) (adj := fun p q => adj_of (bl rows q p)) as (rows' & E & SH' & R1 & R2).
  - intros i j Hij. apply below_In. assumption.
  - apply below_NoDup.
  - assumption.
  - intros i j p q Hij T. apply below_In in Hij. unfold tgt in T. cbn [fst snd] in T. inversion T; subst p q. exists (bl rows i j). split; [apply BL; lia|].
    apply adj_of_good; [assumption|]. apply HG; lia.
  - rewrite E. cbn [bind]. exists rows'. split; [reflexivity|]. split; [assumption|]. split.
    + intros i j Hij Hj. unfold bl. rewrite R2; [reflexivity|]. intros (k & l & Hkl & T). unfold tgt in T. cbn [fst snd] in T. inversion T; subst. apply below_In in Hkl. lia.
    + intros i j Hij Hj. assert (X : blk rows' j i = Some (adj_of (bl rows i j))).
      { apply (R1 i j j i); [apply below_In; lia|reflexivity]. }
      unfold bl at 2. rewrite X. apply adj_of_adjoint.
Qed.
Print Assumptions C23_lower_partial.

Theorem C23_rejects : forall ord,
  (forall V0 rows i j k l, shaped (length V0) rows -> j < i -> i < length V0 -> k < l -> l < length V0 ->
     ~ zero_block (bl rows i j) -> ~ zero_block (bl rows k l) ->
     make_selfadjoint ord (Bil V0 rows) = Err ValueError) /\
  (forall V0 bs, make_selfadjoint ord (Lin V0 bs) = Err ValueError).
Proof.
  intros ord. split; [|reflexivity]. intros V0 rows i j k l SH H1 H2 H3 H4 N1 N2. unfold make_selfadjoint.
  assert (BL : forall i j, i < length V0 -> j < length V0 -> blk rows i j = Some (bl rows i j)).
  { intros a b Hi Hj. destruct (shaped_blk _ rows a b SH Hi Hj) as (x & Hb). unfold bl. rewrite Hb. reflexivity. }
  rewrite upper_spec by assumption. cbn [bind].
  assert (F : forallb (fun ij => null_at rows (fst ij) (snd ij)) (below (length V0)) = false).
  { apply not_true_is_false. intros F. rewrite forallb_forall in F. apply N1. apply is_null_spec.
    assert (IN : In (i, j) (below (length V0))) by (apply below_In; lia).
    specialize (F (i, j) IN). cbn [fst snd] in F. unfold null_at in F. rewrite BL in F by lia. assumption. }
  rewrite F, lower_spec by assumption. cbn [bind].
  assert (F2 : forallb (fun ij => null_at rows (snd ij) (fst ij)) (below (length V0)) = false).
  { apply not_true_is_false. intros F2. rewrite forallb_forall in F2. apply N2. apply is_null_spec.
    assert (IN : In (l, k) (below (length V0))) by (apply below_In; lia).
    specialize (F2 (l, k) IN). cbn [fst snd] in F2. unfold null_at in F2. rewrite BL in F2 by lia. assumption. }
  rewrite F2. reflexivity.
Qed.
Print Assumptions C23_rejects.

(** Two blocks over the same space: the adjoint is wrong (C24) and the
    assignment check rejects it. *)
(** What counts as triangular: no linear form, and of the bilinear ones those with zeros on the other side *)
Theorem C23_triangular : forall V0 bs rows, shaped (length V0) rows ->
  is_upper_triangular (Lin V0 bs) = Ok false /\ is_lower_triangular (Lin V0 bs) = Ok false /\
  (is_upper_triangular (Bil V0 rows) = Ok true <-> forall i j, j < i -> i < length V0 -> zero_block (bl rows i j)) /\
  (is_lower_triangular (Bil V0 rows) = Ok true <-> forall i j, i < j -> j < length V0 -> zero_block (bl rows i j)).
Proof.
  intros V0 bs rows SH. split; [reflexivity|]. split; [reflexivity|]. rewrite upper_spec, lower_spec by assumption.
  assert (BL : forall i j, i < length V0 -> j < length V0 -> null_at rows i j = true <-> zero_block (bl rows i j)).
  { intros i j Hi Hj. destruct (shaped_blk _ rows i j SH Hi Hj) as (b & Hb). unfold bl, null_at. rewrite Hb. apply is_null_spec. }
  split; (split; [intros E; injection E as E; rewrite forallb_forall in E; intros i j H1 H2; apply BL; [lia|lia|]|intros H; f_equal; apply forallb_forall; intros [i j] Hij; apply below_In in Hij; cbn [fst snd]; apply BL; [lia|lia|apply H; lia] ]).
  - apply (E (i, j)). apply below_In. lia.
  - apply (E (j, i)). apply below_In. lia.
Qed.
Print Assumptions C23_triangular.
Theorem C23_same_space_refuted : forall ord, an_order ord ->
  make_selfadjoint ord (Bil [0; 0] [[BNum (Q2Qc 0); BForm [(9, inner_of (trl 0) (tst 0))]]; [BNum (Q2Qc 0); BNum (Q2Qc 0)]])
  = Err AssertionError.
Proof.
  intros ord HO. destruct (C24_same_space_refuted ord HO) as (e & E & H & _).
  set (x := inner_of (trl 0) (tst 0)) in *. unfold make_selfadjoint. cbn [is_upper_triangular below length seq flat_map map app].
  change ((do u <- Ok true; if u then do r <- fill ord true [0; 0] [[BNum (Q2Qc 0); BForm [(9, x)]]; [BNum (Q2Qc 0); BNum (Q2Qc 0)]] [(1, 0)]; Ok (Bil [0; 0] r)
          else Err ValueError) = @Err bform AssertionError).
  cbn [bind fill get_bil get_nth nth_error form_adjoint]. rewrite mapM_cons. cbn [snd]. rewrite E. cbn [bind fst mapM].
  destruct H as [->| ->]; reflexivity.
Qed.
Print Assumptions C23_same_space_refuted.

Example C23_case : exists rows, let f := [(9, ex24)] in
  rows = [[BNum (Q2Qc 0); BNum (Q2Qc 0)]; [BForm f; BNum (Q2Qc 5)]] /\
  good_block [0; 1] 1 0 (bl rows 1 0) /\ ~ zero_block (bl rows 1 0) /\ zero_block (bl rows 0 1) /\
  make_selfadjoint (fun l => l) (Bil [0; 1] rows) =
    Ok (Bil [0; 1] [[BNum (Q2Qc 0); BForm [(9, inner_of (Leaf (traced (KArg 0 0) 5)) (Node 2 [trl 1; Leaf (plain (KOther 8))]))]]; [BForm f; BNum (Q2Qc 5)]]).
Proof.
  eexists. split; [reflexivity|]. split; [|split; [|split; [|reflexivity]]].
  - split; [discriminate|]. exists 1, 0. split; [reflexivity|]. split; [reflexivity|]. intros x [<-|[]]. cbn [snd].
    assert (O := ex24_occurs). split; [|split; [|apply ex24_exchangeable]].
    + split; [eexists; split; [apply terminals_occurs; right; left; reflexivity|reflexivity]|].
      intros t w Ht K. destruct (O t Ht) as [->|[->| ->]]; inversion K; reflexivity.
    + split; [eexists; split; [apply terminals_occurs; left; reflexivity|reflexivity]|].
      intros t w Ht K. destruct (O t Ht) as [->|[->| ->]]; inversion K; reflexivity.
  - intros (q & [X|X] & _); discriminate.
  - exists (Q2Qc 0). split; [left; reflexivity|reflexivity].
Qed.

(** ** C55 sum of block forms *)

Lemma block_sum_gathered a b f g : gathered a f -> gathered b g -> exists s, block_sum a b = Ok s /\ gathered s (f ++ g).
Proof.
  intros [[-> ->]|[-> NE]] [[-> ->]|[-> NE']]; cbn [block_sum].
  - exists (BNum (Q2Qc 0)). split; [reflexivity|]. left. auto.
  - exists (BForm g). split; [reflexivity|]. right. auto.
  - exists (BForm f). split; [reflexivity|]. right. rewrite app_nil_r. auto.
  - exists (BForm (f ++ g)). split; [reflexivity|]. right. split; [reflexivity|]. destruct f; [contradiction|discriminate].
Qed.

Lemma mapM_seq {A} (f : nat -> res A) (P : nat -> A -> Prop) n : (forall i, i < n -> exists x, f i = Ok x /\ P i x) ->
  exists l, mapM f (seq 0 n) = Ok l /\ length l = n /\ forall i, i < n -> exists x, nth_error l i = Some x /\ P i x.
Proof.
  intros H. assert (G : forall m s, s + m <= n -> exists l, mapM f (seq s m) = Ok l /\ length l = m /\ forall i, i < m -> exists x, nth_error l i = Some x /\ P (s + i) x).
  { induction m as [|m IH]; intros s Hs; cbn [seq].
    - exists []. split; [reflexivity|]. split; [reflexivity|]. intros; lia.
    - destruct (H s) as (x & E & Px); [lia|]. destruct (IH (S s)) as (l & El & L & N); [lia|]. rewrite mapM_cons, E. cbn [bind]. rewrite El. cbn [bind].
      exists (x :: l). split; [reflexivity|]. split; [cbn; lia|]. intros [|i] Hi; [exists x; rewrite Nat.add_0_r; auto|].
      destruct (N i) as (y & Ey & Py); [lia|]. exists y. split; [assumption|]. replace (s + S i) with (S s + i) by lia. assumption. }
  exact (G n 0 (Nat.le_refl n)).
Qed.

Theorem C55_sum_bilinear : forall V0 ra rb ca cb, state2 V0 ra ca -> state2 V0 rb cb ->
  exists rows, bform_add (Bil V0 ra) (Bil V0 rb) = Ok (Bil V0 rows) /\ state2 V0 rows (fun i j => ca i j ++ cb i j).
Proof.
  intros V0 ra rb ca cb [SA HA] [SB HB]. cbn [bform_add]. rewrite nat_list_eqb_refl.
  destruct (mapM_seq (fun i => mapM (fun j => do x <- get_bil ra i j; do y <- get_bil rb i j; block_sum x y) (seq 0 (length V0)))
    (fun i row => length row = length V0 /\ forall j, j < length V0 -> exists s, nth_error row j = Some s /\ gathered s (ca i j ++ cb i j)) (length V0))
    as (rows & E & L & N).
  - intros i Hi. apply (mapM_seq _ (fun j s => gathered s (ca i j ++ cb i j))). intros j Hj.
    destruct (HA i j Hi Hj) as [(a & Ea & Ga) _]. destruct (HB i j Hi Hj) as [(b & Eb & Gb) _].
    rewrite (get_bil_some _ _ _ _ Ea), (get_bil_some _ _ _ _ Eb). cbn [bind]. apply block_sum_gathered; assumption.
  - rewrite E. cbn [bind]. exists rows. split; [reflexivity|]. split.
    + split; [assumption|]. intros r Hr. apply In_nth_error in Hr. destruct Hr as (k & Hk). pose proof (nth_error_lt _ _ _ Hk).
      destruct (N k) as (r' & Er & Lr & _); [lia|]. congruence.
    + intros i j Hi Hj. split.
      * destruct (N i Hi) as (r & Er & _ & Nr). destruct (Nr j Hj) as (s & Es & Gs). exists s. unfold blk. rewrite Er. auto.
      * intros x Hx. apply in_app_or in Hx. destruct Hx as [Hx|Hx]; [apply (HA i j Hi Hj)|apply (HB i j Hi Hj)]; assumption.
Qed.
Print Assumptions C55_sum_bilinear.

Theorem C55_sum_linear : forall V0 ba bb ca cb, state1 V0 ba ca -> state1 V0 bb cb ->
  exists bs, bform_add (Lin V0 ba) (Lin V0 bb) = Ok (Lin V0 bs) /\ state1 V0 bs (fun i => ca i ++ cb i).
Proof.
  intros V0 ba bb ca cb [SA HA] [SB HB]. cbn [bform_add]. rewrite nat_list_eqb_refl.
  destruct (mapM_seq (fun i => do x <- get_nth ba i; do y <- get_nth bb i; block_sum x y)
    (fun i s => gathered s (ca i ++ cb i)) (length V0)) as (bs & E & L & N).
  - intros i Hi. destruct (HA i Hi) as [(a & Ea & Ga) _]. destruct (HB i Hi) as [(b & Eb & Gb) _].
    rewrite (get_nth_some _ _ _ Ea), (get_nth_some _ _ _ Eb). cbn [bind]. apply block_sum_gathered; assumption.
  - rewrite E. cbn [bind]. exists bs. split; [reflexivity|]. split; [assumption|]. intros i Hi. split.
    + destruct (N i Hi) as (s & Es & Gs). eauto.
    + intros x Hx. apply in_app_or in Hx. destruct Hx as [Hx|Hx]; [apply (HA i Hi)|apply (HB i Hi)]; assumption.
Qed.
Print Assumptions C55_sum_linear.

Theorem C55_rejects : forall V W, 
  (forall bs cs, V <> W -> bform_add (Lin V bs) (Lin W cs) = Err AssertionError) /\
  (forall rs ss, V <> W -> bform_add (Bil V rs) (Bil W ss) = Err AssertionError) /\
  (forall bs ss, bform_add (Lin V bs) (Bil W ss) = Err AssertionError) /\
  (forall rs cs, bform_add (Bil V rs) (Lin W cs) = Err AssertionError).
Proof.
  intros V W. split; [|split; [|split; reflexivity]]; intros a b NE; cbn [bform_add]; unfold nat_list_eqb;
    destruct (list_eq_dec Nat.eq_dec V W); [contradiction|reflexivity|contradiction|reflexivity].
Qed.
Print Assumptions C55_rejects.

Example C55_case : bform_add (Bil [0; 1] [[BNum (Q2Qc 0); BForm [(9, inner_of (trl 1) (tst 0))]]; [BNum (Q2Qc 0); BNum (Q2Qc 0)]])
    (Bil [0; 1] [[BNum (Q2Qc 0); BForm [(8, inner_of (trl 1) (tst 0))]]; [BForm [(9, inner_of (trl 0) (tst 1))]; BNum (Q2Qc 0)]])
  = Ok (Bil [0; 1] [[BNum (Q2Qc 0); BForm [(9, inner_of (trl 1) (tst 0)); (8, inner_of (trl 1) (tst 0))]]; [BForm [(9, inner_of (trl 0) (tst 1))]; BNum (Q2Qc 0)]]).
Proof. reflexivity. Qed.
