(** C124: forms that are assembled again while the values of a function change. *)
From Coq Require Import Cantor Permutation.
From Verif Require Import Base BaseProofs Mat MatProofs ConvertModel UflModel UflProofs BlockFormModel BlockFormProofs BlockFormAddProofs FillModel FillProofs ReducedModel ReducedProofs ReducedProps ReuseModel ReuseProofs.
Local Open Scope nat_scope.
Local Close Scope Q_scope.
Local Close Scope Qc_scope.

Section Action.
Variable w : world.
Variable valid : UflModel.expr -> Prop.
Variable integrate : nat -> vtree -> Qc.
Variable sp : attr -> nat -> nat -> nat -> nat.
Variable mt : attr -> nat -> nat -> nat -> nat -> res mat.
Variable ord : list term -> list term.
Variable dfa : store -> form -> res tensor.
Variable fuel : nat.
Notation mods := (modules w sp mt).
Notation asm := (xii_assemble w mods ord dfa fuel).
Hypothesis ORD : an_order ord.
Hypothesis VAL : role_closed valid.
Hypothesis RED : reductions_ok w sp.
Hypothesis DFA : assembles_plain w mods integrate valid dfa.

(** [a] is a bilinear form that can be assembled, also when Function [f] takes the place of the trial function *)
Definition fit_for (n : nat) (a : form) (V U f : nat) : Prop :=
  form_fine w valid (repeat [] n) (Some V) (Some U) a /\ no_flux a /\ (forall i, In i a -> valid (plug f (snd i))) /\
  (forall i, In i a -> matrices_fit w sp mt (w_imesh w (fst i)) (snd i)) /\
  (forall i, In i a -> reductions mods (snd i) + 1 < fuel).

Lemma fit_store n a V U f st : fit_for n a V U f -> n <= length st -> form_fine w valid st (Some V) (Some U) a.
Proof. intros (F & _) L. eapply form_fine_store; [|exact F]. rewrite repeat_length. assumption. Qed.

Lemma bound_args n a V U f i t m W : fit_for n a V U f -> In i a -> occurs t (snd i) -> tkind t = KArg m W -> m < 2.
Proof. intros ((_ & _ & F) & _) Hi Ht K. destruct (F i Hi) as (_ & _ & _ & _ & _ & _ & _ & A7 & _). eapply A7; eassumption. Qed.

(** Two stores: the matrix is assembled with the one, the linear form with the other *)
Lemma action st st' a V U f e N M n : fit_for n a V U f -> n <= length st -> n <= length st' -> f < length st' -> ~ mentions f a ->
  (forall k, mentions k a -> nth k st [] = nth k st' []) -> length (nth f st' []) = w_dim w U ->
  asm st a = Ok (TOp e) -> (forall m, N <= m -> collapse m e = Ok (EMat M)) ->
  asm st' (plug_form f a) = Ok (TVec (mv M (nth f st' []))) /\ nr M = w_dim w V /\ nc M = w_dim w U.
Proof.
  intros FIT L L' Lf FR SAME Lx E C. assert (FF := fit_store _ _ _ _ _ st FIT L). assert (FF' := fit_store _ _ _ _ _ st' FIT L').
  pose proof FIT as (_ & NF & VP & MF & B).
  destruct (C26_reduced_bilinear_partial w valid integrate sp mt ord dfa fuel st a V U ORD VAL RED DFA FF MF B) as (e1 & N1 & M1 & E1 & C1 & D1 & D2 & H).
  assert (e1 = e) by congruence. subst e1.
  assert (M1 = M). { specialize (C (N + N1) ltac:(lia)). specialize (C1 (N + N1) ltac:(lia)). congruence. } subst M1.
  assert (FP := form_fine_plug w valid st' V U a f FF' Lf FR NF VP).
  destruct (C27_reduced_linear_partial w valid integrate sp mt ord dfa fuel st' (plug_form f a) V ORD VAL RED DFA FP) as (b & Eb & Lb & Hb).
  - intros i Hi. unfold plug_form in Hi. apply in_map_iff in Hi as (i' & <- & Hi). cbn [fst snd]. apply matrices_fit_plug. auto.
  - intros i Hi. unfold plug_form in Hi. apply in_map_iff in Hi as (i' & <- & Hi). cbn [fst snd]. rewrite reductions_plug. auto.
  - split; [|split; assumption]. rewrite Eb. do 2 f_equal. apply (vdot_ext (w_dim w V)); [assumption|rewrite mv_length; assumption|].
    intros v Lv. rewrite (Hb v [] Lv), (H v _ Lv Lx). unfold plug_form. rewrite map_map. f_equal. apply map_ext_in. intros i Hi. cbn [fst snd].
    rewrite evaluate_plug by (intros t m W Ht K; exact (bound_args _ _ _ _ _ i t m W FIT Hi Ht K)).
    f_equal. symmetry. apply evaluate_store. intros t id W k Ht K Ck. apply SAME. exists i, t, id, W. auto.
Qed.

(** A linear form with a reduced Function is the matrix of the bilinear form times the values of the Function. *)
Lemma action_exists st a V U f n : fit_for n a V U f -> n <= length st -> f < length st -> ~ mentions f a -> length (nth f st []) = w_dim w U ->
  exists e N M, asm st a = Ok (TOp e) /\ (forall m, N <= m -> collapse m e = Ok (EMat M)) /\ nr M = w_dim w V /\ nc M = w_dim w U /\
    asm st (plug_form f a) = Ok (TVec (mv M (nth f st []))).
Proof.
  intros FIT L Lf FR Lx. assert (FF := fit_store _ _ _ _ _ st FIT L). pose proof FIT as (_ & _ & _ & MF & B).
  destruct (C26_reduced_bilinear_partial w valid integrate sp mt ord dfa fuel st a V U ORD VAL RED DFA FF MF B) as (e & N & M & E & C & D1 & D2 & _).
  exists e, N, M. repeat (split; [assumption|]). eapply action; try eassumption. reflexivity.
Qed.

(** ** Heaps *)
Lemma values_length h : length (values h) = length (h_addr h).
Proof. apply map_length. Qed.
Lemma values_nth h f : f < length (h_addr h) -> nth f (values h) [] = contents h f.
Proof.
  intros L. unfold values, contents, address. rewrite (nth_indep _ [] (nth 0 (h_vecs h) [])) by (rewrite map_length; assumption).
  apply (map_nth (fun a => nth a (h_vecs h) [])).
Qed.
Lemma fill_ok h f x h' : fill h f x = Ok h' -> h_addr h' = h_addr h /\ length (h_vecs h') = length (h_vecs h) /\ length x = length (contents h f) /\ 
  forall g, address h g < length (h_vecs h) -> contents h' g = if address h g =? address h f then x else contents h g.
Proof.
  unfold fill. destruct (Nat.eqb_spec (length x) (length (contents h f))) as [E|E]; [|discriminate]. intros X. injection X as <-.
  split; [reflexivity|]. split; [apply set_nth_length|]. split; [assumption|]. intros g Lg. unfold contents, address in *. cbn [h_vecs h_addr].
  rewrite nth_set_nth. destruct (Nat.eqb_spec (nth g (h_addr h) 0) (nth f (h_addr h) 0)) as [Eg|Eg]; [|reflexivity].
  rewrite (proj2 (Nat.ltb_lt _ _)) by congruence. reflexivity.
Qed.
Lemma fill_accepts h f x : length x = length (contents h f) -> exists h', fill h f x = Ok h'.
Proof. intros L. unfold fill. rewrite (proj2 (Nat.eqb_eq _ _) L). eauto. Qed.

(** The Functions [k] of the form do not share the vector of [v] *)
Definition apart (h : heap) (v : nat) (a : form) : Prop := forall k, mentions k a -> address h k <> address h v.
Definition same_vector (h : heap) (v tv : nat) : Prop := address h tv = address h v.

(** Functions of the form exist *)
Lemma mentions_bound n a V U f k : fit_for n a V U f -> mentions k a -> k < n.
Proof.
  intros ((_ & _ & F) & _) (i & t & id & W & Hi & Ht & K & C). destruct (F i Hi) as (_ & _ & _ & _ & _ & _ & _ & _ & A8).
  specialize (A8 t id W k Ht K C). rewrite repeat_length in A8. assumption.
Qed.
Lemma sound_address h f : sound h -> f < length (h_addr h) -> address h f < length (h_vecs h).
Proof. intros S L. apply S. apply nth_In. assumption. Qed.

Section Loop.
Variables (a : form) (V U n : nat) (e : ConvertModel.expr) (N : nat) (M : mat).

(** One pass of the loop *)
Lemma pass h0 h h1 v tv x : fit_for n a V U tv -> n <= length (h_addr h) -> n <= length (h_addr h0) -> sound h -> v < length (h_addr h) -> tv < length (h_addr h) ->
  same_vector h v tv -> apart h v a -> length (contents h v) = w_dim w U ->
  (forall k, mentions k a -> contents h0 k = contents h k) ->
  asm (values h0) a = Ok (TOp e) -> (forall m, N <= m -> collapse m e = Ok (EMat M)) ->
  fill h v x = Ok h1 ->
  asm (values h1) (plug_form tv a) = Ok (TVec (mv M x)) /\ h_addr h1 = h_addr h /\ sound h1 /\ contents h1 v = x /\ length x = w_dim w U /\
  (forall k, mentions k a -> contents h0 k = contents h1 k).
Proof.
  intros FIT L A0 S Lv Ltv SV AP Lx SAME E C F. destruct (fill_ok _ _ _ _ F) as (A1 & L1 & Lx1 & G).
  assert (Cv : contents h1 v = x) by (rewrite G, Nat.eqb_refl by (apply sound_address; assumption); reflexivity).
  assert (Ctv : contents h1 tv = x).
  { rewrite G by (apply sound_address; assumption). rewrite SV, Nat.eqb_refl. reflexivity. }
  assert (SAME1 : forall k, mentions k a -> contents h0 k = contents h1 k).
  { intros k Hk. assert (Lk := mentions_bound _ _ _ _ _ k FIT Hk). rewrite G by (apply sound_address; [assumption|lia]).
    rewrite (proj2 (Nat.eqb_neq _ _)) by (apply AP; assumption). auto. }
  assert (NM : ~ mentions tv a) by (intros H; apply (AP tv H); exact SV).
  split; [|split; [assumption|split; [|split; [assumption|split; [congruence|assumption] ] ] ] ].
  - assert (Lt : tv < length (values h1)) by (rewrite values_length, A1; assumption).
    destruct (action (values h0) (values h1) a V U tv e N M n FIT) as (R & _); try assumption.
    + rewrite values_length. assumption.
    + rewrite values_length, A1. assumption.
    + intros k Hk. assert (Lk := mentions_bound _ _ _ _ _ k FIT Hk). rewrite !values_nth by (rewrite ?A1; lia). auto.
    + rewrite values_nth by (rewrite A1; assumption). congruence.
    + rewrite values_nth in R by (rewrite A1; assumption). rewrite Ctv in R. exact R.
  - unfold sound. rewrite A1, L1. exact S.
Qed.

Lemma evolve_loop h0 v tv xs : forall h, fit_for n a V U tv -> n <= length (h_addr h) -> n <= length (h_addr h0) -> sound h -> v < length (h_addr h) -> tv < length (h_addr h) ->
  same_vector h v tv -> apart h v a -> length (contents h v) = w_dim w U ->
  (forall k, mentions k a -> contents h0 k = contents h k) ->
  asm (values h0) a = Ok (TOp e) -> (forall m, N <= m -> collapse m e = Ok (EMat M)) ->
  (forall x, In x xs -> length x = w_dim w U) ->
  evolve asm h v (plug_form tv a) xs = Ok (map (fun x => TVec (mv M x)) xs).
Proof.
  induction xs as [|x xs IH]; intros h FIT L A0 S Lv Ltv SV AP Lx SAME E C LX; cbn [evolve map]; [reflexivity|].
  destruct (fill_accepts h v x) as (h1 & F); [rewrite Lx; apply LX; left; reflexivity|].
  destruct (pass h0 h h1 v tv x) as (R & A1 & S1 & Cv & Lx1 & SAME1); try assumption.
  rewrite F. cbn [bind]. rewrite R. cbn [bind]. rewrite (IH h1); [reflexivity|try assumption ..].
  - rewrite A1. assumption.
  - rewrite A1. assumption.
  - rewrite A1. assumption.
  - unfold same_vector, address in *. rewrite A1. assumption.
  - unfold apart, address in *. rewrite A1. assumption.
  - congruence.
  - intros y Hy. apply LX. right. assumption.
Qed.

Lemma vec_eqb_refl x : vec_eqb x x = true.
Proof. induction x as [|a0 x IH]; cbn [vec_eqb]; [reflexivity|]. destruct (Qc_eq_dec a0 a0); [assumption|congruence]. Qed.

Lemma check_loop h0 v tv xs : forall h, fit_for n a V U tv -> n <= length (h_addr h) -> n <= length (h_addr h0) -> sound h -> v < length (h_addr h) -> tv < length (h_addr h) ->
  same_vector h v tv -> apart h v a -> length (contents h v) = w_dim w U ->
  (forall k, mentions k a -> contents h0 k = contents h k) ->
  asm (values h0) a = Ok (TOp e) -> (forall m, N <= m -> collapse m e = Ok (EMat M)) ->
  (forall x, In x xs -> length x = w_dim w U) ->
  exists h', check_action asm h v M (plug_form tv a) xs = Ok h' /\ contents h' v = last xs (contents h v).
Proof.
  induction xs as [|x xs IH]; intros h FIT L A0 S Lv Ltv SV AP Lx SAME E C LX; cbn [check_action]; [exists h; auto|].
  destruct (fill_accepts h v x) as (h1 & F); [rewrite Lx; apply LX; left; reflexivity|].
  destruct (pass h0 h h1 v tv x) as (R & A1 & S1 & Cv & Lx1 & SAME1); try assumption.
  rewrite F. cbn [bind]. rewrite R. cbn [bind]. rewrite Cv, vec_eqb_refl. cbn [py_assert bind].
  destruct (IH h1) as (h' & R' & C'); try assumption.
  - rewrite A1. assumption.
  - rewrite A1. assumption.
  - rewrite A1. assumption.
  - unfold same_vector, address in *. rewrite A1. assumption.
  - unfold apart, address in *. rewrite A1. assumption.
  - congruence.
  - intros y Hy. apply LX. right. assumption.
  - exists h'. split; [assumption|]. rewrite C', Cv. destruct xs as [|y xs]; [reflexivity|]. clear. cbn [last].
    revert y. induction xs as [|z xs IHx]; intros y; [reflexivity|]. apply (IHx z).
Qed.
End Loop.

(** ** Sharing *)
Lemma sharing_spec h v h1 tv : sharing h v = (h1, tv) -> sound h -> v < length (h_addr h) ->
  sound h1 /\ v < length (h_addr h1) /\ tv < length (h_addr h1) /\ tv = length (h_addr h) /\ length (h_addr h1) = S (length (h_addr h)) /\ same_vector h1 v tv /\
  (forall k, k < length (h_addr h) -> contents h1 k = contents h k /\ address h1 k = address h k).
Proof.
  unfold sharing. intros X S L. injection X as <- <-. cbn [h_addr h_vecs]. rewrite app_length. cbn [length].
  assert (A : forall k, k < length (h_addr h) -> address (Heap (h_vecs h) (h_addr h ++ [address h v])) k = address h k).
  { intros k Lk. unfold address. cbn [h_addr]. apply app_nth1. assumption. }
  split; [|split; [lia|split; [lia|split; [reflexivity|split; [lia|split] ] ] ] ].
  - intros b. cbn [h_addr h_vecs]. rewrite in_app_iff. intros [Hb|[<-|[] ] ]; [auto|]. apply sound_address; assumption.
  - unfold same_vector. rewrite (A v) by assumption. unfold address at 1. cbn [h_addr]. rewrite app_nth2, Nat.sub_diag by lia. reflexivity.
  - intros k Lk. split; [|auto]. unfold contents. rewrite A by assumption. reflexivity.
Qed.
End Action.

(** A linear form with a reduced Function in the place of the trial function is
    the matrix of the bilinear form times the values of the Function. *)
Theorem C124_action_partial w valid integrate sp mt ord dfa fuel st a V U f n :
  an_order ord -> role_closed valid -> reductions_ok w sp -> assembles_plain w (modules w sp mt) integrate valid dfa ->
  fit_for w valid sp mt fuel n a V U f -> n <= length st -> f < length st -> ~ mentions f a -> length (nth f st []) = w_dim w U ->
  exists e N M, xii_assemble w (modules w sp mt) ord dfa fuel st a = Ok (TOp e) /\
    (forall m, N <= m -> collapse m e = Ok (EMat M)) /\ nr M = w_dim w V /\ nc M = w_dim w U /\
    xii_assemble w (modules w sp mt) ord dfa fuel st (plug_form f a) = Ok (TVec (mv M (nth f st []))).
Proof. intros ORD VAL RED DFA FIT L Lf FR Lx. exact (action_exists w valid integrate sp mt ord dfa fuel ORD VAL RED DFA st a V U f n FIT L Lf FR Lx). Qed.

(** evolve_rhs.py: the form with a reduced copy of [v] follows the values that are filled into the vector of [v]. *)
Theorem C124_fill_partial w valid integrate sp mt ord dfa fuel a V U n h v h1 tv xs :
  an_order ord -> role_closed valid -> reductions_ok w sp -> assembles_plain w (modules w sp mt) integrate valid dfa ->
  sharing h v = (h1, tv) -> sound h -> v < length (h_addr h) -> n <= length (h_addr h) ->
  fit_for w valid sp mt fuel n a V U tv -> apart h v a -> length (contents h v) = w_dim w U ->
  (forall x, In x xs -> length x = w_dim w U) ->
  exists e N M, xii_assemble w (modules w sp mt) ord dfa fuel (values h) a = Ok (TOp e) /\
    (forall m, N <= m -> collapse m e = Ok (EMat M)) /\
    evolve (xii_assemble w (modules w sp mt) ord dfa fuel) h1 v (plug_form tv a) xs = Ok (map (fun x => TVec (mv M x)) xs).
Proof.
  intros ORD VAL RED DFA SH S Lv Ln FIT AP Lx LX. destruct (sharing_spec h v h1 tv SH S Lv) as (S1 & Lv1 & Ltv & -> & L1 & SV & K).
  pose proof FIT as (_ & _ & _ & MF & B).
  assert (FF := fit_store w valid sp mt fuel _ _ _ _ _ (values h) FIT ltac:(rewrite values_length; exact Ln)).
  destruct (C26_reduced_bilinear_partial w valid integrate sp mt ord dfa fuel (values h) a V U ORD VAL RED DFA FF MF B) as (e & N & M & E & C & _).
  exists e, N, M. split; [assumption|]. split; [assumption|].
  apply (evolve_loop w valid integrate sp mt ord dfa fuel ORD VAL RED DFA a V U n e N M h v (length (h_addr h)) xs h1); try assumption; try lia.
  - intros k Hk. assert (Lk := mentions_bound w valid sp mt fuel n a V U _ k FIT Hk). rewrite (proj2 (K k ltac:(lia))), (proj2 (K v Lv)). apply AP. assumption.
  - rewrite (proj1 (K v Lv)). assumption.
  - intros k Hk. assert (Lk := mentions_bound w valid sp mt fuel n a V U _ k FIT Hk). symmetry. apply K. lia.
Qed.

(** lhs_reduced.py: its assertion never fails, and the script leaves the last values in [v]. *)
Theorem C124_script_partial w valid integrate sp mt ord dfa fuel a V U n h v xs :
  an_order ord -> role_closed valid -> reductions_ok w sp -> assembles_plain w (modules w sp mt) integrate valid dfa ->
  sound h -> v < length (h_addr h) -> n <= length (h_addr h) ->
  fit_for w valid sp mt fuel n a V U (length (h_addr h)) -> apart h v a -> length (contents h v) = w_dim w U ->
  (forall x, In x xs -> length x = w_dim w U) ->
  exists h', contents h' v = last xs (contents h v) /\
    exists N, forall m, N <= m -> lhs_reduced (xii_assemble w (modules w sp mt) ord dfa fuel) m h v a xs = Ok h'.
Proof.
  intros ORD VAL RED DFA S Lv Ln FIT AP Lx LX. destruct (sharing h v) as [h1 tv] eqn:SH. destruct (sharing_spec h v h1 tv SH S Lv) as (S1 & Lv1 & Ltv & -> & L1 & SV & K).
  pose proof FIT as (_ & _ & _ & MF & B).
  assert (FF := fit_store w valid sp mt fuel _ _ _ _ _ (values h1) FIT ltac:(rewrite values_length; lia)).
  destruct (C26_reduced_bilinear_partial w valid integrate sp mt ord dfa fuel (values h1) a V U ORD VAL RED DFA FF MF B) as (e & N & M & E & C & _).
  destruct (check_loop w valid integrate sp mt ord dfa fuel ORD VAL RED DFA a V U n e N M h1 v (length (h_addr h)) xs h1) as (h' & R & Cv); try assumption; try lia.
  - intros k Hk. assert (Lk := mentions_bound w valid sp mt fuel n a V U _ k FIT Hk). rewrite (proj2 (K k ltac:(lia))), (proj2 (K v Lv)). apply AP. assumption.
  - rewrite (proj1 (K v Lv)). assumption.
  - reflexivity.
  - exists h'. split; [rewrite Cv, (proj1 (K v Lv)); reflexivity|]. exists N. intros m Hm. unfold lhs_reduced. rewrite SH, E. cbn [bind]. rewrite C by assumption. cbn [bind]. exact R.
Qed.

(** With assign the form keeps the values that [v] had when the reduced copy was made. *)
Theorem C124_assign_partial w valid integrate sp mt ord dfa fuel a V U n h v h1 tv xs :
  an_order ord -> role_closed valid -> reductions_ok w sp -> assembles_plain w (modules w sp mt) integrate valid dfa ->
  sharing h v = (h1, tv) -> sound h -> v < length (h_addr h) -> n <= length (h_addr h) ->
  fit_for w valid sp mt fuel n a V U tv -> apart h v a -> length (contents h v) = w_dim w U ->
  exists e N M, xii_assemble w (modules w sp mt) ord dfa fuel (values h) a = Ok (TOp e) /\
    (forall m, N <= m -> collapse m e = Ok (EMat M)) /\
    evolve_assign (xii_assemble w (modules w sp mt) ord dfa fuel) h1 v (plug_form tv a) xs = Ok (map (fun _ => TVec (mv M (contents h v))) xs).
Proof.
  intros ORD VAL RED DFA SH S Lv Ln FIT AP Lx. destruct (sharing_spec h v h1 tv SH S Lv) as (S1 & Lv1 & Ltv & -> & L1 & SV & K).
  pose proof FIT as (_ & _ & _ & MF & B).
  assert (FF := fit_store w valid sp mt fuel _ _ _ _ _ (values h) FIT ltac:(rewrite values_length; exact Ln)).
  destruct (C26_reduced_bilinear_partial w valid integrate sp mt ord dfa fuel (values h) a V U ORD VAL RED DFA FF MF B) as (e & N & M & E & C & _).
  exists e, N, M. split; [assumption|]. split; [assumption|].
  set (tv := length (h_addr h)) in *.
  assert (MN : forall k, mentions k a -> k < n) by (intros k; apply (mentions_bound w valid sp mt fuel n a V U _ k FIT)).
  assert (NV : ~ mentions v a) by (intros H; exact (AP v H eq_refl)).
  assert (G : forall h2, sound h2 -> length (h_addr h2) = length (h_addr h1) -> contents h2 tv = contents h v -> (forall k, mentions k a -> contents h k = contents h2 k) ->
    evolve_assign (xii_assemble w (modules w sp mt) ord dfa fuel) h2 v (plug_form tv a) xs = Ok (map (fun _ => TVec (mv M (contents h v))) xs)).
  { induction xs as [|x xs IH]; intros h2 S2 L2 Ct SA; cbn [evolve_assign map]; [reflexivity|].
    set (h3 := assign h2 v x).
    assert (L3 : length (h_addr h3) = length (h_addr h1)) by (unfold h3, assign; cbn [h_addr]; rewrite set_nth_length; assumption).
    assert (O : forall k, k <> v -> k < length (h_addr h2) -> contents h3 k = contents h2 k).
    { intros k Nk Lk. unfold h3, assign, contents, address. cbn [h_addr h_vecs]. rewrite nth_set_nth.
      rewrite (proj2 (Nat.eqb_neq _ _) Nk). cbn [andb]. apply app_nth1. apply (sound_address h2 k S2 Lk). }
    assert (S3 : sound h3).
    { intros b Hb. unfold h3, assign in *. cbn [h_addr h_vecs] in *. rewrite app_length. cbn [length]. apply In_nth with (d := 0) in Hb as (k & Lk & <-).
      rewrite set_nth_length in Lk. rewrite nth_set_nth. destruct ((k =? v) && (v <? length (h_addr h2))); [lia|]. assert (X := sound_address h2 k S2 Lk). unfold address in X. lia. }
    assert (Ct3 : contents h3 tv = contents h v) by (rewrite O; [assumption|unfold tv; lia|lia]).
    assert (SA3 : forall k, mentions k a -> contents h k = contents h3 k).
    { intros k Hk. rewrite O; [auto|intros ->; auto|]. specialize (MN k Hk). lia. }
    destruct (action w valid integrate sp mt ord dfa fuel ORD VAL RED DFA (values h) (values h3) a V U tv e N M n FIT) as (R & _); try assumption.
    - rewrite values_length. assumption.
    - rewrite values_length. lia.
    - rewrite values_length. lia.
    - intros H. specialize (MN _ H). unfold tv in MN. lia.
    - intros k Hk. assert (Lk := MN k Hk). rewrite !values_nth by lia. auto.
    - rewrite values_nth by lia. congruence.
    - rewrite values_nth in R by lia. rewrite R. cbn [bind]. rewrite Ct3. rewrite (IH h3 S3 L3 Ct3 SA3). reflexivity. }
  apply G; try assumption; try reflexivity.
  - unfold contents. rewrite SV. exact (proj1 (K v Lv)).
  - intros k Hk. symmetry. apply K. specialize (MN k Hk). lia.
Qed.

(** ** An instance: the form of C26_example, with every Function in the place of the trial function *)
Lemma ex_fit_for f : fit_for ex_w ex_valid ex_sp ex_mt 4 0 ex_form 2 3 f.
Proof.
  split; [exact C26_hypotheses_met|]. split; [|split; [|split] ].
  - intros i t V Hi Ht K. destruct Hi as [<-|[<-|[] ] ]; cbn [snd] in Ht; occ Ht; cbn in K |- *; congruence.
  - intros i Hi. destruct Hi as [<-|[<-|[] ] ]; cbn [snd plug map plug_term tkind]; eexists _, _; (split; [reflexivity|]); split; cbn; auto.
  - intros i _. apply ex_fit.
  - intros i [<-|[<-|[] ] ]; cbn; lia.
Qed.
Lemma ex_mentions k : ~ mentions k ex_form.
Proof. intros (i & t & id & V & Hi & Ht & K & _). destruct Hi as [<-|[<-|[] ] ]; cbn [snd] in Ht; occ Ht; discriminate K. Qed.
(** Two Functions of space 3, that share a vector *)
Definition ex_heap : heap := Heap [ [qz 5]; [qz 1; qz 2; qz 0; qz (-1)] ] [1; 1].
Lemma ex_sound : sound ex_heap.
Proof. intros a H. cbn in H. cbn. intuition lia. Qed.
Definition ex_steps : list vec := [ [qz 1; qz 0; qz 0; qz 0]; [qz 0; qz 1; qz (-2); qz 3] ].

Example C124_fill_example ord : an_order ord ->
  exists e N M, xii_assemble ex_w (modules ex_w ex_sp ex_mt) ord ex_dfa 4 (values ex_heap) ex_form = Ok (TOp e) /\
    (forall m, N <= m -> collapse m e = Ok (EMat M)) /\
    evolve (xii_assemble ex_w (modules ex_w ex_sp ex_mt) ord ex_dfa 4) (fst (sharing ex_heap 1)) 1 (plug_form 2 ex_form) ex_steps = Ok (map (fun x => TVec (mv M x)) ex_steps).
Proof.
  intros ORD. eapply (C124_fill_partial ex_w ex_valid ex_int ex_sp ex_mt ord ex_dfa 4 ex_form 2 3 0 ex_heap 1 _ 2 ex_steps ORD ex_closed ex_reductions ex_plain); try reflexivity; try (cbn; lia).
  - exact ex_sound.
  - apply ex_fit_for.
  - intros k H. destruct (ex_mentions k H).
  - intros x [<-|[<-|[] ] ]; reflexivity.
Qed.
Definition shown (r : res (list tensor)) : res (list (list Q)) :=
  do l <- r; mapM (fun t => match t with TVec b => Ok (map this b) | _ => Err TypeError end) l.
Example C124_fill_runs :
  shown (evolve (xii_assemble ex_w (modules ex_w ex_sp ex_mt) (fun l => l) ex_dfa 4) (fst (sharing ex_heap 1)) 1 (plug_form 2 ex_form) ex_steps)
  = Ok [ [1305#1; 1893#1; 2481#1]; [6138#1; 8946#1; 11754#1] ]%Q.
Proof. vm_compute. reflexivity. Qed.
Example C124_script_example ord : an_order ord ->
  exists h', contents h' 1 = [qz 0; qz 1; qz (-2); qz 3] /\
    exists N, forall m, N <= m -> lhs_reduced (xii_assemble ex_w (modules ex_w ex_sp ex_mt) ord ex_dfa 4) m ex_heap 1 ex_form ex_steps = Ok h'.
Proof.
  intros ORD. apply (C124_script_partial ex_w ex_valid ex_int ex_sp ex_mt ord ex_dfa 4 ex_form 2 3 0 ex_heap 1 ex_steps ORD ex_closed ex_reductions ex_plain); try reflexivity; try (cbn; lia).
  - exact ex_sound.
  - apply ex_fit_for.
  - intros k H. destruct (ex_mentions k H).
  - intros x [<-|[<-|[] ] ]; reflexivity.
Qed.

(** With assign instead of the vector the same loop does not follow the values:
    all assumptions of C124_fill_partial hold. *)
Theorem C124_assign_refuted : exists w valid integrate sp mt ord dfa fuel a V U n h v h1 tv xs,
  an_order ord /\ role_closed valid /\ reductions_ok w sp /\ assembles_plain w (modules w sp mt) integrate valid dfa /\
  sharing h v = (h1, tv) /\ sound h /\ v < length (h_addr h) /\ n <= length (h_addr h) /\
  fit_for w valid sp mt fuel n a V U tv /\ apart h v a /\ length (contents h v) = w_dim w U /\
  (forall x, In x xs -> length x = w_dim w U) /\
  forall e N M, xii_assemble w (modules w sp mt) ord dfa fuel (values h) a = Ok (TOp e) -> (forall m, N <= m -> collapse m e = Ok (EMat M)) ->
    evolve_assign (xii_assemble w (modules w sp mt) ord dfa fuel) h1 v (plug_form tv a) xs <> Ok (map (fun x => TVec (mv M x)) xs).
Proof.
  exists ex_w, ex_valid, ex_int, ex_sp, ex_mt, (fun l => l), ex_dfa, 4, ex_form, 2, 3, 0, ex_heap, 1, (fst (sharing ex_heap 1)), 2, [ [qz 0; qz 0; qz 0; qz 0] ].
  assert (ORD : an_order (fun l => l)) by (intros l; apply Permutation_refl).
  assert (AP : apart ex_heap 1 ex_form) by (intros k H; destruct (ex_mentions k H)).
  split; [exact ORD|]. split; [exact ex_closed|]. split; [exact ex_reductions|]. split; [exact ex_plain|]. split; [reflexivity|]. split; [exact ex_sound|].
  split; [cbn; lia|]. split; [cbn; lia|]. split; [apply ex_fit_for|]. split; [exact AP|]. split; [reflexivity|]. split; [intros x [<-|[] ]; reflexivity|].
  intros e N M E C H.
  assert (X : shown (evolve_assign (xii_assemble ex_w (modules ex_w ex_sp ex_mt) (fun l => l) ex_dfa 4) (fst (sharing ex_heap 1)) 1 (plug_form 2 ex_form) [ [qz 0; qz 0; qz 0; qz 0] ])
    = Ok [ [2022#1; 2926#1; 3830#1] ]%Q) by (vm_compute; reflexivity).
  rewrite H in X. cbn [map shown mapM bind] in X.
  assert (Z : mv M [qz 0; qz 0; qz 0; qz 0] = vtab (nr M) (fun _ => q0)).
  { apply vec_ext; [rewrite mv_length, vtab_length; reflexivity|]. rewrite mv_length. intros i Hi. rewrite vnth_mv, vnth_vtab by assumption.
    apply sumn_zero. intros j _. replace (vnth [qz 0; qz 0; qz 0; qz 0] j) with q0; [unfold q0; ring|].
    destruct j as [|[|[|[|j] ] ] ]; try reflexivity. destruct j; reflexivity. }
  rewrite Z in X. destruct (nr M) as [|k]; [discriminate X|]. discriminate X.
Qed.

Print Assumptions C124_action_partial.
Print Assumptions C124_fill_partial.
Print Assumptions C124_script_partial.
Print Assumptions C124_assign_partial.
Print Assumptions C124_assign_refuted.
