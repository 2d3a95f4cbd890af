(** C26, C27: assembly of forms with reduced arguments and coefficients. *)
From Verif Require Import Base BaseProofs Mat MatProofs ConvertModel UflModel UflProofs BlockFormModel BlockFormProofs BlockFormAddProofs ReducedModel ReducedProofs.
From Coq Require Import Cantor Permutation.
Local Open Scope nat_scope.
Local Close Scope Q_scope.
Local Close Scope Qc_scope.

(** C26: the operator returned for a bilinear form is turned by ii_collapse into
    a matrix, and the matrix of a bilinear form with any of the arguments (and of the
    coefficients) reduced, over any list of integrals, is the form evaluated on
    the reduced functions.  Partial: reductions that the modules confuse
    ([separable]) and a function reduced in two ways within one integrand are
    excluded. *)
Theorem C26_reduced_bilinear_partial w valid integrate sp mt ord dfa fuel st f V U :
  an_order ord -> role_closed valid -> reductions_ok w sp ->
  assembles_plain w (modules w sp mt) integrate valid dfa ->
  form_fine w valid st (Some V) (Some U) f ->
  (forall i, In i f -> matrices_fit w sp mt (w_imesh w (fst i)) (snd i)) ->
  (forall i, In i f -> reductions (modules w sp mt) (snd i) + 1 < fuel) ->
  exists e N M, xii_assemble w (modules w sp mt) ord dfa fuel st f = Ok (TOp e) /\
    (forall n, N <= n -> collapse n e = Ok (EMat M)) /\
    nr M = w_dim w V /\ nc M = w_dim w U /\
    forall v u, length v = w_dim w V -> length u = w_dim w U ->
      vdot v (mv M u) = qsum (map (fun i => integrate (fst i) (evaluate (modules w sp mt) (w_imesh w (fst i)) st v u (snd i))) f).
Proof.
  intros ORD VAL RED DFA F MF B.
  destruct (assemble_correct w (modules w sp mt) integrate valid ord dfa VAL ORD DFA (modules_ok w sp mt RED) fuel st f (Some V) (Some U)) as (r & E & R).
  - left. discriminate.
  - apply form_fine_ok; assumption.
  - assumption.
  - destruct r as [e|b|q]; try contradiction. destruct R as (M & R0 & R1 & R2 & R3).
    destruct (stands_collapses e M R0) as (N & M' & H & Q1 & Q2 & Q3).
    exists e, N, M'. split; [assumption|]. split; [assumption|]. split; [congruence|]. split; [congruence|].
    intros v u Hv Hu. rewrite (mv_meq M' M) by (repeat split; assumption). apply R3; assumption.
Qed.

(** C27: linear forms and functionals. *)
Theorem C27_reduced_linear_partial w valid integrate sp mt ord dfa fuel st f V :
  an_order ord -> role_closed valid -> reductions_ok w sp ->
  assembles_plain w (modules w sp mt) integrate valid dfa ->
  form_fine w valid st (Some V) None f ->
  (forall i, In i f -> matrices_fit w sp mt (w_imesh w (fst i)) (snd i)) ->
  (forall i, In i f -> reductions (modules w sp mt) (snd i) + 1 < fuel) ->
  exists b, xii_assemble w (modules w sp mt) ord dfa fuel st f = Ok (TVec b) /\ length b = w_dim w V /\
    forall v u, length v = w_dim w V ->
      vdot v b = qsum (map (fun i => integrate (fst i) (evaluate (modules w sp mt) (w_imesh w (fst i)) st v u (snd i))) f).
Proof.
  intros ORD VAL RED DFA F MF B.
  destruct (assemble_correct w (modules w sp mt) integrate valid ord dfa VAL ORD DFA (modules_ok w sp mt RED) fuel st f (Some V) None) as (r & E & R).
  - left. discriminate.
  - apply form_fine_ok; assumption.
  - assumption.
  - destruct r as [M|b|q]; try contradiction. destruct R as (R1 & R3). exists b. repeat split; assumption.
Qed.
Theorem C27_reduced_functional_partial w valid integrate sp mt ord dfa fuel st f :
  an_order ord -> role_closed valid -> reductions_ok w sp ->
  assembles_plain w (modules w sp mt) integrate valid dfa ->
  form_fine w valid st None None f ->
  (forall i, In i f -> matrices_fit w sp mt (w_imesh w (fst i)) (snd i)) ->
  (forall i, In i f -> reductions (modules w sp mt) (snd i) + 1 < fuel) ->
  exists q, xii_assemble w (modules w sp mt) ord dfa fuel st f = Ok (TNum q) /\
    forall v u, q = qsum (map (fun i => integrate (fst i) (evaluate (modules w sp mt) (w_imesh w (fst i)) st v u (snd i))) f).
Proof.
  intros ORD VAL RED DFA F MF B.
  destruct (assemble_correct w (modules w sp mt) integrate valid ord dfa VAL ORD DFA (modules_ok w sp mt RED) fuel st f None None) as (r & E & R).
  - right. reflexivity.
  - apply form_fine_ok; assumption.
  - assumption.
  - destruct r as [M|b|q]; try contradiction. exists q. split; [assumption|exact R].
Qed.

(** Any other list of assemblers with the same discipline works as well. *)
Theorem C26_any_assemblers w asms valid integrate ord dfa fuel st f oV oU :
  an_order ord -> role_closed valid -> assemblers_ok asms -> assembles_plain w asms integrate valid dfa ->
  supported oV oU -> form_ok w asms valid st oV oU f ->
  (forall i, In i f -> reductions asms (snd i) + 1 < fuel) ->
  exists r, xii_assemble w asms ord dfa fuel st f = Ok r /\ represents w oV oU r (form_value w asms integrate st f).
Proof. intros. eapply assemble_correct; eassumption. Qed.

(** ** An instance: mesh m has dimension m mod 4 and one space, called m or (from
    8 on) m + 1; mesh 7 has the additional space 8, of which fluxes are averaged.
    Space V has V + 1 dofs; integrands are products of two terminals and integrate to
    the product of the sums of the coefficients. *)
Definition ex_w : world := World (fun V => if V <? 8 then V else V - 1) (fun m => m mod 4) (fun V => V + 1) (fun m => m) (fun _ d => d) (fun _ => 8).
Definition ex_sp (a : attr) (V mesh d : nat) : nat := if mesh <? 8 then mesh else S mesh.
Definition ex_mt (a : attr) (V TV mesh d : nat) : res mat := Ok (Mat (TV + 1) (V + 1) (fun i j => qz (Z.of_nat (i + 2 * j + 1)))).
Definition total (x : vec) : Qc := sumn (length x) (vnth x).
Definition cfv (t : vtree) : Qc := match t with VFun _ x => total x | VConst id => qz (Z.of_nat id) | VNode _ _ => q0 end.
Definition ex_int (m : nat) (t : vtree) : Qc := match t with VNode 0 [a; b] => (cfv a * cfv b)%Qc | _ => q0 end.
Definition role_in (n : nat) (t : term) : Prop := match tkind t with KArg m _ => m = n | KOther _ => True end.
Definition ex_valid (e : expr) : Prop := exists a b, e = Node 0 [Leaf a; Leaf b] /\ role_in 0 a /\ role_in 1 b.
Definition ex_coef (st : store) (t : term) : Qc :=
  match tkind t with
  | KArg _ _ => q1
  | KOther id => match Cantor.of_nat id with (S _, k) => total (nth k st []) | (0, _) => qz (Z.of_nat id) end
  end.
Definition ex_scale (st : store) (f : list (nat * expr)) : Qc :=
  qsum (map (fun i => match snd i with Node 0 [Leaf a; Leaf b] => (ex_coef st a * ex_coef st b)%Qc | _ => q0 end) f).
Definition dfa_of (w : world) (st : store) (f : list (nat * expr)) : res tensor :=
  match form_spaces 0 f, form_spaces 1 f with
  | [V], [U] => Ok (TOp (EMat (Mat (w_dim w V) (w_dim w U) (fun _ _ => ex_scale st f))))
  | [V], [] => Ok (TVec (vtab (w_dim w V) (fun _ => ex_scale st f)))
  | [], [] => Ok (TNum (ex_scale st f))
  | _, _ => Err RuntimeError
  end.
Definition ex_dfa := dfa_of ex_w.

Lemma ex_fit mesh e : matrices_fit ex_w ex_sp ex_mt mesh e.
Proof. intros t a d V _ _ _ _ V'. eexists. split; [reflexivity|]. split; reflexivity. Qed.
Lemma ex_reductions : reductions_ok ex_w ex_sp.
Proof.
  intros a V mesh d _. unfold ex_sp. cbn [w_mesh ex_w]. destruct (Nat.ltb_spec mesh 8).
  - rewrite (proj2 (Nat.ltb_lt mesh 8)) by assumption. reflexivity.
  - rewrite (proj2 (Nat.ltb_ge (S mesh) 8)) by lia. lia.
Qed.

Lemma ex_closed : role_closed ex_valid.
Proof.
  intros g e e' H C (a & b & -> & Ra & Rb). inversion C as [|ty l l' F E1 E2]; subst. inversion F as [|x x' m m' C1 F1 E1 E2]; subst.
  inversion F1 as [|y y' m1 m1' C2 F2 E1 E2]; subst. inversion F2; subst. inversion C1; subst. inversion C2; subst.
  exists (g a), (g b). split; [reflexivity|].
  assert (Ha : same_role a (g a)) by (apply H; apply occurs_node with (Leaf a); [left; reflexivity|constructor]).
  assert (Hb : same_role b (g b)) by (apply H; apply occurs_node with (Leaf b); [right; left; reflexivity|constructor]).
  unfold same_role, role_in in *. split.
  - destruct (tkind a), (tkind (g a)); congruence || tauto.
  - destruct (tkind b), (tkind (g b)); congruence || tauto.
Qed.

Lemma total_const n c v : length v = n -> vdot v (vtab n (fun _ => c)) = (total v * c)%Qc.
Proof.
  intros L. unfold vdot, total. rewrite <- sumn_scal_r. apply sumn_ext. intros i Hi. rewrite vnth_vtab by lia. reflexivity.
Qed.

Lemma qsum_scale {X} (g h : X -> Qc) c l : (forall x, In x l -> g x = (c * h x)%Qc) -> qsum (map g l) = (c * qsum (map h l))%Qc.
Proof.
  induction l as [|x l IH]; intros H; cbn [map qsum]; [unfold q0; ring|]. rewrite (H x) by (left; reflexivity).
  rewrite IH by (intros y Hy; apply H; right; assumption). ring.
Qed.

Lemma of_space_arg t n V W : tkind t = KArg n V -> of_space t W -> W = V.
Proof. intros K [(m & E)|(id & k & E & _)]; congruence. Qed.

Lemma plain_argument asms mesh n o e : (forall t, occurs t e -> untouched asms mesh t) -> argument asms n o e ->
  match o with Some V => has_space n e V | None => no_space n e end.
Proof.
  intros UN. destruct o as [V|]; cbn; [|auto]. intros [(W & [ (t & Ht & K) H]) HO].
  assert (W = V); [|subst W; split; eauto]. specialize (HO t W Ht K). unfold home in HO. rewrite (find_untouched asms mesh) in HO by auto.
  symmetry. eapply of_space_arg; eassumption.
Qed.

Lemma plain_of w : assembles_plain w (modules w ex_sp ex_mt) ex_int ex_valid (dfa_of w).
Proof.
  intros st f oV oU SUP (NE & _ & F) UN. set (ms := modules w ex_sp ex_mt) in *.
  assert (AR : forall i, In i f -> match oV with Some V => has_space 0 (snd i) V | None => no_space 0 (snd i) end /\
                                   match oU with Some V => has_space 1 (snd i) V | None => no_space 1 (snd i) end).
  { intros i Hi. split; apply (plain_argument ms (w_imesh w (fst i))); try apply (F i Hi); intros t Ht; apply (UN i t Hi Ht). }
  assert (SC : forall v u, form_value w ms ex_int st f v u =
     ((match oV with Some _ => total v | None => q1 end * match oU with Some _ => total u | None => q1 end) * ex_scale st f)%Qc).
  { intros v u. unfold form_value, ex_scale. apply qsum_scale. intros [m e] Hi. cbn [fst snd].
    destruct (F _ Hi) as (_ & _ & _ & (a & b & E & Ra & Rb) & _). destruct (AR _ Hi) as [A0 A1]. cbn [fst snd] in *. subst e.
    assert (Oa : occurs a (Node 0 [Leaf a; Leaf b])) by (apply occurs_node with (Leaf a); [left; reflexivity|constructor]).
    assert (Ob : occurs b (Node 0 [Leaf a; Leaf b])) by (apply occurs_node with (Leaf b); [right; left; reflexivity|constructor]).
    assert (INV : forall t, occurs t (Node 0 [Leaf a; Leaf b]) -> t = a \/ t = b).
    { intros t Ht. inversion Ht as [|f0 ops x Hx Hs]; subst. destruct Hx as [<-|[<-|[] ] ]; inversion Hs; auto. }
    assert (VA : forall t, occurs t (Node 0 [Leaf a; Leaf b]) -> value ms (w_imesh w m) st v u t = plain_value st v u t).
    { intros t Ht. unfold value. rewrite (find_untouched ms (w_imesh w m)); [reflexivity|]. apply (UN (m, Node 0 [Leaf a; Leaf b])); assumption. }
    cbn [evaluate map ex_int]. rewrite (VA a Oa), (VA b Ob). unfold plain_value, ex_coef, role_in in *.
    assert (Ea : oV <> None <-> exists V, tkind a = KArg 0 V).
    { destruct oV as [V|]; cbn in A0.
      - split; [intros _|discriminate]. destruct A0 as [(t & Ht & K) _]. destruct (INV t Ht) as [->| ->]; [eauto|]. rewrite K in Rb. discriminate.
      - split; [congruence|]. intros (V & K). exfalso. apply (A0 a V Oa K). }
    assert (Eb : oU <> None <-> exists V, tkind b = KArg 1 V).
    { destruct oU as [V|]; cbn in A1.
      - split; [intros _|discriminate]. destruct A1 as [(t & Ht & K) _]. destruct (INV t Ht) as [->| ->]; [|eauto]. rewrite K in Ra. discriminate.
      - split; [congruence|]. intros (V & K). exfalso. apply (A1 b V Ob K). }
    assert (Ta : (match oV with Some _ => total v | None => q1 end * ex_coef st a)%Qc = cfv (plain_value st v u a)).
    { unfold ex_coef, plain_value. destruct (tkind a) as [n V|id]; [subst n|].
      - destruct oV; [cbn; unfold q1; ring|]. exfalso. apply Ea; eauto.
      - destruct oV; [exfalso; destruct (proj1 Ea ltac:(discriminate)); discriminate|].
        destruct (Cantor.of_nat id) as [ [|W] k]; cbn [cfv]; unfold q1; ring. }
    assert (Tb : (match oU with Some _ => total u | None => q1 end * ex_coef st b)%Qc = cfv (plain_value st v u b)).
    { unfold ex_coef, plain_value. destruct (tkind b) as [n V|id]; [subst n|].
      - destruct oU; [cbn; unfold q1; ring|]. exfalso. apply Eb; eauto.
      - destruct oU; [exfalso; destruct (proj1 Eb ltac:(discriminate)); discriminate|].
        destruct (Cantor.of_nat id) as [ [|W] k]; cbn [cfv]; unfold q1; ring. }
    unfold plain_value, ex_coef in Ta, Tb. rewrite <- Ta, <- Tb. ring. }
  assert (S0 : form_spaces 0 f = match oV with Some V => [V] | None => [] end).
  { destruct oV as [V|]; [apply form_spaces_single; [assumption|]|apply form_spaces_none]; intros i Hi; apply (AR i Hi). }
  assert (S1 : form_spaces 1 f = match oU with Some V => [V] | None => [] end).
  { destruct oU as [V|]; [apply form_spaces_single; [assumption|]|apply form_spaces_none]; intros i Hi; apply (AR i Hi). }
  unfold dfa_of. rewrite S0, S1. destruct oV as [V|], oU as [U|].
  - eexists. split; [reflexivity|]. eexists. split; [apply stands_mat|]. repeat split. intros v u Hv Hu. rewrite SC. cbn in Hv, Hu.
    replace (mv _ u) with (vtab (w_dim w V) (fun _ => (ex_scale st f * total u)%Qc)); [rewrite total_const by assumption; ring|].
    apply vec_ext; [rewrite mv_length, vtab_length; reflexivity|]. rewrite vtab_length. intros i Hi.
    rewrite vnth_vtab, vnth_mv by assumption. cbn [nc ent]. unfold total. rewrite <- sumn_scal, Hu. reflexivity.
  - eexists. split; [reflexivity|]. split; [apply vtab_length|]. intros v u Hv. rewrite SC. cbn in Hv. rewrite total_const by assumption. unfold q1. ring.
  - destruct SUP as [C|C]; [congruence|discriminate].
  - eexists. split; [reflexivity|]. intros v u. rewrite SC. unfold q1. ring.
Qed.
Definition ex_plain : assembles_plain ex_w (modules ex_w ex_sp ex_mt) ex_int ex_valid ex_dfa := plain_of ex_w.

(** trace(v) * average(u) over the line mesh 1, plus p * restriction(u) over 5:
    v in space 2, u in space 3 first integral; the second integral over mesh 7
    (dimension 3) has v extended by transpose_trace and u restricted. *)
Definition ex_form : list (nat * expr) :=
  [(1, Node 0 [Leaf (Term (KArg 0 2) (Some 1) None None []); Leaf (Term (KArg 1 3) None None (Some 1) [])]);
   (7, Node 0 [Leaf (Term (KArg 0 2) None None None [(0, 7)]); Leaf (Term (KArg 1 3) None (Some 7) None [])])].

Ltac occ H := let f0 := fresh "f0" in let o := fresh "o" in let x := fresh "x" in let Hx := fresh "Hx" in let Hs := fresh "Hs" in
  inversion H as [|f0 o x Hx Hs]; subst; cbn in Hx; destruct Hx as [<-|[<-|[] ] ]; inversion Hs; subst; clear Hs H.

Ltac apart := let Hi := fresh "Hi" in let Hj := fresh "Hj" in let E := fresh "E" in let A := fresh "A" in
  intros ? ? Hi Hj E A; cbn [In] in Hi, Hj;
  repeat match goal with H : _ \/ _ |- _ => destruct H as [<-|H] end; try contradiction; try reflexivity; exfalso; cbn [fst snd] in E, A;
  try discriminate E; apply expr_eqb_iff in A; discriminate A.
Ltac unif := let Hi := fresh "Hi" in let Hj := fresh "Hj" in let Ht := fresh "Ht" in let Hs := fresh "Hs" in let K1 := fresh "K1" in let K2 := fresh "K2" in
  split; [|apart]; intros ? ? ? ? ? ? ? Hi Hj Ht Hs K1 K2; cbn [In] in Hi, Hj;
  repeat match goal with H : _ \/ _ |- _ => destruct H as [<-|H] end; try contradiction; cbn [snd] in Ht, Hs; occ Ht; occ Hs; cbn in K1, K2; congruence.
Ltac home_of := let H := fresh "H" in let K := fresh "K" in
  intros ? ? H K; occ H; unfold stands_in; cbn in K |- *; try discriminate K; first [left; eexists; reflexivity | reflexivity].

Example C26_hypotheses_met : form_fine ex_w ex_valid [] (Some 2) (Some 3) ex_form.
Proof.
  split; [discriminate|]. split; [unfold ex_form; unif|]. intros i [<-|[<-|[] ] ]; (split; [cbn; lia|]); cbn [fst snd];
  (split; [|split; [|split; [|split; [|split; [|split; [|split] ] ] ] ] ]).
  - intros t H. right. occ H.
    + exists ATrace, 1, 2. cbn. split; [auto|]. split; [reflexivity|]. split; [|split; [left; eexists; reflexivity|split; [split; reflexivity|discriminate] ] ].
      intros b Hb N. intuition (subst; try reflexivity; try congruence).
    + exists AAverage, 1, 3. cbn. split; [auto|]. split; [reflexivity|]. split; [|split; [left; eexists; reflexivity|split; [split; reflexivity|discriminate] ] ].
      intros b Hb N. intuition (subst; try reflexivity; try congruence).
  - intros t s H H'. occ H; occ H'; cbn; congruence.
  - intros s t a b V Hs Ht Ia Ib N Ga Gb SV. occ Hs; occ Ht; cbn in Ia, Ib;
    repeat match goal with H : _ = _ \/ _ |- _ => destruct H as [<-|H] end; try contradiction; cbn in Ga, Gb; try congruence;
    (eapply of_space_arg in SV; [|reflexivity]); subst V; (split; [intros [C|C]; try discriminate C; cbn; lia|discriminate]).
  - eexists _, _. split; [reflexivity|]. split; reflexivity.
  - split; [eexists; split; [eexists; split; [apply occurs_node with (Leaf (Term (KArg 0 2) (Some 1) None None [])); [left; reflexivity|constructor]|reflexivity]|intros t w H K; occ H; cbn in K; congruence]|home_of].
  - split; [eexists; split; [eexists; split; [apply occurs_node with (Leaf (Term (KArg 1 3) None None (Some 1) [])); [right; left; reflexivity|constructor]|reflexivity]|intros t w H K; occ H; cbn in K; congruence]|home_of].
  - intros t n V H K. occ H; cbn in K; injection K; lia.
  - intros t id V k H K. occ H; discriminate.
  - intros t H. right. occ H.
    + exists (AOther 0), 7, 2. cbn. split; [auto|]. split; [reflexivity|]. split; [|split; [left; eexists; reflexivity|split; [reflexivity|discriminate] ] ].
      intros b Hb N. intuition (subst; try reflexivity; try congruence).
    + exists ARestriction, 7, 3. cbn. split; [tauto|]. split; [reflexivity|]. split; [|split; [left; eexists; reflexivity|split; [split; [reflexivity|split; [lia|reflexivity] ]|discriminate] ] ].
      intros b Hb N. intuition (subst; try reflexivity; try congruence).
  - intros t s H H'. occ H; occ H'; cbn; congruence.
  - intros s t a b V Hs Ht Ia Ib N Ga Gb SV. occ Hs; occ Ht; cbn in Ia, Ib;
    repeat match goal with H : _ = _ \/ _ |- _ => destruct H as [<-|H] end; try contradiction; cbn in Ga, Gb; try congruence;
    (eapply of_space_arg in SV; [|reflexivity]); subst V; (split; [intros [C|C]; try discriminate C; cbn; lia|discriminate]).
  - eexists _, _. split; [reflexivity|]. split; reflexivity.
  - split; [eexists; split; [eexists; split; [apply occurs_node with (Leaf (Term (KArg 0 2) None None None [(0, 7)])); [left; reflexivity|constructor]|reflexivity]|intros t w H K; occ H; cbn in K; congruence]|home_of].
  - split; [eexists; split; [eexists; split; [apply occurs_node with (Leaf (Term (KArg 1 3) None (Some 7) None [])); [right; left; reflexivity|constructor]|reflexivity]|intros t w H K; occ H; cbn in K; congruence]|home_of].
  - intros t n V H K. occ H; cbn in K; injection K; lia.
  - intros t id V k H K. occ H; discriminate.
Qed.

(** The theorem applied to it, with sets iterated in any order. *)
Example C26_example ord : an_order ord ->
  exists e N M, xii_assemble ex_w (modules ex_w ex_sp ex_mt) ord ex_dfa 4 [] ex_form = Ok (TOp e) /\
    (forall n, N <= n -> collapse n e = Ok (EMat M)) /\ nr M = 3 /\ nc M = 4 /\
    forall v u, length v = 3 -> length u = 4 ->
      vdot v (mv M u) = qsum (map (fun i => ex_int (fst i) (evaluate (modules ex_w ex_sp ex_mt) (fst i) [] v u (snd i))) ex_form).
Proof.
  intros ORD. destruct (C26_reduced_bilinear_partial ex_w ex_valid ex_int ex_sp ex_mt ord ex_dfa 4 [] ex_form 2 3 ORD ex_closed ex_reductions ex_plain C26_hypotheses_met (fun _ _ => ex_fit _ _)) as (e & N & M & E & C & D1 & D2 & H).
  - intros i [<-|[<-|[] ] ]; cbn; lia.
  - exists e, N, M. repeat split; assumption.
Qed.
Example C26_example_runs :
  (do r <- xii_assemble ex_w (modules ex_w ex_sp ex_mt) (fun l => l) ex_dfa 4 [] ex_form;
   match r with TOp e => do c <- collapse 8 e; match c with EMat M => Ok (map (map this) (to_rows M)) | _ => Err TypeError end | _ => Err TypeError end)
  = Ok [ [1305#1; 1893#1; 2481#1; 3069#1]; [1893#1; 2753#1; 3613#1; 4473#1]; [2481#1; 3613#1; 4745#1; 5877#1] ]%Q.
Proof. vm_compute. reflexivity. Qed.

(** A flux average: the trial function of the form is of space 7, the columns
    of the matrix are those of space 8. *)
Definition ex_flux : list (nat * expr) :=
  [(1, Node 0 [Leaf (Term (KArg 0 2) (Some 1) None None []); Leaf (Term (KArg 1 7) None None None [(1, 1)])])].
Example C26_flux_fine : form_fine ex_w ex_valid [] (Some 2) (Some 8) ex_flux.
Proof.
  split; [discriminate|]. split; [unfold ex_flux; unif|]. intros i [<-|[] ]; (split; [cbn; lia|]); cbn [fst snd];
  (split; [|split; [|split; [|split; [|split; [|split; [|split] ] ] ] ] ]).
  - intros t H. right. occ H.
    + exists ATrace, 1, 2. cbn. split; [auto|]. split; [reflexivity|]. split; [|split; [left; eexists; reflexivity|split; [split; reflexivity|discriminate] ] ].
      intros b Hb N. intuition (subst; try reflexivity; try congruence).
    + exists (AOther 1), 1, 7. cbn. split; [auto|]. split; [reflexivity|]. split; [|split; [left; eexists; reflexivity|split; [split; reflexivity|eauto] ] ].
      intros b Hb N. intuition (subst; try reflexivity; try congruence).
  - intros t s H H'. occ H; occ H'; cbn; congruence.
  - intros s t a b V Hs Ht Ia Ib N Ga Gb SV. occ Hs; occ Ht; cbn in Ia, Ib;
    repeat match goal with H : _ = _ \/ _ |- _ => destruct H as [<-|H] end; try contradiction; cbn in Ga, Gb; try congruence;
    (eapply of_space_arg in SV; [|reflexivity]); subst V; (split; [intros [C|C]; try discriminate C; cbn; lia|discriminate]).
  - eexists _, _. split; [reflexivity|]. split; reflexivity.
  - split; [eexists; split; [eexists; split; [apply occurs_node with (Leaf (Term (KArg 0 2) (Some 1) None None [])); [left; reflexivity|constructor]|reflexivity]|intros t w H K; occ H; cbn in K; congruence]|home_of].
  - split; [eexists; split; [eexists; split; [apply occurs_node with (Leaf (Term (KArg 1 7) None None None [(1, 1)])); [right; left; reflexivity|constructor]|reflexivity]|intros t w H K; occ H; cbn in K; congruence]|home_of].
  - intros t n V H K. occ H; cbn in K; injection K; lia.
  - intros t id V k H K. occ H; discriminate.
Qed.
Example C26_flux_example ord : an_order ord ->
  exists e N M, xii_assemble ex_w (modules ex_w ex_sp ex_mt) ord ex_dfa 4 [] ex_flux = Ok (TOp e) /\
    (forall n, N <= n -> collapse n e = Ok (EMat M)) /\ nr M = 3 /\ nc M = 9 /\
    forall v u, length v = 3 -> length u = 9 ->
      vdot v (mv M u) = (total (mv (Mat 2 3 (fun i j => qz (Z.of_nat (i + 2 * j + 1)))) v) * total (mv (Mat 2 9 (fun i j => qz (Z.of_nat (i + 2 * j + 1)))) u))%Qc.
Proof.
  intros ORD. destruct (C26_reduced_bilinear_partial ex_w ex_valid ex_int ex_sp ex_mt ord ex_dfa 4 [] ex_flux 2 8 ORD ex_closed ex_reductions ex_plain C26_flux_fine (fun _ _ => ex_fit _ _)) as (e & N & M & E & C & D1 & D2 & H).
  - intros i [<-|[] ]; cbn; lia.
  - exists e, N, M. repeat (split; [assumption|]). intros v u Hv Hu. rewrite (H v u Hv Hu).
    change (qsum _) with ((total (mv (Mat 2 3 (fun i j => qz (Z.of_nat (i + 2 * j + 1)))) v) * total (mv (Mat 2 9 (fun i j => qz (Z.of_nat (i + 2 * j + 1)))) u)) + q0)%Qc.
    unfold q0. ring.
Qed.

(** C26 is false when an average and a flux average meet in one integrand: the
    average assembler takes the other one for its own and its assertion fails. *)
Definition bad_form : list (nat * expr) :=
  [(1, Node 0 [Leaf (Term (KArg 0 3) None None (Some 1) []); Leaf (Term (KArg 1 7) None None None [(1, 1)])])].
Theorem C26_reduced_bilinear_refuted :
  (forall i t, In i bad_form -> occurs t (snd i) -> placed ex_w (w_imesh ex_w (fst i)) t) /\
  (forall i, In i bad_form -> ex_valid (snd i) /\ function_of ex_w 0 (Some 3) (snd i) /\ function_of ex_w 1 (Some 8) (snd i)) /\
  an_order (fun l => l) /\ reductions_ok ex_w ex_sp /\ (forall mesh e, matrices_fit ex_w ex_sp ex_mt mesh e) /\
  assembles_plain ex_w (modules ex_w ex_sp ex_mt) ex_int ex_valid ex_dfa /\
  forall fuel, xii_assemble ex_w (modules ex_w ex_sp ex_mt) (fun l => l) ex_dfa (S fuel) [] bad_form = Err AssertionError.
Proof.
  split; [|split; [|split; [|split; [|split; [|split] ] ] ] ].
  - intros i t [<-|[] ] H. cbn [fst snd] in *. right. occ H.
    + exists AAverage, 1, 3. cbn. split; [auto|]. split; [reflexivity|]. split; [|split; [left; eexists; reflexivity|split; [split; reflexivity|discriminate] ] ].
      intros b Hb N. intuition (subst; try reflexivity; try congruence).
    + exists (AOther 1), 1, 7. cbn. split; [auto|]. split; [reflexivity|]. split; [|split; [left; eexists; reflexivity|split; [split; reflexivity|eauto] ] ].
      intros b Hb N. intuition (subst; try reflexivity; try congruence).
  - intros i [<-|[] ]. cbn [fst snd]. split; [|split].
    + eexists _, _. split; [reflexivity|]. split; reflexivity.
    + split; [eexists; split; [eexists; split; [apply occurs_node with (Leaf (Term (KArg 0 3) None None (Some 1) [])); [left; reflexivity|constructor]|reflexivity]|intros t w H K; occ H; cbn in K; congruence]|home_of].
    + split; [eexists; split; [eexists; split; [apply occurs_node with (Leaf (Term (KArg 1 7) None None None [(1, 1)])); [right; left; reflexivity|constructor]|reflexivity]|intros t w H K; occ H; cbn in K; congruence]|home_of].
  - intros l. apply Permutation_refl.
  - exact ex_reductions.
  - exact ex_fit.
  - exact ex_plain.
  - intros fuel. reflexivity.
Qed.

(** C26 is false when integrals differ in reductions only, v * average(u) + v *
    patch_average(u) over mesh 1: each alone is assembled, but they are equal for
    UFL, and reduced_assembler.py:65 gives the second one to the average assembler,
    whose assertion fails (where UFL shares the operands of equal integrands the
    second is averaged like the first instead). *)
Definition twin_a : nat * expr := (1, Node 0 [Leaf (Term (KArg 0 1) None None None []); Leaf (Term (KArg 1 3) None None (Some 1) [])]).
Definition twin_b : nat * expr := (1, Node 0 [Leaf (Term (KArg 0 1) None None None []); Leaf (Term (KArg 1 3) None None None [(2, 1)])]).
Theorem C26_equal_integrals_refuted :
  form_fine ex_w ex_valid [] (Some 1) (Some 3) [twin_a] /\ form_fine ex_w ex_valid [] (Some 1) (Some 3) [twin_b] /\
  an_order (fun l => l) /\ reductions_ok ex_w ex_sp /\ (forall mesh e, matrices_fit ex_w ex_sp ex_mt mesh e) /\
  assembles_plain ex_w (modules ex_w ex_sp ex_mt) ex_int ex_valid ex_dfa /\
  forall fuel, xii_assemble ex_w (modules ex_w ex_sp ex_mt) (fun l => l) ex_dfa (S (S (S fuel))) [] [twin_a; twin_b] = Err AssertionError.
Proof.
  assert (UNT : forall mesh V, w_mesh ex_w V = mesh -> placed ex_w mesh (Term (KArg 0 V) None None None [])).
  { intros mesh V E. left. split; [intros a Ha; cbn in Ha; intuition (subst; reflexivity)|]. intros U HU. eapply of_space_arg in HU; [|reflexivity]. subst U. exact E. }
  split; [|split; [|split; [|split; [|split; [|split] ] ] ] ].
  1, 2: split; [discriminate|]; (split; [unfold twin_a, twin_b; unif|]); intros i [<-|[] ]; (split; [cbn; lia|]); cbn [fst snd twin_a twin_b];
    (split; [|split; [|split; [|split; [|split; [|split; [|split] ] ] ] ] ]).
  - intros t H. occ H; [apply UNT; reflexivity|right].
    exists AAverage, 1, 3. cbn. split; [auto|]. split; [reflexivity|]. split; [|split; [left; eexists; reflexivity|split; [split; reflexivity|discriminate] ] ].
    intros b Hb N. intuition (subst; try reflexivity; try congruence).
  - intros t s H H'. occ H; occ H'; cbn; congruence.
  - intros s t a b V Hs Ht Ia Ib N Ga Gb SV. occ Hs; occ Ht; cbn in Ia, Ib;
    repeat match goal with H : _ = _ \/ _ |- _ => destruct H as [<-|H] end; try contradiction; cbn in Ga, Gb; congruence.
  - eexists _, _. split; [reflexivity|]. split; reflexivity.
  - split; [eexists; split; [eexists; split; [apply occurs_node with (Leaf (Term (KArg 0 1) None None None [])); [left; reflexivity|constructor]|reflexivity]|intros t w H K; occ H; cbn in K; congruence]|home_of].
  - split; [eexists; split; [eexists; split; [apply occurs_node with (Leaf (Term (KArg 1 3) None None (Some 1) [])); [right; left; reflexivity|constructor]|reflexivity]|intros t w H K; occ H; cbn in K; congruence]|home_of].
  - intros t n V H K. occ H; cbn in K; injection K; lia.
  - intros t id V k H K. occ H; discriminate.
  - intros t H. occ H; [apply UNT; reflexivity|right].
    exists (AOther 2), 1, 3. cbn. split; [tauto|]. split; [reflexivity|]. split; [|split; [left; eexists; reflexivity|split; [reflexivity|discriminate] ] ].
    intros b Hb N. intuition (subst; try reflexivity; try congruence).
  - intros t s H H'. occ H; occ H'; cbn; congruence.
  - intros s t a b V Hs Ht Ia Ib N Ga Gb SV. occ Hs; occ Ht; cbn in Ia, Ib;
    repeat match goal with H : _ = _ \/ _ |- _ => destruct H as [<-|H] end; try contradiction; cbn in Ga, Gb; congruence.
  - eexists _, _. split; [reflexivity|]. split; reflexivity.
  - split; [eexists; split; [eexists; split; [apply occurs_node with (Leaf (Term (KArg 0 1) None None None [])); [left; reflexivity|constructor]|reflexivity]|intros t w H K; occ H; cbn in K; congruence]|home_of].
  - split; [eexists; split; [eexists; split; [apply occurs_node with (Leaf (Term (KArg 1 3) None None None [(2, 1)])); [right; left; reflexivity|constructor]|reflexivity]|intros t w H K; occ H; cbn in K; congruence]|home_of].
  - intros t n V H K. occ H; cbn in K; injection K; lia.
  - intros t id V k H K. occ H; discriminate.
  - intros l. apply Permutation_refl.
  - exact ex_reductions.
  - exact ex_fit.
  - exact ex_plain.
  - intros fuel. reflexivity.
Qed.

(** C27: mean(c) * v with c a coefficient: linear form, trace of v, reduced c. *)
Definition ex_lin : list (nat * expr) :=
  [(1, Node 0 [Leaf (Term (KArg 0 2) (Some 1) None None []); Leaf (Term (KOther (fun_id 3 0)) None None (Some 1) [])])].
Example C27_example ord : an_order ord ->
  exists b, xii_assemble ex_w (modules ex_w ex_sp ex_mt) ord ex_dfa 4 [ [qz 1; qz 2; qz 0; qz (-1)] ] ex_lin = Ok (TVec b) /\ length b = 3 /\
    forall v, length v = 3 -> vdot v b = qsum (map (fun i => ex_int (fst i) (evaluate (modules ex_w ex_sp ex_mt) (fst i) [ [qz 1; qz 2; qz 0; qz (-1)] ] v [] (snd i))) ex_lin).
Proof.
  intros ORD.
  destruct (C27_reduced_linear_partial ex_w ex_valid ex_int ex_sp ex_mt ord ex_dfa 4 [ [qz 1; qz 2; qz 0; qz (-1)] ] ex_lin 2 ORD ex_closed ex_reductions ex_plain) as (b & E & D1 & H).
  - assert (CO : forall W k, coefficient (fun_id 3 0) W k -> W = 3 /\ k = 0).
    { intros W k C. apply coefficient_of in C. unfold fun_id in C. rewrite Cantor.cancel_of_to in C. injection C as <- <-. auto. }
    remember (fun_id 3 0) as id3 eqn:Eid. assert (C3 : coefficient id3 3 0) by (rewrite Eid; reflexivity).
    unfold ex_lin. rewrite <- Eid. clear Eid.
    split; [discriminate|]. split; [unif|]. intros i [<-|[] ]. split; [cbn; lia|]. cbn [fst snd].
    split; [|split; [|split; [|split; [|split; [|split; [|split] ] ] ] ] ].
    + intros t H. right. occ H.
      * exists ATrace, 1, 2. cbn. split; [auto|]. split; [reflexivity|]. split; [|split; [left; eexists; reflexivity|split; [split; reflexivity|discriminate] ] ].
        intros b Hb N. intuition (subst; try reflexivity; try congruence).
      * exists AAverage, 1, 3. cbn. split; [auto|]. split; [reflexivity|]. split; [|split; [right; exists id3, 0; split; [reflexivity|assumption]|split; [split; reflexivity|discriminate] ] ].
        intros b Hb N. intuition (subst; try reflexivity; try congruence).
    + intros t s H H'. occ H; occ H'; cbn; congruence.
    + intros s t a b V Hs Ht Ia Ib N Ga Gb SV. occ Hs; occ Ht; cbn in Ia, Ib;
      repeat match goal with H : _ = _ \/ _ |- _ => destruct H as [<-|H] end; try contradiction; cbn in Ga, Gb; try congruence;
      (split; [|discriminate]); intros [C|C]; try discriminate C;
      (eapply of_space_arg in SV; [|reflexivity]); subst V; cbn; lia.
    + eexists _, _. split; [reflexivity|]. split; [reflexivity|exact Logic.I].
    + split; [eexists; split; [eexists; split; [apply occurs_node with (Leaf (Term (KArg 0 2) (Some 1) None None [])); [left; reflexivity|constructor]|reflexivity]|intros t w H K; occ H; cbn in K; congruence]|home_of].
    + intros t w H K. occ H; cbn in K; congruence.
    + intros t n V H K. occ H; cbn in K; [injection K; lia|discriminate].
    + intros t id V k H K C. occ H; cbn in K; [discriminate|]. injection K as <-. destruct (CO _ _ C) as [_ ->]. cbn. lia.
  - intros i Hi. apply ex_fit.
  - intros i [<-|[] ]. cbn. lia.
  - exists b. split; [assumption|]. split; [assumption|]. intros v Hv. apply H. assumption.
Qed.
(** C27 is false for the same mix with a coefficient *)
Definition bad_lin : list (nat * expr) :=
  [(1, Node 0 [Leaf (Term (KArg 0 7) None None None [(1, 1)]); Leaf (Term (KOther (fun_id 3 0)) None None (Some 1) [])])].
Theorem C27_reduced_linear_refuted : forall c, length c = w_dim ex_w 3 ->
  (forall i t, In i bad_lin -> occurs t (snd i) -> placed ex_w (w_imesh ex_w (fst i)) t) /\
  (forall i, In i bad_lin -> ex_valid (snd i) /\ function_of ex_w 0 (Some 8) (snd i) /\ forall t V, occurs t (snd i) -> tkind t <> KArg 1 V) /\
  an_order (fun l => l) /\ reductions_ok ex_w ex_sp /\ (forall mesh e, matrices_fit ex_w ex_sp ex_mt mesh e) /\
  assembles_plain ex_w (modules ex_w ex_sp ex_mt) ex_int ex_valid ex_dfa /\
  forall fuel, xii_assemble ex_w (modules ex_w ex_sp ex_mt) (fun l => l) ex_dfa (S fuel) [c] bad_lin = Err AssertionError.
Proof.
  intros c Hc. split; [|split; [|split; [|split; [|split; [|split] ] ] ] ].
  - assert (C3 : coefficient (fun_id 3 0) 3 0) by reflexivity. unfold bad_lin. remember (fun_id 3 0) as id eqn:Eid. clear Eid.
    intros i t [<-|[] ] H. cbn [fst snd] in *. right. occ H.
    + exists (AOther 1), 1, 7. cbn. split; [auto|]. split; [reflexivity|]. split; [|split; [left; eexists; reflexivity|split; [split; reflexivity|eauto] ] ].
      intros b Hb N. intuition (subst; try reflexivity; try congruence).
    + exists AAverage, 1, 3. cbn. split; [auto|]. split; [reflexivity|]. split; [|split; [right; exists id, 0; split; [reflexivity|assumption]|split; [split; reflexivity|discriminate] ] ].
      intros b Hb N. intuition (subst; try reflexivity; try congruence).
  - unfold bad_lin. remember (fun_id 3 0) as id eqn:Eid. clear Eid. intros i [<-|[] ]. cbn [fst snd]. split; [|split].
    + eexists _, _. split; [reflexivity|]. split; [reflexivity|exact Logic.I].
    + split; [eexists; split; [eexists; split; [apply occurs_node with (Leaf (Term (KArg 0 7) None None None [(1, 1)])); [left; reflexivity|constructor]|reflexivity]|intros t w H K; occ H; cbn in K; congruence]|home_of].
    + intros t V H K. occ H; cbn in K; congruence.
  - intros l. apply Permutation_refl.
  - exact ex_reductions.
  - exact ex_fit.
  - exact ex_plain.
  - intros fuel. reflexivity.
Qed.
Print Assumptions C26_reduced_bilinear_partial.
Print Assumptions C26_any_assemblers.
Print Assumptions C26_reduced_bilinear_refuted.
Print Assumptions C26_equal_integrals_refuted.
Print Assumptions C27_reduced_linear_partial.
Print Assumptions C27_reduced_functional_partial.
Print Assumptions C27_reduced_linear_refuted.
