(** C96: forms with flux averages and their blocks. *)
From Verif Require Import Base BaseProofs Mat MatProofs ConvertModel FillModel FillProofs AverageProofs EvalModel EvalProofs.
From Verif Require Import RestrictModel UflModel UflProofs BlockFormModel BlockFormProofs BlockFormAddProofs BlockFormProps ReducedModel ReducedProofs ReducedProps CoupledModel KindsProofs CoupledProofs CoupledProps.
Local Open Scope nat_scope.
Local Close Scope Q_scope.
Local Close Scope Qc_scope.

(** Argument [n] of the integrand is the flux average of a function of [V]: all
    its occurrences are of the space [D] of scalars and remember [V]
    (flux_average_form.py:54-59). *)
Definition flux_of (w : world) (n V D : nat) (e : expr) : Prop :=
  (exists t, occurs t e /\ tkind t = KArg n D) /\
  forall t W, occurs t e -> tkind t = KArg n W -> W = D /\ exists d, getattr t (AOther 1) = Some d /\ w_domain w d = V.

Lemma flux_own w n V D e : flux_of w n V D e -> has_space n e D.
Proof. intros [(t & Ht & K) H]. split; [eauto|]. intros s W Hs Ks. apply (H s W Hs Ks). Qed.
Lemma flux_function w n V D e : flux_of w n V D e -> function_of w n (Some V) e.
Proof.
  intros F. split; [exists D; eapply flux_own; eassumption|]. intros t W Ht K. destruct F as [_ F]. destruct (F t W Ht K) as (_ & d & G & E).
  unfold stands_in. rewrite G. congruence.
Qed.

(** What the integrand gets for a flux average of the function with coefficients [u]. *)
Definition flux_values (g : geometry) (V TV d : nat) (x y : vec) : Prop :=
  forall n dofs r p, In (n, dofs) (g_lines g TV) -> In (r, p) dofs ->
    vnth y r = shape_flux (g_collision g V) (g_limit g V) (g_basis g V) (g_dofs g V) (g_components g V) (g_normals g d) x p n.

(** C96, given to ii_assemble as a list of blocks: the rows (columns) are those of
    the space of the test (trial) function that was averaged, and the integrands
    get the means of its normal component. *)
Theorem C96_fluxes_partial w g R valid integrate sp ord dfa fuel st f V U role D :
  let mods := modules w sp (reduction_matrix w g) in
  an_order ord -> role_closed valid -> reductions_ok w sp ->
  assembles_plain w mods integrate valid dfa ->
  form_fine w valid st (Some V) (Some U) f ->
  role < 2 -> (forall i, In i f -> flux_of w role (nth role [V; U] 0) D (snd i)) ->
  (forall i, In i f -> coupled_ok w g R sp (w_imesh w (fst i)) st (snd i)) ->
  (forall i, In i f -> reductions mods (snd i) + 1 < fuel) ->
  exists e N M, xii_assemble w mods ord dfa fuel st f = Ok (TOp e) /\
    (forall n, N <= n -> collapse n e = Ok (EMat M)) /\
    nr M = w_dim w V /\ nc M = w_dim w U /\
    forall v u, length v = w_dim w V -> length u = w_dim w U ->
      (forall q, form_sees w g R sp integrate st v u f q <-> q = vdot v (mv M u)) /\
      forall i t W r, In i f -> occurs t (snd i) -> tkind t = KArg role W -> sees w g R sp (w_imesh w (fst i)) st v u (Leaf t) r ->
        exists d y, getattr t (AOther 1) = Some d /\ let Z := nth role [V; U] 0 in let TV := sp (AOther 1) Z (w_imesh w (fst i)) d in
          r = VFun TV y /\ length y = w_dim w TV /\ flux_values g Z TV d (nth role [v; u] []) y.
Proof.
  intros mods ORD VAL SOK DFA F RL FX C B.
  destruct (C95_bilinear w g R valid integrate sp ord dfa fuel st f V U ORD VAL SOK DFA F C B) as (e & N & M & E & CO & D1 & D2 & H).
  exists e, N, M. repeat (split; [assumption|]). intros v u Hv Hu. split; [apply H; assumption|].
  intros i t W r Hi Ht K S. destruct (FX i Hi) as [_ FX']. destruct (FX' t W Ht K) as (_ & d & G & DM). exists d.
  inversion S as [t0 NO|t0 a d' V0 x y Ia G' P V1 RD|]; subst.
  - rewrite NO in G; [discriminate|]. unfold all_attrs. cbn. tauto.
  - assert (a = AOther 1) as ->.
    { destruct F as (_ & _ & F). destruct (F i Hi) as [_ (PL & _)]. destruct (PL t Ht) as [ [NO _]|(a' & d1 & V2 & Ia' & D' & O & _)].
      - rewrite NO in G' by assumption. discriminate.
      - assert (X : forall b dd, In b all_attrs -> getattr t b = Some dd -> b = a') by (intros b dd Ib Gb; destruct (attr_eq_dec b a') as [e'|n]; [assumption|rewrite (O b Ib n) in Gb; discriminate]).
        rewrite (X _ _ Ia G'). symmetry. apply (X _ d); [|assumption]. unfold all_attrs. cbn. tauto. }
    assert (d' = d) as -> by congruence. exists y. split; [assumption|].
    unfold plain_value in P. rewrite K in P. subst V1. cbn [acts_on] in *. rewrite DM in *.
    assert (x = nth role [v; u] []) as -> by (destruct role as [|[|role] ]; [| |lia]; injection P as _ <-; reflexivity).
    split; [reflexivity|]. destruct RD as [R1 R2]. split; [exact R1|]. exact R2.
Qed.

(** C96 is false of block forms (block_form.py:95-119): they look for the spaces of
    the arguments, and the flux average is of another space than [V].  Alone the
    form is refused, with others it is dropped without notice (as are those after it). *)
Theorem C96_block_form_refuted w W rows c f x g addr V U D :
  state2 W rows c ->
  (forall y, In y f -> addressed2 W (snd y) (fst (addr y)) (snd (addr y))) ->
  In V W -> In U W -> ~ In D W ->
  (flux_of w 0 V D (snd x) /\ has_space 1 (snd x) U) \/ (has_space 0 (snd x) V /\ flux_of w 1 U D (snd x)) ->
  add (Bil W rows) [x] = Err StopIteration /\
  (f <> [] -> exists rows', add (Bil W rows) (f ++ x :: g) = Ok (Bil W rows') /\
    state2 W rows' (fun i j => c i j ++ filter (fun y => (fst (addr y) =? i) && (snd (addr y) =? j)) f)).
Proof.
  intros ST HA HV HU ND HX.
  assert (X : exists v u, has_space 0 (snd x) v /\ has_space 1 (snd x) u /\ (~ In v W \/ ~ In u W)).
  { destruct HX as [ [F S]|[S F] ]; apply flux_own in F; eauto 6. }
  split; [apply C21_rejects_partial; assumption|]. intros NE. apply C21_rejects_refuted; assumption.
Qed.

(** When the space of scalars is one of the spaces, the form goes to its column;
    what is assembled there has the columns of [U]. *)
Theorem C96_column_refuted w g R valid integrate sp ord dfa fuel st W rows c x V U D i j :
  let mods := modules w sp (reduction_matrix w g) in
  an_order ord -> role_closed valid -> reductions_ok w sp ->
  assembles_plain w mods integrate valid dfa ->
  state2 W rows c -> at_pos W V i -> at_pos W D j ->
  form_fine w valid st (Some V) (Some U) [x] -> has_space 0 (snd x) V -> flux_of w 1 U D (snd x) ->
  coupled_ok w g R sp (w_imesh w (fst x)) st (snd x) -> reductions mods (snd x) + 1 < fuel ->
  (exists rows', add (Bil W rows) [x] = Ok (Bil W rows') /\ state2 W rows' (fun k l => c k l ++ if (i =? k) && (j =? l) then [x] else [])) /\
  (exists e N M, xii_assemble w mods ord dfa fuel st [x] = Ok (TOp e) /\ (forall n, N <= n -> collapse n e = Ok (EMat M)) /\
    nr M = w_dim w V /\ nc M = w_dim w U).
Proof.
  intros mods ORD VAL SOK DFA ST PI PJ F S0 FX C B. split.
  - destruct (C21_add_bilinear W rows c [x] (fun _ => (i, j))) as (rows' & E & S'); [discriminate|assumption| |exists rows'; split; assumption].
    intros y [<-|[] ]. exists V, D. cbn [fst snd]. split; [assumption|]. split; [apply (flux_own w _ U); assumption|]. split; assumption.
  - destruct (C95_bilinear w g R valid integrate sp ord dfa fuel st [x] V U ORD VAL SOK DFA F) as (e & N & M & E & CO & D1 & D2 & H).
    + intros y [<-|[] ]. assumption.
    + intros y [<-|[] ]. assumption.
    + exists e, N, M. repeat (split; [assumption|]). assumption.
Qed.

(** ** Instances *)
Lemma ex_flux_of : forall i, In i ex_flux -> flux_of ex_w 1 8 7 (snd i).
Proof.
  intros i [<-|[] ]. split.
  - eexists. split; [apply occurs_node with (Leaf (Term (KArg 1 7) None None None [(1, 1)])); [right; left; reflexivity|constructor]|reflexivity].
  - intros t W H K. occ H; cbn in K; [discriminate K|]. injection K as <-. split; [reflexivity|]. exists 1. split; reflexivity.
Qed.
(** Space 8 has two components and nine dofs; one cell with basis functions that
    have three resp. two dofs on it. *)
Definition flux_geometry : geometry := {|
  g_trace := fun _ _ _ _ => ex_trace Plus 1;
  g_restriction := fun _ _ _ _ => [];
  g_collision := fun _ x => if Qc_eq_bool (vnth x 0) half then 1 else 0;
  g_limit := fun _ => 1;
  g_basis := fun _ _ x => [vnth x 0; vnth x 1; vnth x 1; vnth x 2; q1; vnth x 0]%Qc;
  g_dofs := fun _ _ => [8; 0; 4];
  g_shape := fun _ => true;
  g_quadrature := fun _ p n => ([], []);
  g_lines := fun _ => [([half; q0; q0], [(0, [half; half; q0])]); ([q0; half; q0], [(1, [q0; half; half])])];
  g_size := fun _ => 1;
  g_line_cells := fun _ => []; g_parents := fun _ _ => None; g_edge_cells := fun _ _ => []; g_line_collision := fun _ _ _ => 0;
  g_components := fun _ => 2;
  g_normals := fun _ p n => ([vadd p n; vadd p (vscale (-q1)%Qc n)], [q1; q1 + q1]%Qc, [n; vscale (-q1)%Qc n]);
  g_transpose := g_transpose ex_geometry; g_patch := g_patch ex_geometry; g_mean := g_mean ex_geometry; g_point := g_point ex_geometry;
  g_surface := g_surface ex_geometry; g_injection := g_injection ex_geometry
|}.
Lemma flux_coupled : forall i, In i ex_flux -> coupled_ok ex_w flux_geometry ex_reality ex_sp (w_imesh ex_w (fst i)) [] (snd i).
Proof.
  intros i [<-|[] ]; (split; [|intros t id V k H K; occ H; discriminate K]); intros t a d V H Ia D SV; cbn [fst snd ex_sp w_imesh ex_w] in *;
  occ H; (eapply of_space_arg in SV; [|reflexivity]); subst V; cbn in Ia;
  repeat match goal with H : _ = a \/ _ |- _ => destruct H as [<-|H] end; try contradiction; try discriminate D.
  - split; [reflexivity|]. apply ex_trace_fine; cbn; auto.
  - split; [|split; [|split; [|split] ] ].
    + intros c Hc. split; [nodup|]. split; [intros j Hj; cbn in Hj |- *; intuition lia|reflexivity].
    + intros x n. split; reflexivity.
    + nodup.
    + intros n dofs r p [E|[E|[] ] ] Hr; injection E as <- <-; destruct Hr as [Hr|[] ]; injection Hr as <- <-; cbn; lia.
    + intros i Hi. cbn in Hi. destruct i as [|[|i] ]; [| |lia].
      * eexists _, _, _. split; [left; reflexivity|left; reflexivity].
      * eexists _, _, _. split; [right; left; reflexivity|left; reflexivity].
Qed.
Example C96_fluxes_example ord : an_order ord ->
  exists e N M, xii_assemble ex_w (modules ex_w ex_sp (reduction_matrix ex_w flux_geometry)) ord ex_dfa 4 [] ex_flux = Ok (TOp e) /\
    (forall n, N <= n -> collapse n e = Ok (EMat M)) /\ nr M = 3 /\ nc M = 9 /\
    forall v u, length v = 3 -> length u = 9 ->
      (forall q, form_sees ex_w flux_geometry ex_reality ex_sp ex_int [] v u ex_flux q <-> q = vdot v (mv M u)) /\
      forall i t W r, In i ex_flux -> occurs t (snd i) -> tkind t = KArg 1 W -> sees ex_w flux_geometry ex_reality ex_sp (w_imesh ex_w (fst i)) [] v u (Leaf t) r ->
        exists d y, getattr t (AOther 1) = Some d /\ r = VFun (fst i) y /\ length y = fst i + 1 /\ flux_values flux_geometry 8 (fst i) d u y.
Proof.
  intros ORD. destruct (C96_fluxes_partial ex_w flux_geometry ex_reality ex_valid ex_int ex_sp ord ex_dfa 4 [] ex_flux 2 8 1 7 ORD ex_closed ex_reductions) as (e & N & M & E & C & D1 & D2 & H).
  - eapply plain_any. exact ex_plain.
  - exact C26_flux_fine.
  - lia.
  - exact ex_flux_of.
  - exact flux_coupled.
  - intros i [<-|[] ]; cbn; lia.
  - exists e, N, M. repeat (split; [assumption|]). intros v u Hv Hu. destruct (H v u Hv Hu) as [H1 H2]. split; [assumption|].
    intros i t W r Hi Ht K S. destruct (H2 i t W r Hi Ht K S) as (d & y & G & R). exists d, y. split; [assumption|].
    destruct Hi as [<-|[] ]. exact R.
Qed.
Example C96_fluxes_runs :
  (do r <- xii_assemble ex_w (modules ex_w ex_sp (reduction_matrix ex_w flux_geometry)) (fun l => l) ex_dfa 4 [] ex_flux;
   match r with TOp e => do c <- collapse 8 e; match c with EMat M => Ok (map (map this) (to_rows M)) | _ => Err TypeError end | _ => Err TypeError end)
  = Ok [ [-1#12; 0; 0; 0; -1#12; 0; 0; 0; 1#6]; [-1#6; 0; 0; 0; -1#6; 0; 0; 0; 1#3]; [-1#12; 0; 0; 0; -1#12; 0; 0; 0; 1#6] ]%Q.
Proof. vm_compute. reflexivity. Qed.

(** The form of the example, for a block form of spaces 2 and 8, and of spaces 2 and 7. *)
Lemma empty_state W : W <> [] -> exists rows, block_form (fun _ => []) W 2 = Ok (Bil W rows) /\ state2 W rows (fun _ _ => []).
Proof. intros NE. apply (C21_initial (fun _ => []) W NE). Qed.
Example C96_block_form_example : exists rows, block_form (fun _ => []) [2; 8] 2 = Ok (Bil [2; 8] rows) /\
  forall x, In x ex_flux -> add (Bil [2; 8] rows) [x] = Err StopIteration.
Proof.
  destruct (empty_state [2; 8]) as (rows & E & S); [discriminate|]. exists rows. split; [assumption|]. intros x Hx.
  apply (C96_block_form_refuted ex_w [2; 8] rows (fun _ _ => []) [] x [] (fun _ => (0, 0)) 2 8 7).
  - assumption.
  - intros y [].
  - cbn. tauto.
  - cbn. tauto.
  - cbn. lia.
  - right. split; [|apply ex_flux_of; assumption]. destruct Hx as [<-|[] ]. split.
    + eexists. split; [apply occurs_node with (Leaf (Term (KArg 0 2) (Some 1) None None [])); [left; reflexivity|constructor]|reflexivity].
    + intros t W H K. occ H; cbn in K; congruence.
Qed.
Example C96_column_example ord : an_order ord -> forall x, In x ex_flux ->
  exists rows rows', block_form (fun _ => []) [2; 7] 2 = Ok (Bil [2; 7] rows) /\ add (Bil [2; 7] rows) [x] = Ok (Bil [2; 7] rows') /\
    state2 [2; 7] rows' (fun k l => if (0 =? k) && (1 =? l) then [x] else []) /\
    exists e N M, xii_assemble ex_w (modules ex_w ex_sp (reduction_matrix ex_w flux_geometry)) ord ex_dfa 4 [] [x] = Ok (TOp e) /\
      (forall n, N <= n -> collapse n e = Ok (EMat M)) /\ nc M = 9 /\ w_dim ex_w 7 = 8.
Proof.
  intros ORD x Hx. destruct (empty_state [2; 7]) as (rows & E & S); [discriminate|].
  assert (HX : ex_flux = [x]) by (destruct Hx as [<-|[] ]; reflexivity).
  destruct (C96_column_refuted ex_w flux_geometry ex_reality ex_valid ex_int ex_sp ord ex_dfa 4 [] [2; 7] rows (fun _ _ => []) x 2 8 7 0 1 ORD ex_closed ex_reductions) as [(rows' & A & S') (e & N & M & B & C & D1 & D2)].
  - eapply plain_any. exact ex_plain.
  - assumption.
  - split; [reflexivity|]. intros k Hk. lia.
  - split; [reflexivity|]. intros k Hk. replace k with 0 by lia. discriminate.
  - rewrite <- HX. exact C26_flux_fine.
  - destruct Hx as [<-|[] ]. split.
    + eexists. split; [apply occurs_node with (Leaf (Term (KArg 0 2) (Some 1) None None [])); [left; reflexivity|constructor]|reflexivity].
    + intros t W H K. occ H; cbn in K; congruence.
  - apply ex_flux_of. assumption.
  - apply flux_coupled. assumption.
  - destruct Hx as [<-|[] ]; cbn; lia.
  - exists rows, rows'. split; [assumption|]. split; [assumption|]. split; [exact S'|]. exists e, N, M. split; [assumption|]. split; [assumption|]. split; [assumption|reflexivity].
Qed.

Print Assumptions C96_fluxes_partial.
Print Assumptions C96_block_form_refuted.
Print Assumptions C96_column_refuted.
