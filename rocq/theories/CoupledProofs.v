(** Specification vocabulary and proofs for CoupledModel.v. *)
From Verif Require Import Base BaseProofs Mat MatProofs FillModel FillProofs AverageProofs FillProps EvalModel EvalProofs EvalProps UflModel UflProofs BlockFormModel.
From Verif Require Import RestrictModel ReducedModel ReducedProofs CoupledModel KindsProofs.
From Coq Require Import Cantor.
Local Open Scope nat_scope.
Local Close Scope Q_scope.
Local Close Scope Qc_scope.

(** ** Specification vocabulary *)

(** What is true of the meshes and spaces, which the code does not know: the facets that
    cells of a trace mesh are, the cells that contain a point, and the basis functions of
    a space. *)
Record reality := Reality {
  r_image : nat -> nat -> nat -> nat -> nat;
  r_contains : nat -> nat -> vec -> Prop;
  r_phi : nat -> nat -> vec -> nat -> Qc
}.

Section Spec.
Variable w : world.
Variable g : geometry.
Variable R : reality.
Variable sp : attr -> nat -> nat -> nat -> nat.

(** [y] are the coefficients in [TV] of the reduction of the function with
    coefficients [x] in [V] (see KindsProofs.v): for averages each node has the average over the
    shape around it (without a shape the value at the node), for flux averages that of
    the normal component (points outside of the mesh count as zero).  Injections are
    the transfer of dolfin. *)
Definition reduces_to (a : attr) (V TV mesh d : nat) : vec -> vec -> Prop :=
  match a with
  | ATrace => let s := g_trace g V TV mesh d in trace_of (r_image R mesh) s (tr_restriction s)
  | ARestriction => on_cells (g_restriction g V TV mesh d)
  | AAverage =>
    if g_shape g d then
      fun x y => forall n dofs r p k, In (n, dofs) (g_lines g TV) -> In (r, p) dofs -> k < g_size g TV ->
        vnth y (r + k) = full_average (g_collision g V) (g_basis g V) (g_dofs g V) (g_quadrature g d) (g_size g TV) x k p n
    else line_of (g_size g TV) (r_phi R V) (g_line_cells g TV)
  | AOther 1 => fun x y => forall n dofs r p, In (n, dofs) (g_lines g TV) -> In (r, p) dofs ->
      vnth y r = shape_flux (g_collision g V) (g_limit g V) (g_basis g V) (g_dofs g V) (g_components g V) (g_normals g d) x p n
  | AOther 2 => patch_of (g_patch g V TV d)
  | AOther 3 => mean_of (g_mean g V d)
  | AOther 4 => point_of (g_point g V TV d)
  | AOther 5 => gradient_of (g_point g V TV d)
  | AOther 6 => surface_of (r_image R mesh) (g_surface g V TV d)
  | AOther 7 => fun x y => y = mv (j_transfer (g_injection g V TV d)) x
  | AOther _ => fun _ _ => False
  end.
Definition reduces (a : attr) (V TV mesh d : nat) (x y : vec) : Prop := length y = w_dim w TV /\ reduces_to a V TV mesh d x y.

(** The functions an integrand is evaluated with. *)
Inductive sees (mesh : nat) (st : store) (v u : vec) : expr -> vtree -> Prop :=
| sees_plain t : (forall a, In a all_attrs -> getattr t a = None) -> sees mesh st v u (Leaf t) (plain_value st v u t)
| sees_reduced t a d V x y : In a all_attrs -> getattr t a = Some d -> plain_value st v u t = VFun V x ->
    let V' := acts_on w a V d in
    reduces a V' (sp a V' mesh d) mesh d x y -> sees mesh st v u (Leaf t) (VFun (sp a V' mesh d) y)
| sees_node ty l l' : Forall2 (sees mesh st v u) l l' -> sees mesh st v u (Node ty l) (VNode ty l').

(** The value of a form: integrals of what its integrands see. *)
Inductive form_sees (integrate : nat -> vtree -> Qc) (st : store) (v u : vec) : form -> Qc -> Prop :=
| fs_nil : form_sees integrate st v u [] q0
| fs_cons i f t q : sees (w_imesh w (fst i)) st v u (snd i) t -> form_sees integrate st v u f q ->
    form_sees integrate st v u (i :: f) (integrate (fst i) t + q)%Qc.

(** What dolfin and the meshes have to provide: dof maps without repetitions;
    where cells of the target share a dof, it has the same value seen from
    each of them (no dofs are shared in discontinuous spaces); averages are
    over shapes inside the mesh, and the nodes of the line have the dofs of
    the space; for the others see KindsProofs.v.  There is no case in which a
    transposed trace returns (AOther 0). *)
Definition geometry_ok (a : attr) (V TV mesh d : nat) : Prop :=
  let m := w_dim w TV in
  let n := w_dim w V in
  match a with
  | ATrace => let s := g_trace g V TV mesh d in tr_compatible s = true /\ trace_fine (r_image R mesh) s (tr_restriction s) m n
  | ARestriction => Forall (dofmap_ok m n) (g_restriction g V TV mesh d) /\ cells_agree (g_restriction g V TV mesh d)
  | AAverage =>
    if g_shape g d then
      space_ok (g_limit g V) (g_basis g V) (g_dofs g V) (g_size g TV) n /\ quadrature_ok (g_quadrature g d) /\
      NoDup (flat_map (fun lc => flat_map (fun rx : nat * vec => map (fun s => fst rx + s) (seq 0 (g_size g TV))) (snd lc)) (g_lines g TV)) /\
      (forall nv dofs r p, In (nv, dofs) (g_lines g TV) -> In (r, p) dofs ->
         r + g_size g TV <= m /\ all_inside (g_collision g V) (g_limit g V) (g_quadrature g d) p nv) /\
      (forall i, i < m -> exists nv dofs r p k, In (nv, dofs) (g_lines g TV) /\ In (r, p) dofs /\ k < g_size g TV /\ i = r + k)
    else line_fine (g_parents g V TV) (g_edge_cells g V) (g_line_collision g V TV) (g_limit g V) (g_basis g V) (g_dofs g V) (g_size g TV) (r_contains R V) (r_phi R V) (g_line_cells g TV) m
  | AOther 1 =>
      space_ok (g_limit g V) (g_basis g V) (g_dofs g V) (g_components g V) n /\ normals_ok (g_normals g d) /\
      NoDup (flat_map (fun lc => map fst (snd lc)) (g_lines g TV)) /\
      (forall nv dofs r p, In (nv, dofs) (g_lines g TV) -> In (r, p) dofs -> r < m) /\
      (forall i, i < m -> exists nv dofs p, In (nv, dofs) (g_lines g TV) /\ In (i, p) dofs)
  | AOther 2 => patch_fine (g_patch g V TV d) m n
  | AOther 3 => m = 1 /\ MeanModel.s_dim (e_space (g_mean g V d)) = n
  | AOther 4 => let s := g_point g V TV d in point_fine (o_basis s) s m n
  | AOther 5 => let s := g_point g V TV d in point_fine (o_derivatives s) s m n
  | AOther 6 => surface_fine (r_image R mesh) (g_surface g V TV d) m n
  | AOther 7 => let s := g_injection g V TV d in j_method s = Interpolate /\ nr (j_transfer s) = m /\ nc (j_transfer s) = n
  | AOther _ => False
  end.

(** Every reduction in the integrand is fine, stored functions have as many
    coefficients as their space has dofs. *)
Definition coupled_ok (mesh : nat) (st : store) (e : expr) : Prop :=
  (forall t a d V, occurs t e -> In a all_attrs -> getattr t a = Some d -> of_space t V ->
     let V' := acts_on w a V d in geometry_ok a V' (sp a V' mesh d) mesh d) /\
  (forall t id V k, occurs t e -> tkind t = KOther id -> coefficient id V k -> length (nth k st []) = w_dim w V).
End Spec.

(** ** Proofs *)

Section Coupled.
Variable w : world.
Variable g : geometry.
Variable R : reality.
Variable sp : attr -> nat -> nat -> nat -> nat.
Notation mt := (reduction_matrix w g).
Notation mods := (modules w sp mt).

Lemma size_one_rows TV : g_size g TV = 1 ->
  flat_map (fun lc : vec * list (nat * vec) => flat_map (fun rx : nat * vec => map (fun s => fst rx + s) (seq 0 (g_size g TV))) (snd lc)) (g_lines g TV) =
  flat_map (fun lc => map fst (snd lc)) (g_lines g TV).
Proof.
  intros ->. apply flat_map_ext. intros [n l]. cbn [snd]. induction l as [|[r p] l IH]; [reflexivity|]. cbn in *. rewrite IH, Nat.add_0_r. reflexivity.
Qed.

(** The matrix of a reduction gives the reduction, which is unique. *)
Lemma reduction_gives a V TV mesh d : In a all_attrs -> geometry_ok w g R a V TV mesh d ->
  gives (mt a V TV mesh d) (w_dim w TV) (w_dim w V) (reduces_to g R a V TV mesh d).
Proof.
  intros Ia G. destruct a as [| | |nm]; cbn [reduces_to geometry_ok reduction_matrix] in *.
  - destruct G as [C F]. apply trace_matrix_gives; assumption.
  - destruct G as (F & AG). apply cells_gives; assumption.
  - destruct (g_shape g d); [|eapply line_gives; eassumption]. destruct G as (SO & QO & ND & IN & CV).
    set (A := if g_size g TV =? 1 then _ else _).
    assert (NA : nr A = w_dim w TV /\ nc A = w_dim w V) by (unfold A; destruct (g_size g TV =? 1); split; reflexivity).
    apply gives_intro with (T := A); try apply NA; [reflexivity| |].
    + intros x Hx n dofs r p k H1 H2 Hk. destruct (IN n dofs r p H1 H2) as [Hr AI]. unfold A. rewrite <- Hx.
      destruct (Nat.eqb_spec (g_size g TV) 1) as [E|E].
      * rewrite (size_one_rows TV E) in ND. rewrite E in *. replace k with 0 by lia. rewrite Nat.add_0_r. apply C33_scalar_average with (dofs := dofs); try assumption; [rewrite Hx; assumption|lia].
      * apply C33_vector_average with (dofs := dofs); try assumption; [rewrite Hx; assumption|lia].
    + intros x y z _ Ly Lz Py Pz. apply vec_ext; [congruence|]. intros i Hi. rewrite Ly in Hi.
      destruct (CV i Hi) as (n & dofs & r & p & k & H1 & H2 & H3 & ->). rewrite (Py n dofs r p k), (Pz n dofs r p k) by assumption. reflexivity.
  - destruct nm as [|[|[|[|[|[|[|[|nm] ] ] ] ] ] ] ]; cbn [reduces_to geometry_ok reduction_matrix] in *.
    + contradiction.
    + destruct G as (SO & NO & ND & IN & CV). apply gives_intro with (1 := eq_refl); try reflexivity.
      * intros x Hx n dofs r p H1 H2. rewrite <- Hx. apply C58_flux with (dofs := dofs); try assumption; [rewrite Hx; assumption|]. eapply IN; eassumption.
      * intros x y z _ Ly Lz Py Pz. apply vec_ext; [congruence|]. intros i Hi. rewrite Ly in Hi.
        destruct (CV i Hi) as (n & dofs & p & H1 & H2). rewrite (Py n dofs i p), (Pz n dofs i p) by assumption. reflexivity.
    + apply patch_gives. assumption.
    + destruct G as [-> G]. apply mean_gives. assumption.
    + apply point_gives. assumption.
    + apply gradient_gives. assumption.
    + apply surface_gives. assumption.
    + destruct G as (M & Hm & Hn). unfold injection_matrix. rewrite M. apply gives_intro with (1 := eq_refl); try assumption; [reflexivity|]. intros x y z _ _ _ -> ->. reflexivity.
    + contradiction.
Qed.
Lemma reduces_iff a V TV mesh d T (x y : vec) : In a all_attrs -> geometry_ok w g R a V TV mesh d -> length x = w_dim w V -> mt a V TV mesh d = Ok T ->
  (reduces w g R a V TV mesh d x y <-> y = mv T x).
Proof.
  intros Ia G Hx E. destruct (reduction_gives a V TV mesh d Ia G) as (T' & E' & _ & _ & H). rewrite E in E'. injection E' as <-. apply H. assumption.
Qed.
Lemma coupled_fit mesh st e : coupled_ok w g R sp mesh st e -> matrices_fit w sp mt mesh e.
Proof.
  intros [C _] t a d V Ht Ia D SV V'. destruct (reduction_gives a V' (sp a V' mesh d) mesh d Ia (C t a d V Ht Ia D SV)) as (T & E & H1 & H2 & _). exists T. auto.
Qed.

(** What the evaluation of ReducedProofs.v does with a terminal that has one reduction. *)
Lemma value_reduced mesh st v u t a d V x T : In a all_attrs -> getattr t a = Some d -> (forall b, In b all_attrs -> b <> a -> getattr t b = None) ->
  plain_value st v u t = VFun V x -> of_space t V ->
  let V' := acts_on w a V d in mt a V' (sp a V' mesh d) mesh d = Ok T -> value mods mesh st v u t = VFun (sp a V' mesh d) (mv T x).
Proof.
  intros Ia D O P SV V' ET. unfold value. destruct (find (fun A => hasattr t (asm_attr A)) mods) as [A|] eqn:E.
  - apply find_some in E. destruct E as [HA HB]. assert (IA : In (asm_attr A) all_attrs) by (rewrite <- (modules_attrs w sp mt); apply in_map; assumption).
    assert (EA : asm_attr A = a).
    { destruct (attr_eq_dec (asm_attr A) a) as [e|n]; [assumption|]. unfold hasattr in HB. rewrite (O _ IA n) in HB. discriminate. }
    rewrite EA, D, P.
    assert (SP : asm_domain A t d = Ok V' /\ asm_space A = sp a /\ asm_matrix A = mt a).
    { rewrite <- EA. cbn in HA. repeat match goal with H : _ \/ _ |- _ => destruct H as [<-|H] end; [..|contradiction];
      unfold V'; rewrite <- EA; (split; [|split; reflexivity]); cbn [asm_attr asm_domain trace_module transpose_trace_module average_module flux_average_module patch_average_module attr_module surface_mean_module restriction_module injection_module acts_on];
      try reflexivity; apply space_of_ok; assumption. }
    destruct SP as (-> & -> & ->). rewrite ET. reflexivity.
  - exfalso. rewrite <- (modules_attrs w sp mt) in Ia. apply in_map_iff in Ia. destruct Ia as (A & EA & HA).
    pose proof (find_none _ _ E A HA) as N. cbn in N. unfold hasattr in N. rewrite EA, D in N. discriminate.
Qed.
Lemma value_plain mesh st v u t : (forall a, In a all_attrs -> getattr t a = None) -> value mods mesh st v u t = plain_value st v u t.
Proof.
  intros O. unfold value. destruct (find (fun A => hasattr t (asm_attr A)) mods) as [A|] eqn:E; [|reflexivity].
  apply find_some in E. destruct E as [HA HB]. unfold hasattr in HB. rewrite O in HB; [discriminate|]. rewrite <- (modules_attrs w sp mt). apply in_map. assumption.
Qed.

(** The coefficients of test function, trial function and stored functions. *)
Definition sized (st : store) (v u : vec) (t : term) : Prop :=
  forall V x a d, plain_value st v u t = VFun V x -> In a all_attrs -> getattr t a = Some d -> length x = w_dim w (acts_on w a V d).

Lemma plain_space st v u t V x : plain_value st v u t = VFun V x -> of_space t V.
Proof.
  unfold plain_value, of_space. destruct (tkind t) as [n W|id] eqn:K.
  - intros E. left. exists n. destruct n; injection E as <- _; reflexivity.
  - destruct (Cantor.of_nat id) as [ [|W] k] eqn:C; [discriminate|]. intros E. injection E as <- _. right. exists id, k. split; [reflexivity|]. apply coefficient_of. assumption.
Qed.

Lemma sees_iff mesh st v u e : (forall t, occurs t e -> placed w mesh t) -> coupled_ok w g R sp mesh st e -> (forall t, occurs t e -> sized st v u t) ->
  forall t, sees w g R sp mesh st v u e t <-> t = evaluate mods mesh st v u e.
Proof.
  intros PL CK SZ. destruct CK as [CK _]. revert PL CK SZ.
  induction e as [t|ty l IH] using expr_ind2; intros PL CK SZ r.
  - cbn [evaluate]. assert (Ht : occurs t (Leaf t)) by constructor. split.
    + intros H. inversion H as [t0 NO|t0 a d V x y Ia D P V1 RD|]; subst.
      * symmetry. apply value_plain. assumption.
      * destruct (PL t Ht) as [ [NO _]|(a' & d' & V' & Ia' & D' & O & _)]; [rewrite NO in D by assumption; discriminate|].
        assert (a = a') as <- by (destruct (attr_eq_dec a a') as [e|n]; [assumption|rewrite (O a Ia n) in D; discriminate]).
        assert (SV : of_space t V) by (eapply plain_space; eassumption). pose proof (CK t a d V Ht Ia D SV) as G.
        destruct (reduction_gives _ _ _ _ _ Ia G) as (T & ET & _).
        rewrite (value_reduced mesh st v u t a d V x T) by assumption. f_equal.
        apply (reduces_iff _ _ _ _ _ _ _ _ Ia G (SZ t Ht V x a d P Ia D) ET). assumption.
    + intros ->. destruct (PL t Ht) as [ [NO _]|(a & d & V & Ia & D & O & SV & _)].
      * rewrite value_plain by assumption. constructor. assumption.
      * assert (P : exists x, plain_value st v u t = VFun V x).
        { destruct SV as [(n & K)|(id & k & K & C)]; unfold plain_value; rewrite K; [destruct n; eauto|]. apply coefficient_of in C. rewrite C. eauto. }
        destruct P as [x P]. pose proof (CK t a d V Ht Ia D SV) as G. destruct (reduction_gives _ _ _ _ _ Ia G) as (T & ET & _).
        rewrite (value_reduced mesh st v u t a d V x T) by assumption. econstructor; try eassumption.
        apply (reduces_iff _ _ _ _ _ _ _ _ Ia G (SZ t Ht V x a d P Ia D) ET). reflexivity.
  - cbn [evaluate]. rewrite Forall_forall in IH.
    assert (IH' : forall x, In x l -> forall t, sees w g R sp mesh st v u x t <-> t = evaluate mods mesh st v u x).
    { intros x Hx. apply IH; [assumption| | |].
      - intros t Ht. apply PL. eapply occurs_node; eassumption.
      - intros t a d V Ht. apply CK. eapply occurs_node; eassumption.
      - intros t Ht. apply SZ. eapply occurs_node; eassumption. }
    clear IH PL CK SZ. split.
    + intros H. inversion H as [| |ty' l1 l2 F]; subst. f_equal. clear H. induction F as [|x y l l2 Hxy F IHF]; [reflexivity|]. cbn [map]. f_equal.
      * apply IH'; [left; reflexivity|assumption].
      * apply IHF. intros z Hz. apply IH'. right. assumption.
    + intros ->. constructor. induction l as [|x l IHl]; cbn [map]; constructor.
      * apply IH'; [left; reflexivity|reflexivity].
      * apply IHl. intros z Hz. apply IH'. right. assumption.
Qed.

(** Values of forms. *)
Lemma form_sees_iff integrate st v u f :
  (forall i, In i f -> (forall t, occurs t (snd i) -> placed w (w_imesh w (fst i)) t) /\ coupled_ok w g R sp (w_imesh w (fst i)) st (snd i) /\ (forall t, occurs t (snd i) -> sized st v u t)) ->
  forall q, form_sees w g R sp integrate st v u f q <-> q = form_value w mods integrate st f v u.
Proof.
  unfold form_value. induction f as [|i f IH]; intros H q.
  - cbn. split; [intros E; inversion E; reflexivity|intros ->; constructor].
  - cbn [map ReducedProofs.qsum]. destruct (H i (or_introl eq_refl)) as (P & C & S).
    assert (IH' := IH (fun j Hj => H j (or_intror Hj))). split.
    + intros E. inversion E as [|i' f' t q' E1 E2]; subst. apply sees_iff in E1; try assumption. subst t. apply IH' in E2. subst q'. reflexivity.
    + intros ->. constructor; [apply sees_iff; auto|apply IH'; reflexivity].
Qed.

(** Lengths, from the spaces of test and trial function. *)
Lemma sized_of valid st mesh oV oU e v u : integrand_fine w valid st mesh oV oU e -> coupled_ok w g R sp mesh st e -> fits w oV v -> fits w oU u ->
  forall t, occurs t e -> sized st v u t.
Proof.
  intros (PL & _ & _ & _ & A0 & A1 & N2 & _) [_ ST] FV FU t Ht V x a d P Ia D.
  assert (O : (forall b, In b all_attrs -> b <> a -> getattr t b = None) /\ (a = AOther 1 -> exists n W, tkind t = KArg n W)).
  { destruct (PL t Ht) as [ [NO _]|(a' & d' & V' & Ia' & D' & O & _ & _ & KA)]; [rewrite NO in D by assumption; discriminate|].
    assert (a = a') as <- by (destruct (attr_eq_dec a a') as [e'|n]; [assumption|rewrite (O a Ia n) in D; discriminate]). split; assumption. }
  destruct O as [O KA].
  assert (AR : forall n W oW y, tkind t = KArg n W -> function_of w n oW e -> fits w oW y -> length y = w_dim w (acts_on w a W d)).
  { intros n W [W0|] y K F FW; cbn in F, FW; [|exfalso; eapply F; eassumption]. destruct F as [_ F]. specialize (F t W Ht K). rewrite FW. f_equal.
    unfold stands_in in F. destruct (attr_eq_dec a (AOther 1)) as [->|NA]; [rewrite D in F; exact F|].
    rewrite acts_own by assumption. rewrite O in F; [destruct F as [(m & F)|(id & k & F & _)]; [rewrite K in F; injection F; auto|rewrite K in F; discriminate F]| |congruence]. unfold all_attrs. cbn. tauto. }
  unfold plain_value in P. destruct (tkind t) as [n W|id] eqn:K.
  - assert (n < 2) by (eapply N2; eassumption). destruct n as [|[|n] ]; [| |lia]; injection P as <- <-; eapply AR; try reflexivity; eassumption.
  - destruct (Cantor.of_nat id) as [ [|W] k] eqn:C; [discriminate|]. injection P as <- <-.
    rewrite acts_own; [eapply ST; [eassumption|eassumption|]; apply coefficient_of; assumption|]. intros E. destruct (KA E) as (n & W' & K'). discriminate K'.
Qed.

Lemma fine_sees valid integrate st oV oU f v u : form_fine w valid st oV oU f -> (forall i, In i f -> coupled_ok w g R sp (w_imesh w (fst i)) st (snd i)) ->
  fits w oV v -> fits w oU u -> forall q, form_sees w g R sp integrate st v u f q <-> q = form_value w mods integrate st f v u.
Proof.
  intros (_ & _ & F) C FV FU. apply form_sees_iff. intros i Hi. destruct (F i Hi) as [_ FI]. split; [apply FI|]. split; [apply C; assumption|].
  eapply sized_of; eauto.
Qed.
End Coupled.

(** ** What does not depend on the reduction matrices *)

Lemma untouched_any w sp mt sp' mt' mesh t : untouched (modules w sp mt) mesh t -> untouched (modules w sp' mt') mesh t.
Proof.
  intros U A HA. cbn in HA. repeat match goal with H : _ = A \/ _ |- _ => destruct H as [<-|H] end; try contradiction;
  [ pose proof (U (trace_module w sp mt)) as P | pose proof (U (transpose_trace_module w sp mt)) as P | pose proof (U (average_module w sp mt)) as P
  | pose proof (U (flux_average_module w sp mt)) as P | pose proof (U (patch_average_module w sp mt)) as P | pose proof (U (attr_module sp mt (AOther 3))) as P
  | pose proof (U (attr_module sp mt (AOther 4))) as P | pose proof (U (attr_module sp mt (AOther 5))) as P | pose proof (U (surface_mean_module w sp mt)) as P
  | pose proof (U (restriction_module w sp mt)) as P | pose proof (U (injection_module w sp mt)) as P ];
  apply P; unfold modules; cbn [In]; tauto.
Qed.

(** df.assemble is right on forms without reductions, whatever the matrices of reductions are. *)
Lemma plain_any w sp mt sp' mt' integrate valid dfa :
  assembles_plain w (modules w sp mt) integrate valid dfa -> assembles_plain w (modules w sp' mt') integrate valid dfa.
Proof.
  intros H st f oV oU SU (NE & UF & F) UN.
  assert (UN' : forall i t, In i f -> occurs t (snd i) -> untouched (modules w sp mt) (w_imesh w (fst i)) t) by (intros; eapply untouched_any; eauto).
  destruct (H st f oV oU SU) as (r & E & R); [|assumption|].
  - split; [assumption|]. split; [assumption|]. intros i Hi. destruct (F i Hi) as (T & SA & MX & VA & A0 & A1 & REST).
    assert (AA : forall n oW, argument (modules w sp' mt') n oW (snd i) -> argument (modules w sp mt) n oW (snd i)).
    { intros n [W|]; cbn [argument]; [|tauto]. intros [HS HO]. split; [assumption|]. intros t U Ht K. specialize (HO t U Ht K).
      unfold home in *. rewrite (find_untouched _ (w_imesh w (fst i))) in HO by eauto. rewrite (find_untouched _ (w_imesh w (fst i))) by eauto. exact HO. }
    split; [|split; [assumption|split; [|split; [assumption|split; [apply AA, A0|split; [apply AA, A1|assumption] ] ] ] ] ].
    + intros t Ht. left. apply UN'; assumption.
    + intros t s A B Ht Hs (HA & HT & _) _ _. exfalso. destruct (UN' i t Hi Ht A HA) as [C _]. congruence.
  - exists r. split; [assumption|].
    assert (EQ : forall v u, form_value w (modules w sp mt) integrate st f v u = form_value w (modules w sp' mt') integrate st f v u).
    { intros v u. unfold form_value. f_equal. apply map_ext_in. intros i Hi. f_equal.
      specialize (UN i). specialize (UN' i). generalize (fun t => UN t Hi). generalize (fun t => UN' t Hi). clear. generalize (snd i) as e.
      induction e as [t|ty l IH] using expr_ind2; intros U U'; cbn [evaluate].
      - unfold value. rewrite !(find_untouched _ (w_imesh w (fst i))); [reflexivity|apply U'; constructor|apply U; constructor].
      - f_equal. apply map_ext_in. intros x Hx. rewrite Forall_forall in IH. apply IH; [assumption| |]; intros t Ht; [apply U|apply U']; eapply occurs_node; eassumption. }
    destruct oV as [V|], oU as [U|], r as [e|b|q]; cbn in R |- *; try contradiction.
    + destruct R as (M & R1 & R2 & R3 & R4). exists M. repeat split; try assumption; try apply R1. intros. rewrite <- EQ. apply R4; assumption.
    + destruct R as (R1 & R2). split; [assumption|]. intros. rewrite <- (EQ _ u). apply R2; assumption.
    + intros v u. rewrite <- EQ. apply R.
Qed.
