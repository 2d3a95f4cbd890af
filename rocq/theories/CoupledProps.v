(** C95: forms of reduced functions see the values of the reductions. *)
From Verif Require Import Base BaseProofs Mat MatProofs ListUtilsModel ConvertModel BcModel BcProofs BcReturnsProofs FillModel FillProofs AverageProofs EvalModel EvalProofs.
From Verif Require Import EntityModel EntityProofs RestrictModel RestrictProofs Trace31Model Trace31Proofs PatchModel MeanModel InjectModel InjectProps.
From Verif Require Import UflModel UflProofs BlockFormModel BlockFormProofs BlockFormAddProofs ReducedModel ReducedProofs ReducedProps SystemModel SystemProofs SystemProps CoupledModel KindsProofs CoupledProofs.
From Coq Require Import Cantor.
Local Open Scope nat_scope.
Local Close Scope Q_scope.
Local Close Scope Qc_scope.

(** C95: the assembled operator has as values the integrals of what the
    integrands see, for all test and trial vectors. *)
Theorem C95_bilinear w g R valid integrate sp ord dfa fuel st f V U :
  let mods := modules w sp (reduction_matrix w g) in
  an_order ord -> role_closed valid -> reductions_ok w sp ->
  assembles_plain w mods integrate valid dfa ->
  form_fine w valid st (Some V) (Some U) f ->
  (forall i, In i f -> coupled_ok w g R sp (w_imesh w (fst i)) st (snd i)) ->
  (forall i, In i f -> reductions mods (snd i) + 1 < fuel) ->
  exists e N M, xii_assemble w mods ord dfa fuel st f = Ok (TOp e) /\
    (forall n, N <= n -> collapse n e = Ok (EMat M)) /\
    nr M = w_dim w V /\ nc M = w_dim w U /\
    forall v u, length v = w_dim w V -> length u = w_dim w U ->
      forall q, form_sees w g R sp integrate st v u f q <-> q = vdot v (mv M u).
Proof.
  intros mods ORD VAL SOK DFA F C B.
  destruct (C26_reduced_bilinear_partial w valid integrate sp (reduction_matrix w g) ord dfa fuel st f V U ORD VAL SOK DFA F (fun i Hi => coupled_fit w g R sp _ _ _ (C i Hi)) B)
    as (e & N & M & E & CO & D1 & D2 & H).
  exists e, N, M. repeat (split; [assumption|]). intros v u Hv Hu q. rewrite (H v u Hv Hu).
  apply (fine_sees w g R sp valid integrate st (Some V) (Some U) f v u F C Hv Hu).
Qed.

Theorem C95_linear w g R valid integrate sp ord dfa fuel st f V :
  let mods := modules w sp (reduction_matrix w g) in
  an_order ord -> role_closed valid -> reductions_ok w sp ->
  assembles_plain w mods integrate valid dfa ->
  form_fine w valid st (Some V) None f ->
  (forall i, In i f -> coupled_ok w g R sp (w_imesh w (fst i)) st (snd i)) ->
  (forall i, In i f -> reductions mods (snd i) + 1 < fuel) ->
  exists b, xii_assemble w mods ord dfa fuel st f = Ok (TVec b) /\ length b = w_dim w V /\
    forall v u, length v = w_dim w V -> forall q, form_sees w g R sp integrate st v u f q <-> q = vdot v b.
Proof.
  intros mods ORD VAL SOK DFA F C B.
  destruct (C27_reduced_linear_partial w valid integrate sp (reduction_matrix w g) ord dfa fuel st f V ORD VAL SOK DFA F (fun i Hi => coupled_fit w g R sp _ _ _ (C i Hi)) B)
    as (b & E & D & H).
  exists b. repeat (split; [assumption|]). intros v u Hv q. rewrite (H v u Hv).
  apply (fine_sees w g R sp valid integrate st (Some V) None f v u F C Hv Logic.I).
Qed.

Theorem C95_functional w g R valid integrate sp ord dfa fuel st f :
  let mods := modules w sp (reduction_matrix w g) in
  an_order ord -> role_closed valid -> reductions_ok w sp ->
  assembles_plain w mods integrate valid dfa ->
  form_fine w valid st None None f ->
  (forall i, In i f -> coupled_ok w g R sp (w_imesh w (fst i)) st (snd i)) ->
  (forall i, In i f -> reductions mods (snd i) + 1 < fuel) ->
  exists r, xii_assemble w mods ord dfa fuel st f = Ok (TNum r) /\
    forall v u q, form_sees w g R sp integrate st v u f q <-> q = r.
Proof.
  intros mods ORD VAL SOK DFA F C B.
  destruct (C27_reduced_functional_partial w valid integrate sp (reduction_matrix w g) ord dfa fuel st f ORD VAL SOK DFA F (fun i Hi => coupled_fit w g R sp _ _ _ (C i Hi)) B)
    as (r & E & H).
  exists r. split; [assumption|]. intros v u q. rewrite (H v u).
  apply (fine_sees w g R sp valid integrate st None None f v u F C Logic.I Logic.I).
Qed.

(** C95 for whole systems: the solutions of the linear system are the vectors
    with the prescribed values that satisfy the coupled problem. *)
Theorem C95_system w g R valid integrate sp ord dfa st fa W rows bs c d bcs diag sym :
  let mods := modules w sp (reduction_matrix w g) in
  let n := length W in
  let sizes := map (w_dim w) W in
  let pairs := prescribed false sizes bcs in
  an_order ord -> role_closed valid -> reductions_ok w sp ->
  assembles_plain w mods integrate valid dfa ->
  W <> [] -> (forall V, In V W -> 0 < w_dim w V) ->
  blocks2 n rows c -> blocks1 n bs d ->
  (forall i j V U, nth_error W i = Some V -> nth_error W j = Some U -> c i j <> [] ->
     form_fine w valid st (Some V) (Some U) (c i j)) ->
  (forall i V, nth_error W i = Some V -> form_fine w valid st (Some V) None (d i)) ->
  (forall i j x, i < n -> j < n -> In x (c i j) \/ In x (d i) -> coupled_ok w g R sp (w_imesh w (fst x)) st (snd x)) ->
  (forall i, i < n -> exists j, j < n /\ c i j <> []) ->
  (forall j, j < n -> exists i, i < n /\ c i j <> []) ->
  (forall i j x, i < n -> j < n -> In x (c i j) -> reductions mods (snd x) + 1 < fa) ->
  (forall i x, i < n -> In x (d i) -> reductions mods (snd x) + 1 < fa) ->
  ok_arg false n bcs -> pairs <> [] -> (forall k, constrained pairs k -> k < list_sum sizes) -> diag <> q0 ->
  exists N, forall fc, N <= fc -> exists M r,
    linear_system (xii_assemble w mods ord dfa fa st) fa fc rows bs bcs diag sym = Ok (M, r) /\
    nr M = list_sum sizes /\ nc M = list_sum sizes /\ length r = list_sum sizes /\
    forall us, map (@length Qc) us = sizes ->
      (mv M (concat us) = r <->
       (forall k v, assigned pairs k v -> vnth (concat us) k = v) /\
       (forall vs a b, map (@length Qc) vs = sizes -> (forall k, constrained pairs k -> vnth (concat vs) k = q0) ->
          (forall i j, i < n -> j < n -> form_sees w g R sp integrate st (nth i vs []) (nth j us []) (c i j) (a i j)) ->
          (forall i, i < n -> form_sees w g R sp integrate st (nth i vs []) [] (d i) (b i)) ->
          sumn n (fun i => sumn n (fun j => a i j)) = sumn n b)).
Proof.
  intros mods n sizes pairs ORD VAL SOK DFA NE POS S2 S1 FC FD CK RO CO F2 F1 OK NP RG DG.
  destruct (C94_linear_system w valid integrate sp (reduction_matrix w g) ord dfa st fa W rows bs c d bcs diag sym ORD VAL SOK DFA NE POS S2 S1 FC FD (fun i j x Hi Hj Hx => coupled_fit w g R sp _ _ _ (CK i j x Hi Hj Hx)) RO CO F2 F1 OK NP RG DG) as (N & H).
  exists N. intros fc Hfc. destruct (H fc Hfc) as (M & r & E & D1 & D2 & D3 & SOL). exists M, r. repeat (split; [assumption|]).
  intros us Hu. specialize (SOL us Hu). rewrite SOL. apply and_iff_compat_l.
  assert (LS : forall xs i V, map (@length Qc) xs = sizes -> nth_error W i = Some V -> length (nth i xs []) = w_dim w V).
  { intros xs i V Hx EV. rewrite (nth_length sizes xs i Hx). apply nth_error_nth. unfold sizes. rewrite nth_error_map, EV. reflexivity. }
  assert (SA : forall vs i j q, map (@length Qc) vs = sizes -> i < n -> j < n ->
    (form_sees w g R sp integrate st (nth i vs []) (nth j us []) (c i j) q <-> q = form_value w mods integrate st (c i j) (nth i vs []) (nth j us []))).
  { intros vs i j q Hv Hi Hj. destruct (nth_error W i) as [V|] eqn:EV; [|apply nth_error_None in EV; unfold n in Hi; lia].
    destruct (nth_error W j) as [U|] eqn:EU; [|apply nth_error_None in EU; unfold n in Hj; lia].
    destruct (c i j) as [|x l] eqn:EC; [cbn; split; [intros Z; inversion Z; reflexivity|intros ->; constructor]|].
    rewrite <- EC. apply (fine_sees w g R sp valid integrate st (Some V) (Some U)).
    - apply FC; [assumption|assumption|]. rewrite EC. discriminate.
    - intros y Hy. apply (CK i j); auto.
    - apply LS; assumption.
    - apply LS; assumption. }
  assert (SB : forall vs i q, map (@length Qc) vs = sizes -> i < n ->
    (form_sees w g R sp integrate st (nth i vs []) [] (d i) q <-> q = form_value w mods integrate st (d i) (nth i vs []) [])).
  { intros vs i q Hv Hi. destruct (nth_error W i) as [V|] eqn:EV; [|apply nth_error_None in EV; unfold n in Hi; lia].
    apply (fine_sees w g R sp valid integrate st (Some V) None).
    - apply FD. assumption.
    - intros y Hy. apply (CK i i); auto.
    - apply LS; assumption.
    - exact Logic.I. }
  split.
  - intros HV vs a b Hv Zv Ha Hb. transitivity (sumn n (fun i => sumn n (fun j => form_value w mods integrate st (c i j) (nth i vs []) (nth j us [])))).
    + apply sumn_ext. intros i Hi. apply sumn_ext. intros j Hj. apply SA; auto.
    + etransitivity; [apply (HV vs Hv Zv)|]. apply sumn_ext. intros i Hi. symmetry. apply SB; auto.
  - intros HV vs Hv Zv. apply (HV vs (fun i j => form_value w mods integrate st (c i j) (nth i vs []) (nth j us [])) (fun i => form_value w mods integrate st (d i) (nth i vs []) [])); [assumption|assumption| |].
    + intros i j Hi Hj. apply SA; auto.
    + intros i Hi. apply SB; auto.
Qed.

(** ** An instance: v in space 2 (triangles, 3 dofs), u in space 3 (tetrahedra, 4
    dofs) of the world of C26.  There are two trace cells; the first is between two
    cells, the second is at one of them. *)
Definition half : Qc := Q2Qc (1 # 2).
Definition ex_image (_ _ _ c : nat) : nat := c.
Definition ex_search (fdim : nat) (_ : nat) (f : mesh_function) (_ : list nat) : res entity_map :=
  Ok [(0, []); (fdim, map (fun c => (c, c)) (seq 0 (length (mf_values f))))].
Definition ex_trace (r : restriction) (fdim : nat) : trace_source := {|
  tr_gdim := 2;
  tr_cell_mid := fun c => if c =? 0 then [q0; - q1]%Qc else [q0; q1];
  tr_trace_mid := fun _ => [q0; q0];
  tr_normal := fun t => if t =? 0 then [q0; q1] else [q0; - q1]%Qc;
  tr_facet_cells := fun f => if f =? 0 then [0; 1] else [1];
  tr_T_dofs := fun t => [t];
  tr_V_dofs := fun c => if c =? 0 then [0; 1; 2] else [1; 0; 2];
  tr_dof_value := fun t k c l => if t =? 0 then if l <? 2 then half else q0 else if l =? 1 then q0 else half;
  tr_build := ex_search fdim;
  tr_nonconforming := Err RuntimeError;
  tr_hdiv := None; tr_tdofs := []; tr_fdofs := [];
  tr_mesh_id := 3; tr_fdim := fdim; tr_dg := fdim =? 1;
  tr_compatible := true; tr_has_normal := true; tr_normal_dg0 := true;
  tr_restriction := r;
  tr_mesh := TraceMesh None None; tr_f := MeshFunction fdim [4; 4; 5]; tr_tags := [4]
|}.
Definition ex_restr_cells : list fcell :=
  [FCell [0; 1; 2] [0; 1; 2] (fun l k => if l =? k then q1 else q0);
   FCell [2; 4; 5] [2; 0; 1] (fun l k => if l =? k then q1 else q0)].
Definition ex_at (x y z : Qc) : vec := [x; y; z].
Definition ex_point : point_source := {|
  o_V := FSpace DiscontinuousLagrange [] 5 1 2; o_TV := FSpace Real [] 5 1 2; o_trace_mesh := 5;
  o_collisions := fun v => [0; 1]; o_V_dofs := fun c => if c =? 0 then [1; 2] else [4; 3]; o_TV_dofs := fun _ => [0];
  o_basis := fun _ _ => [q1; half];
  o_derivatives := fun _ _ => [q1; half; - q1; q1 + q1]%Qc;
  o_first := fun _ => 0; o_limit := 2; o_x0 := AtVertex 1; o_cell := 1; o_tangent := TauConstant [q1; q1 + q1]%Qc |}.
Definition ex_geometry : geometry := {|
  g_trace := fun V _ _ _ => if V =? 2 then ex_trace Plus 1 else ex_trace NoRestriction 2;
  g_restriction := fun _ _ _ _ => ex_restr_cells;
  g_collision := fun _ _ => 0;
  g_limit := fun _ => 1;
  g_basis := fun _ _ x => [q1 - (vnth x 0 + vnth x 1 + vnth x 2); vnth x 0; vnth x 1; vnth x 2]%Qc;
  g_dofs := fun _ _ => [0; 1; 2; 3];
  g_shape := fun d => d =? 1;
  g_quadrature := fun _ p n => ([vadd p n; vadd p (vscale (-q1)%Qc n)], [q1; q1 + q1]%Qc);
  g_lines := fun _ => [(ex_at half q0 q0, [(0, ex_at half half q0)]); (ex_at q0 half q0, [(1, ex_at q0 half half)])];
  g_size := fun _ => 1;
  g_line_cells := fun _ => [(0, [(0, ex_at q0 q0 q0); (1, ex_at half q0 q0)]); (1, [(2, ex_at half q0 q0); (3, ex_at half half q0)]);
                            (2, [(4, ex_at half half q0); (5, ex_at q0 half half)])];
  g_parents := fun _ _ => Some (fun c => Some (2 * c));
  g_edge_cells := fun _ _ => [0; 1];
  g_line_collision := fun _ _ _ => 1;
  g_components := fun _ => 2;
  g_normals := fun _ p n => ([vadd p n; vadd p (vscale (-q1)%Qc n)], [q1; q1 + q1]%Qc, [n; vscale (-q1)%Qc n]);
  g_transpose := fun _ _ _ _ => ex_trace NoRestriction 2;
  g_patch := fun _ _ _ => PatchSource (Some [PCell 1 (qz 2) [(0, q1); (1, q1)]; PCell 2 (qz 1) [(1, half); (2, half)]; PCell 1 (qz 1) [(2, q1)] ]) None [1; 2; 0; 1; 2; 0] [];
  g_mean := fun _ _ => MeanSource (SSpace 3 (fun i p => qz (Z.of_nat (i + p)))) [MCell q1 [(0, half); (1, half)]; MCell q1 [(2, q1)] ] None (Some [MCell q1 [(2, q1)] ]);
  g_point := fun _ _ _ => ex_point;
  g_surface := fun _ _ _ => SurfaceSource true (ex_trace NoRestriction 2) (SSpace 2 (fun i p => qz (Z.of_nat (i + p)))) [MCell q1 [(0, half); (1, half)]; MCell (qz 2) [(2, qz 2)] ];
  g_injection := fun _ _ _ => InjectionSource Interpolate (Mat 12 3 (fun i j => if i mod 3 =? j then q1 else q0)) (Pair [] 0 0 (fun _ => []) (fun _ => []) (fun _ _ _ _ => q0))
|}.
Definition ex_reality : reality := {|
  r_image := ex_image; r_contains := fun _ _ _ => True;
  r_phi := fun _ j x _ => nth j [q1 - (vnth x 0 + vnth x 1 + vnth x 2); vnth x 0; vnth x 1; vnth x 2]%Qc q0
|}.

Ltac nodup := repeat (apply NoDup_cons; [cbn; intuition discriminate|]); apply NoDup_nil.
Lemma ex_searches fdim image : 0 < fdim -> (forall mesh dim c, image mesh dim c = c) -> searches fdim image (ex_search fdim).
Proof.
  intros F I mesh f tags em E. injection E as <-. split; [|split].
  - split; [repeat constructor; cbn; intuition lia|]. split.
    + intros dim. split; [intros (d & [H|[H|[] ] ]); injection H as <- <-; auto|]. intros [-> | ->]; [exists []|eexists]; cbn; auto.
    + intros dim d [H|[H|[] ] ]; injection H as <- <-; [constructor|]. unfold dict. rewrite map_map. cbn. rewrite map_id. apply seq_NoDup.
  - intros dim d c e [H|[H|[] ] ] Hc; injection H as <- <-; [contradiction|]. apply in_map_iff in Hc. destruct Hc as (x & Hx & _). injection Hx as <- <-. symmetry. apply I.
  - intros d c tag [H|[H|[] ] ] Hc Ht; [injection H as <- _; lia|]. injection H as <-. exists c. apply in_map_iff. exists c. split; [reflexivity|]. apply in_seq.
    assert (c < length (mf_values f)) by (apply nth_error_Some; congruence). lia.
Qed.
Lemma ex_tagged r fdim t : tagged (ex_trace r fdim) t -> t = 0 \/ t = 1.
Proof. intros (tag & [<-|[] ] & H). cbn in H. destruct t as [|[|[|t] ] ]; cbn in H; auto; [discriminate|destruct t; discriminate]. Qed.
Lemma ex_trace_fine r fdim m n mesh : r = NoRestriction \/ r = Plus -> 0 < fdim -> 2 <= m -> 3 <= n -> trace_fine (ex_image mesh) (ex_trace r fdim) r m n.
Proof.
  intros Hr F Hm Hn. split; [reflexivity|]. split; [destruct Hr; auto|]. split; [apply ex_searches; [assumption|reflexivity]|].
  split; [split; [discriminate|]; intros me dim c e (maps & em & d & H & _); discriminate H|]. split; [reflexivity|]. split; [reflexivity|]. split; [left; reflexivity|].
  split; [nodup|]. split; [intros t Ht; split; [nodup|]; intros i [<-|[] ]; apply ex_tagged in Ht; cbn in *; lia|].
  split; [intros f c _; cbn; destruct (c =? 0); (split; [nodup|]); intros j Hj; cbn in Hj; intuition lia|]. split; [|split].
  - intros t Ht. apply ex_tagged in Ht. exists t. destruct Ht as [-> | ->]; (split; [cbn; auto|]); destruct Hr as [-> | ->]; cbn [ex_trace]; try exact Logic.I; vm_compute; reflexivity.
  - intros _ t t' i _ _ [<-|[] ] [E|[] ]. congruence.
  - intros t t' k k' i c c' x Ht Ht' Hk Hk' Hc Hc'.
    assert (k = 0 /\ k' = 0 /\ t' = t) as (-> & -> & ->).
    { cbn in Hk, Hk'. destruct k as [|k]; [|destruct k; discriminate Hk]. destruct k' as [|k']; [|destruct k'; discriminate Hk']. cbn in *. repeat split; congruence. }
    destruct Hc as [Hc _], Hc' as [Hc' _]. apply ex_tagged in Ht. destruct Ht as [-> | ->]; cbn in Hc, Hc';
    repeat match goal with H : _ \/ _ |- _ => destruct H as [<-|H] end; try contradiction; try reflexivity; unfold local_value; cbn; ring.
Qed.
Lemma ex_restr_ok : Forall (dofmap_ok 7 3) ex_restr_cells.
Proof. repeat (apply Forall_cons; [repeat split; cbn; [nodup|nodup|intros i H; intuition lia|intros i H; intuition lia]|]). apply Forall_nil. Qed.
Lemma ex_restr_agree : cells_agree ex_restr_cells.
Proof.
  intros c c' i row row' Hc Hc' R R'.
  assert (D : forall b, In b ex_restr_cells -> dofmap_ok 7 3 b) by (apply Forall_forall; exact ex_restr_ok).
  assert (X : forall r r', computes_row (nth 0 ex_restr_cells (FCell [] [] (fun _ _ => q0))) i r -> computes_row (nth 1 ex_restr_cells (FCell [] [] (fun _ _ => q0))) i r' -> forall j, r j = r' j).
  { intros r r' (k & K1 & K2 & K3) (k' & L1 & L2 & L3) j. cbn in *.
    assert (k = 2 /\ k' = 0) as [-> ->].
    { destruct k as [|[|[|k] ] ]; cbn in K1; [| | |destruct k; discriminate K1]; injection K1 as <-;
      (destruct k' as [|[|[|k'] ] ]; cbn in L1; [| | |destruct k'; discriminate L1]); try discriminate L1; split; reflexivity. }
    destruct j as [|[|[|j] ] ].
    - rewrite (K2 0 0 eq_refl), (L2 1 0 eq_refl). reflexivity.
    - rewrite (K2 1 1 eq_refl), (L2 2 1 eq_refl). reflexivity.
    - rewrite (K2 2 2 eq_refl), (L2 0 2 eq_refl). reflexivity.
    - rewrite K3, L3 by lia. reflexivity. }
  destruct Hc as [<-|[<-|[] ] ], Hc' as [<-|[<-|[] ] ].
  - eapply same_cell_agree; [apply D; left; reflexivity|eassumption|eassumption].
  - apply (X row row'); assumption.
  - intros j. symmetry. apply (X row' row); assumption.
  - eapply same_cell_agree; [apply D; right; left; reflexivity|eassumption|eassumption].
Qed.

Lemma ex_average_ok : geometry_ok ex_w ex_geometry ex_reality AAverage 3 1 1 1.
Proof.
  cbn -[vadd vscale]. split; [|split; [|split; [|split] ] ].
  - intros c Hc. split; [nodup|]. split; [intros j Hj; cbn in Hj; intuition lia|reflexivity].
  - intros x n. reflexivity.
  - nodup.
  - intros n dofs r p [H|[H|[] ] ] Hr; injection H as <- <-; destruct Hr as [Hr|[] ]; injection Hr as <- <-; (split; [lia|]); intros q Hq; cbn; lia.
  - intros i Hi. destruct i as [|[|i] ]; [| |lia].
    + eexists _, _, 0, _, 0. split; [left; reflexivity|]. split; [left; reflexivity|]. split; [lia|reflexivity].
    + eexists _, _, 1, _, 0. split; [right; left; reflexivity|]. split; [left; reflexivity|]. split; [lia|reflexivity].
Qed.
Lemma ex_line_ok : geometry_ok ex_w ex_geometry ex_reality AAverage 3 5 5 5.
Proof.
  cbn [geometry_ok ex_geometry g_shape Nat.eqb]. split; [|split; [|split; [|split] ] ].
  - intros t x _. split; [nodup|]. cbn [g_dofs ex_geometry g_size g_basis]. split.
    + intros l j k Hl Hk. assert (k = 0) as -> by lia. rewrite Nat.mul_1_r, Nat.add_0_r.
      destruct l as [|[|[|[|l] ] ] ]; cbn in Hl; [injection Hl as <-; reflexivity..|destruct l; discriminate Hl].
    + intros j k Hj _. destruct j as [|[|[|[|j] ] ] ]; [elim Hj; cbn; tauto..|]. cbn. destruct j; reflexivity.
  - intros c c' r r' x x' s s' Hc Hc' Hr Hr' Hs Hs' E. cbn [g_size ex_geometry] in *. assert (r = r') as <- by lia. split; [reflexivity|].
    cbn [g_line_cells ex_geometry In] in Hc, Hc'.
    repeat match goal with H : _ = c \/ _ |- _ => destruct H as [<-|H] end; try contradiction;
    repeat match goal with H : _ = c' \/ _ |- _ => destruct H as [<-|H] end; try contradiction;
    cbn [snd In] in Hr, Hr'; repeat match goal with H : _ \/ _ |- _ => destruct H as [H|H] end; try contradiction; congruence.
  - intros c Hc. exists 0. split; [|intros; exact Logic.I]. eapply at_edge; reflexivity.
  - intros c r p Hc Hr. cbn [g_line_cells ex_geometry In] in Hc.
    repeat match goal with H : _ = c \/ _ |- _ => destruct H as [<-|H] end; try contradiction; cbn [snd In] in Hr;
    repeat match goal with H : _ \/ _ |- _ => destruct H as [H|H] end; try contradiction; injection Hr as <- <-; cbn; lia.
  - intros i Hi. cbn in Hi.
    assert (X : forall c r p, In c (g_line_cells ex_geometry 5) -> In (r, p) (snd c) -> i = r -> exists c r p k, In c (g_line_cells ex_geometry 5) /\ In (r, p) (snd c) /\ k < g_size ex_geometry 5 /\ i = r + k).
    { intros c r p H1 H2 ->. exists c, r, p, 0. repeat split; try assumption; cbn; lia. }
    destruct i as [|[|[|[|[|[|i] ] ] ] ] ];
    [ eapply X; [left; reflexivity|left; reflexivity|reflexivity] | eapply X; [left; reflexivity|right; left; reflexivity|reflexivity]
    | eapply X; [right; left; reflexivity|left; reflexivity|reflexivity] | eapply X; [right; left; reflexivity|right; left; reflexivity|reflexivity]
    | eapply X; [right; right; left; reflexivity|left; reflexivity|reflexivity] | eapply X; [right; right; left; reflexivity|right; left; reflexivity|reflexivity] | lia ].
Qed.

(** trace(v) average(u) over 1, restriction(v) trace(u) over 6, patch average(v)
    values of u along the line 5, injection(v) trace(u) over 10. *)
Definition ex_couple : form :=
  [(1, Node 0 [Leaf (Term (KArg 0 2) (Some 1) None None []); Leaf (Term (KArg 1 3) None None (Some 1) [])]);
   (6, Node 0 [Leaf (Term (KArg 0 2) None (Some 6) None []); Leaf (Term (KArg 1 3) (Some 6) None None [])]);
   (5, Node 0 [Leaf (Term (KArg 0 2) None None None [(2, 5)]); Leaf (Term (KArg 1 3) None None (Some 5) [])]);
   (10, Node 0 [Leaf (Term (KArg 0 2) None None None [(7, 10)]); Leaf (Term (KArg 1 3) (Some 10) None None [])])].

Ltac reduced a d V := let b := fresh "b" in let Hb := fresh "Hb" in let N := fresh "N" in
  right; exists a, d, V; cbn; split; [tauto|]; split; [reflexivity|];
  split; [intros b Hb N; intuition (subst; try reflexivity; try congruence)|
  split; [left; eexists; reflexivity|split; [repeat split; solve [reflexivity | lia]|discriminate] ] ].
Ltac arg_here k := split; [eexists; split; [eexists; split; [eapply occurs_node; [solve [k]|constructor]|reflexivity]|let H := fresh "H" in let K := fresh "K" in intros ? ? H K; occ H; cbn in K; congruence]|home_of].
Ltac two_args :=
  split; [let H := fresh "H" in let H' := fresh "H'" in intros ? ? H H'; occ H; occ H'; cbn; congruence|];
  split; [let Hs := fresh "Hs" in let Ht := fresh "Ht" in let Ia := fresh "Ia" in let Ib := fresh "Ib" in let N := fresh "N" in let Ga := fresh "Ga" in let Gb := fresh "Gb" in let SV := fresh "SV" in let V := fresh "V" in
    intros ? ? ? ? V Hs Ht Ia Ib N Ga Gb SV; occ Hs; occ Ht; cbn in Ia, Ib;
    repeat match goal with H : _ = _ \/ _ |- _ => destruct H as [<-|H] end; try contradiction; cbn in Ga, Gb; try congruence;
    (eapply of_space_arg in SV; [|reflexivity]); subst V; (split; [intros [C|C]; try discriminate C; cbn; lia|discriminate])|];
  split; [eexists _, _; split; [reflexivity|]; split; reflexivity|];
  split; [arg_here ltac:(left; reflexivity)|]; split; [arg_here ltac:(right; left; reflexivity)|];
  split; [let H := fresh "H" in let K := fresh "K" in intros ? ? ? H K; occ H; cbn in K; injection K; lia|
          let H := fresh "H" in let K := fresh "K" in intros ? ? ? ? H K; occ H; discriminate].

Lemma ex_couple_fine : form_fine ex_w ex_valid [] (Some 2) (Some 3) ex_couple.
Proof.
  split; [discriminate|]. split; [unfold ex_couple; unif|]. intros i [<-|[<-|[<-|[<-|[] ] ] ] ]; (split; [cbn; lia|]); cbn [fst snd]; (split; [|two_args]); intros t H; occ H.
  - reduced ATrace 1 2.
  - reduced AAverage 1 3.
  - reduced ARestriction 6 2.
  - reduced ATrace 6 3.
  - reduced (AOther 2) 5 2.
  - reduced AAverage 5 3.
  - reduced (AOther 7) 10 2.
  - reduced ATrace 10 3.
Qed.

Ltac one_attr SV Ia D V a := (eapply of_space_arg in SV; [|reflexivity]); subst V; cbn in Ia;
  repeat match goal with H : _ = a \/ _ |- _ => destruct H as [<-|H] end; try contradiction; try discriminate D; injection D as <-.
Lemma ex_coupled : forall i, In i ex_couple -> coupled_ok ex_w ex_geometry ex_reality ex_sp (w_imesh ex_w (fst i)) [] (snd i).
Proof.
  intros i [<-|[<-|[<-|[<-|[] ] ] ] ]; (split; [|intros t id V k H K; occ H; discriminate K]); intros t a d V H Ia D SV; cbn [fst snd ex_sp w_imesh ex_w] in *;
  occ H; one_attr SV Ia D V a.
  - split; [reflexivity|]. apply ex_trace_fine; cbn; auto.
  - apply ex_average_ok.
  - split; [exact ex_restr_ok|exact ex_restr_agree].
  - split; [reflexivity|]. apply ex_trace_fine; cbn; auto; lia.
  - split; [reflexivity|]. split; [|exact Logic.I]. intros color H N. cbn in H.
    repeat match goal with H : _ = color \/ _ |- _ => destruct H as [<-|H] end; try contradiction; try (elim N; reflexivity); 
    solve [eexists; split; [left; reflexivity|reflexivity] | eexists; split; [right; left; reflexivity|reflexivity] ].
  - apply ex_line_ok.
  - repeat split; reflexivity.
  - split; [reflexivity|]. apply ex_trace_fine; cbn; auto; lia.
Qed.

Example C95_example ord : an_order ord ->
  exists e N M, xii_assemble ex_w (modules ex_w ex_sp (reduction_matrix ex_w ex_geometry)) ord ex_dfa 4 [] ex_couple = Ok (TOp e) /\
    (forall n, N <= n -> collapse n e = Ok (EMat M)) /\ nr M = 3 /\ nc M = 4 /\
    forall v u, length v = 3 -> length u = 4 ->
      forall q, form_sees ex_w ex_geometry ex_reality ex_sp ex_int [] v u ex_couple q <-> q = vdot v (mv M u).
Proof.
  intros ORD. apply (C95_bilinear ex_w ex_geometry ex_reality ex_valid ex_int ex_sp ord ex_dfa 4 [] ex_couple 2 3 ORD ex_closed ex_reductions).
  - eapply plain_any. exact ex_plain.
  - exact ex_couple_fine.
  - exact ex_coupled.
  - intros i [<-|[<-|[<-|[<-|[] ] ] ] ]; cbn; lia.
Qed.
Example C95_example_runs :
  (do r <- xii_assemble ex_w (modules ex_w ex_sp (reduction_matrix ex_w ex_geometry)) (fun l => l) ex_dfa 4 [] ex_couple;
   match r with TOp e => do c <- collapse 20 e; match c with EMat M => Ok (map (map this) (to_rows M)) | _ => Err TypeError end | _ => Err TypeError end)
  = Ok [ [9#2; 15#2; 53#12; 7#12]; [20#3; 29#3; 19#3; 4#3]; [6; 17#2; 65#12; 13#12] ]%Q.
Proof. vm_compute. reflexivity. Qed.

(** Reductions to numbers: space V + 10 are the constants on the mesh V.  mean(v)
    surface mean(u) over the surface 6, and point value(v) derivative(u) for
    functions of space 5 on the line 5. *)
Definition real_w : world := World (fun V => if V <? 10 then V else V - 10) (fun m => m mod 4) (fun V => if V <? 10 then V + 1 else 1) (fun m => m) (fun _ d => d) (fun _ => 8).
Definition real_sp (a : attr) (V mesh d : nat) : nat := mesh + 10.
Lemma real_reductions : reductions_ok real_w real_sp.
Proof. intros a V mesh d _. unfold real_sp. cbn [w_mesh real_w]. rewrite (proj2 (Nat.ltb_ge (mesh + 10) 10)) by lia. lia. Qed.
Definition ex_means : form := [(6, Node 0 [Leaf (Term (KArg 0 2) None None None [(3, 0)]); Leaf (Term (KArg 1 3) None None None [(6, 0)])])].
Definition ex_points : form := [(5, Node 0 [Leaf (Term (KArg 0 5) None None None [(4, 1)]); Leaf (Term (KArg 1 5) None None None [(5, 1)])])].
Lemma ex_means_fine : form_fine real_w ex_valid [] (Some 2) (Some 3) ex_means.
Proof.
  split; [discriminate|]. split; [unfold ex_means; unif|]. intros i [<-|[] ]; (split; [cbn; lia|]); cbn [fst snd]; (split; [|two_args]); intros t H; occ H.
  - reduced (AOther 3) 0 2.
  - reduced (AOther 6) 0 3.
Qed.
Lemma ex_points_fine : form_fine real_w ex_valid [] (Some 5) (Some 5) ex_points.
Proof.
  split; [discriminate|]. split; [unfold ex_points; unif|]. intros i [<-|[] ]; (split; [cbn; lia|]); cbn [fst snd]; (split; [|two_args]); intros t H; occ H.
  - reduced (AOther 4) 1 5.
  - reduced (AOther 5) 1 5.
Qed.
Lemma ex_reals_coupled : forall i, In i (ex_means ++ ex_points) -> coupled_ok real_w ex_geometry ex_reality real_sp (w_imesh real_w (fst i)) [] (snd i).
Proof.
  intros i [<-|[<-|[] ] ]; (split; [|intros t id V k H K; occ H; discriminate K]); intros t a d V H Ia D SV; cbn [fst snd real_sp w_imesh real_w] in *;
  occ H; one_attr SV Ia D V a.
  - split; reflexivity.
  - split; [reflexivity|]. split; [reflexivity|]. split; [discriminate|]. apply ex_trace_fine; cbn; auto; lia.
  - cbn. repeat (split; [reflexivity|]). split; [intros j [<-|[<-|[] ] ]; lia|]. split; [reflexivity|]. exists 1. split; [reflexivity|]. split; [cbn; auto|]. exists q1. split; [cbn; auto|discriminate].
  - cbn. repeat (split; [reflexivity|]). split; [intros j [<-|[<-|[] ] ]; lia|]. split; [reflexivity|]. exists 1. split; [reflexivity|]. split; [cbn; auto|]. exists q1. split; [cbn; auto|discriminate].
Qed.
Example C95_means_example ord : an_order ord ->
  exists e N M, xii_assemble real_w (modules real_w real_sp (reduction_matrix real_w ex_geometry)) ord (dfa_of real_w) 4 [] ex_means = Ok (TOp e) /\
    (forall n, N <= n -> collapse n e = Ok (EMat M)) /\ nr M = 3 /\ nc M = 4 /\
    forall v u, length v = 3 -> length u = 4 ->
      forall q, form_sees real_w ex_geometry ex_reality real_sp ex_int [] v u ex_means q <-> q = vdot v (mv M u).
Proof.
  intros ORD. apply (C95_bilinear real_w ex_geometry ex_reality ex_valid ex_int real_sp ord (dfa_of real_w) 4 [] ex_means 2 3 ORD ex_closed real_reductions).
  - eapply plain_any. exact (plain_of real_w).
  - exact ex_means_fine.
  - intros i Hi. apply ex_reals_coupled, in_or_app. left. assumption.
  - intros i [<-|[] ]; cbn; lia.
Qed.
Example C95_points_example ord : an_order ord ->
  exists e N M, xii_assemble real_w (modules real_w real_sp (reduction_matrix real_w ex_geometry)) ord (dfa_of real_w) 4 [] ex_points = Ok (TOp e) /\
    (forall n, N <= n -> collapse n e = Ok (EMat M)) /\ nr M = 6 /\ nc M = 6 /\
    forall v u, length v = 6 -> length u = 6 ->
      forall q, form_sees real_w ex_geometry ex_reality real_sp ex_int [] v u ex_points q <-> q = vdot v (mv M u).
Proof.
  intros ORD. apply (C95_bilinear real_w ex_geometry ex_reality ex_valid ex_int real_sp ord (dfa_of real_w) 4 [] ex_points 5 5 ORD ex_closed real_reductions).
  - eapply plain_any. exact (plain_of real_w).
  - exact ex_points_fine.
  - intros i Hi. apply ex_reals_coupled, in_or_app. right. assumption.
  - intros i [<-|[] ]; cbn; lia.
Qed.
Example C95_points_runs :
  (do r <- xii_assemble real_w (modules real_w real_sp (reduction_matrix real_w ex_geometry)) (fun l => l) (dfa_of real_w) 4 [] ex_points;
   match r with TOp e => do c <- collapse 20 e; match c with EMat M => Ok (map (map this) (to_rows M)) | _ => Err TypeError end | _ => Err TypeError end)
  = Ok [ [0; 0; 0; 0; 0; 0]; [0; 0; 0; 0; 0; 0]; [0; 0; 0; 0; 0; 0]; [0; 0; 0; 3#2; 1; 0]; [0; 0; 0; 3; 2; 0]; [0; 0; 0; 0; 0; 0] ]%Q.
Proof. vm_compute. reflexivity. Qed.

(** The system of the example of C94, with these matrices. *)
Definition ex_blocks : list (list block) := [ [BNum q0; BForm ex_couple]; [BForm ex_back; BNum q0] ].
Definition ex_parts (i j : nat) : form := match i, j with 0, 1 => ex_couple | 1, 0 => ex_back | _, _ => [] end.
Definition ex_loads : list block := [BForm ex_load; BForm (ex_null 3)].
Definition ex_rights (i : nat) : form := match i with 0 => ex_load | _ => ex_null 3 end.

Lemma ex_load_coupled : forall i, In i (ex_back ++ ex_load ++ ex_null 3) -> coupled_ok ex_w ex_geometry ex_reality ex_sp (w_imesh ex_w (fst i)) [] (snd i).
Proof.
  assert (C0 := no_coefficient 0). fold kz in C0. assert (C1 := no_coefficient 1). fold kc in C1.
  unfold ex_load, ex_null. revert C0 C1. generalize kz as z, kc as c. intros z c C0 C1.
  intros i [<-|[<-|[<-|[] ] ] ]; split; cbn [fst snd ex_sp w_imesh ex_w] in *.
  - intros t a d V H Ia D SV. occ H; (eapply of_space_arg in SV; [|reflexivity]); subst V; cbn in Ia;
    repeat match goal with H : _ = a \/ _ |- _ => destruct H as [<-|H] end; try contradiction; try discriminate D; try (injection D as <-).
    + apply ex_average_ok.
    + split; [reflexivity|apply ex_trace_fine; cbn; auto].
  - intros t id V k H K. occ H; discriminate K.
  - intros t a d V H Ia D SV. occ H.
    + (eapply of_space_arg in SV; [|reflexivity]); subst V; cbn in Ia;
      repeat match goal with H : _ = a \/ _ |- _ => destruct H as [<-|H] end; try contradiction; try discriminate D; try (injection D as <-).
      split; [reflexivity|apply ex_trace_fine; cbn; auto].
    + exfalso. destruct SV as [(m & C)|(id & k & C & B)]; [discriminate C|]. injection C as <-. apply (C1 V k B).
  - intros t id V k H K B. occ H; [discriminate K|]. injection K as <-. elim (C1 V k B).
  - intros t a d V H Ia D SV. exfalso. occ H; cbn in Ia; repeat match goal with H : _ = a \/ _ |- _ => destruct H as [<-|H] end; try contradiction; discriminate D.
  - intros t id V k H K B. occ H; [discriminate K|]. injection K as <-. elim (C0 V k B).
Qed.

Lemma ex_state2 : blocks2 2 ex_blocks ex_parts.
Proof.
  split; [split; [reflexivity|intros r [<-|[<-|[] ] ]; reflexivity]|].
  intros i j Hi Hj. destruct i as [|[|i] ], j as [|[|j] ]; try lia; cbn [ex_parts].
  - exists (BNum q0). split; [reflexivity|]. left. split; reflexivity.
  - exists (BForm ex_couple). split; [reflexivity|]. right. split; [reflexivity|discriminate].
  - exists (BForm ex_back). split; [reflexivity|]. right. split; [reflexivity|discriminate].
  - exists (BNum q0). split; [reflexivity|]. left. split; reflexivity.
Qed.
Lemma ex_state1 : blocks1 2 ex_loads ex_rights.
Proof.
  split; [reflexivity|]. intros i Hi. destruct i as [|[|i] ]; [| |lia]; cbn [ex_rights].
  - exists (BForm ex_load). split; [reflexivity|]. right. split; [reflexivity|discriminate].
  - exists (BForm (ex_null 3)). split; [reflexivity|]. right. split; [reflexivity|discriminate].
Qed.

Example C95_system_example ord sym : an_order ord ->
  exists N, forall fc, N <= fc -> exists M r,
    linear_system (xii_assemble ex_w (modules ex_w ex_sp (reduction_matrix ex_w ex_geometry)) ord ex_dfa 4 []) 4 fc ex_blocks ex_loads ex_bcs (qz 2) sym = Ok (M, r) /\
    nr M = 7 /\ nc M = 7 /\ length r = 7 /\
    forall us, map (@length Qc) us = [3; 4] ->
      (mv M (concat us) = r <->
       (forall k v, assigned [(0, qz 5)] k v -> vnth (concat us) k = v) /\
       (forall vs a b, map (@length Qc) vs = [3; 4] -> (forall k, constrained [(0, qz 5)] k -> vnth (concat vs) k = q0) ->
          (forall i j, i < 2 -> j < 2 -> form_sees ex_w ex_geometry ex_reality ex_sp ex_int [] (nth i vs []) (nth j us []) (ex_parts i j) (a i j)) ->
          (forall i, i < 2 -> form_sees ex_w ex_geometry ex_reality ex_sp ex_int [] (nth i vs []) [] (ex_rights i) (b i)) ->
          sumn 2 (fun i => sumn 2 (fun j => a i j)) = sumn 2 b)).
Proof.
  intros ORD. apply (C95_system ex_w ex_geometry ex_reality ex_valid ex_int ex_sp ord ex_dfa [] 4 [2; 3] ex_blocks ex_loads ex_parts ex_rights ex_bcs (qz 2) sym ORD ex_closed ex_reductions).
  - eapply plain_any. exact ex_plain.
  - discriminate.
  - intros V [<-|[<-|[] ] ]; cbn; lia.
  - exact ex_state2.
  - exact ex_state1.
  - intros i j V U EV EU N. destruct i as [|[|i] ], j as [|[|j] ]; cbn [ex_parts] in *; try congruence; cbn in EV, EU; injection EV as <-; injection EU as <-.
    + exact ex_couple_fine.
    + exact ex_back_fine.
  - intros i V EV. destruct i as [|[|i] ]; cbn in EV; [| |destruct i; discriminate EV]; injection EV as <-; [exact ex_load_fine|apply ex_null_fine; cbn; lia].
  - intros i j x Hi Hj Hx. cbn in Hi, Hj. destruct Hx as [Hx|Hx].
    + destruct i as [|[|i] ], j as [|[|j] ]; cbn [ex_parts] in Hx; try contradiction; [apply ex_coupled; assumption|]. apply ex_load_coupled. apply in_or_app. left. assumption.
    + apply ex_load_coupled. apply in_or_app. right. apply in_or_app. destruct i; [left|right]; exact Hx.
  - intros i Hi. cbn in Hi. destruct i as [|[|i] ]; [exists 1|exists 0|lia]; (split; [cbn; lia|discriminate]).
  - intros i Hi. cbn in Hi. destruct i as [|[|i] ]; [exists 1|exists 0|lia]; (split; [cbn; lia|discriminate]).
  - intros i j x Hi Hj Hx. destruct i as [|[|i] ], j as [|[|j] ]; cbn [ex_parts] in Hx; try contradiction.
    + destruct Hx as [<-|[<-|[<-|[<-|[] ] ] ] ]; cbn; lia.
    + destruct Hx as [<-|[] ]; cbn; lia.
  - intros i x Hi Hx. destruct i as [|i]; cbn [ex_rights] in Hx; destruct Hx as [<-|[] ]; cbn; lia.
  - split; [reflexivity|]. repeat constructor.
  - discriminate.
  - intros k [<-|[] ]. cbn. lia.
  - discriminate.
Qed.

Print Assumptions C95_bilinear.
Print Assumptions C95_linear.
Print Assumptions C95_functional.
Print Assumptions C95_system.

(** Of the three methods of injection two have no matrix (see C82, C30). *)
Theorem C95_injections w g V TV mesh d :
  let s := g_injection g V TV d in
  (j_method s = Interpolate -> reduction_matrix w g (AOther 7) V TV mesh d = Ok (j_transfer s)) /\
  (j_method s = Project -> reduction_matrix w g (AOther 7) V TV mesh d = Err ValueError) /\
  (forall i l, j_method s = Lookup -> v_items (j_spaces s) <> [] ->
     Sorting.Permutation.Permutation (map fst (v_items (j_spaces s))) (seq 0 (length (v_items (j_spaces s)))) ->
     v_dofs (j_spaces s) 0 = i :: l -> i < v_dim (j_spaces s) ->
     reduction_matrix w g (AOther 7) V TV mesh d = Err UnboundLocalError).
Proof.
  intros s. cbn [reduction_matrix]. unfold injection_matrix. fold s.
  split; [intros ->; reflexivity|]. split; [intros ->; reflexivity|].
  intros i l -> H1 H2 H3 H4. rewrite (C82_raises_refuted (j_spaces s) i l H1 H2 H3 H4). reflexivity.
Qed.
Print Assumptions C95_injections.
