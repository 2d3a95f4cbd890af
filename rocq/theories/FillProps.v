(** C31, C32, C33: filling reduction matrices. *)
From Verif Require Import Base BaseProofs Mat MatProofs FillModel FillProofs AverageProofs.
Local Open Scope nat_scope.
Local Close Scope Q_scope.
Local Close Scope Qc_scope.

(** C31: rows are filled first come first served. *)
Theorem C31_trace_rows m n cells : Forall (dofmap_ok m n) cells -> first_cell_rows m cells (trace_cg m n cells).
Proof. apply trace_cg_first. Qed.
Theorem C31_restriction_rows m n cells : Forall (dofmap_ok m n) cells -> first_cell_rows m cells (restriction_fill m n cells).
Proof. apply restriction_fill_first. Qed.
Theorem C31_trace_dg_rows m n cells : Forall (dofmap_ok m n) cells -> disjoint_rows cells -> first_cell_rows m cells (trace_dg m n cells).
Proof. apply trace_dg_first. Qed.
(** The cells with the given tags are visited, each once. *)
Theorem C31_visited_cells marks tags : NoDup tags ->
  NoDup (trace_cells marks tags) /\ forall c, In c (trace_cells marks tags) <-> c < length marks /\ In (nth c marks 0) tags.
Proof. intros H. split; [apply trace_cells_NoDup, H|intros; apply trace_cells_In]. Qed.
(** Any two matrices filled like this from the same cells in any order agree, when
    cells sharing a dof compute the same row (or share none). *)
Theorem C31_order_independent m cells cells' A A' : first_cell_rows m cells A -> first_cell_rows m cells' A' -> cells_agree cells ->
  (forall c, In c cells <-> In c cells') -> forall i j, ent A i j = ent A' i j.
Proof. apply order_independent. Qed.
(** So the two implementations of the loop agree without further hypotheses, and
    both agree with the branch for discontinuous targets. *)
Theorem C31_implementations_agree m n cells : Forall (dofmap_ok m n) cells ->
  meq (trace_cg m n cells) (restriction_fill m n cells) /\ (disjoint_rows cells -> meq (trace_dg m n cells) (trace_cg m n cells)).
Proof.
  intros F.
  assert (G : forall A B, first_cell_rows m cells A -> first_cell_rows m cells B -> forall i j, ent A i j = ent B i j).
  { intros A B [A1 A2] [B1 B2] i j. destruct (first_of cells i) as [N|(pre & c & post & E & Hc & Hp)].
    - rewrite A2, B2 by assumption. reflexivity.
    - destruct (A1 pre c post i E Hc Hp) as (k & Hk & P1 & P2). destruct (B1 pre c post i E Hc Hp) as (k' & Hk' & Q1 & Q2).
      assert (D : dofmap_ok m n c) by (rewrite Forall_forall in F; apply F; rewrite E; apply in_or_app; right; left; reflexivity). destruct D as (NR & _).
      assert (k' = k) by (apply (proj1 (NoDup_nth_error (f_rows c)) NR); [apply nth_error_Some; congruence|congruence]). subst k'.
      destruct (in_dec Nat.eq_dec j (f_cols c)) as [Hj|Hj]; [|rewrite P2, Q2 by assumption; reflexivity].
      destruct (In_nth_error _ _ Hj) as [l Hl]. rewrite (P1 l j Hl), (Q1 l j Hl). reflexivity. }
  split.
  - repeat split. intros. apply G; [apply trace_cg_first, F|apply restriction_fill_first, F].
  - intros D. repeat split. intros. apply G; [apply trace_dg_first; assumption|apply trace_cg_first, F].
Qed.
(** The matrix applied to coefficients: at a dof the functional that the first
    cell evaluates, applied to the function on that cell. *)
Theorem C31_apply m n cells A u pre c post i k : Forall (dofmap_ok m n) cells -> first_cell_rows m cells A -> nr A = m -> nc A = n ->
  cells = pre ++ c :: post -> nth_error (f_rows c) k = Some i -> (forall c', In c' pre -> ~ In i (f_rows c')) ->
  vnth (mv A u) i = qsum (map (fun l => (f_val c l k * vnth u (nth l (f_cols c) 0%nat))%Qc) (seq 0 (length (f_cols c)))).
Proof.
  intros F [F1 _] Hm Hn E Hk Hp. rewrite Forall_forall in F. assert (D : dofmap_ok m n c) by (apply F; rewrite E; apply in_or_app; right; left; reflexivity).
  assert (Hi : In i (f_rows c)) by (eapply nth_error_In; eassumption).
  eapply computes_row_apply; [exact D|rewrite Hm; apply D, Hi|assumption|assumption|]. eapply F1; eassumption.
Qed.

(** C33 (scalars): the average is the quadrature sum over the sum of the weights. *)
Theorem C33_scalar_average {X N} collision limit basis V_dofs (quadrature : X -> N -> list X * list Qc) m u cells n dofs r x :
  space_ok limit basis V_dofs 1 (length u) -> quadrature_ok quadrature ->
  NoDup (flat_map (fun lc => map fst (snd lc)) cells) -> In (n, dofs) cells -> In (r, x) dofs -> r < m -> all_inside collision limit quadrature x n ->
  vnth (mv (scalar_average collision limit basis V_dofs quadrature m (length u) cells) u) r = full_average collision basis V_dofs quadrature 1 u 0 x n.
Proof.
  intros SO QO ND Hc Hd Hr AI. rewrite <- (shape_full collision limit) by assumption. apply scalar_average_apply; try assumption.
  - apply (in_map fst _ _ Hc).
  - eauto.
Qed.
(** C33 (vectors): same for each component, when the dofs of a node are numbered
    one after the other. *)
Theorem C33_vector_average {X N} collision limit basis V_dofs (quadrature : X -> N -> list X * list Qc) size m u cells n dofs r x k :
  space_ok limit basis V_dofs size (length u) -> quadrature_ok quadrature ->
  NoDup (flat_map (fun lc => flat_map (fun rx : nat * X => map (fun s => fst rx + s) (seq 0 size)) (snd lc)) cells) ->
  In (n, dofs) cells -> In (r, x) dofs -> k < size -> r + k < m -> all_inside collision limit quadrature x n ->
  vnth (mv (vector_average collision limit basis V_dofs quadrature size m (length u) cells) u) (r + k) = full_average collision basis V_dofs quadrature size u k x n.
Proof.
  intros SO QO ND Hc Hd Hk Hr AI. rewrite <- (shape_full collision limit) by assumption. eapply vector_average_apply; eassumption.
Qed.
(** Without the hypothesis: points outside count in the measure only. *)
Theorem C33_outside_points {X N} collision limit basis V_dofs (quadrature : X -> N -> list X * list Qc) m u cells n dofs r x :
  space_ok limit basis V_dofs 1 (length u) -> quadrature_ok quadrature ->
  NoDup (flat_map (fun lc => map fst (snd lc)) cells) -> In (n, dofs) cells -> In (r, x) dofs -> r < m ->
  vnth (mv (scalar_average collision limit basis V_dofs quadrature m (length u) cells) u) r = shape_average collision limit basis V_dofs quadrature 1 u 0 x n.
Proof.
  intros SO QO ND Hc Hd Hr. apply scalar_average_apply; try assumption.
  - apply (in_map fst _ _ Hc).
  - eauto.
Qed.
(** Linear, and local: only the values at the quadrature points matter. *)
Theorem C33_linear {X N} collision basis V_dofs (quadrature : X -> N -> list X * list Qc) size a u v k x n : length u = length v ->
  (forall p, In p (fst (quadrature x n)) -> forall j, In j (V_dofs (collision p)) -> j < length u) ->
  full_average collision basis V_dofs quadrature size (vadd (vscale a u) v) k x n =
  (a * full_average collision basis V_dofs quadrature size u k x n + full_average collision basis V_dofs quadrature size v k x n)%Qc.
Proof.
  intros L R. unfold full_average. destruct (quadrature x n) as [pts w]. cbn [fst] in R. unfold Qcdiv. rewrite Qcmult_assoc, <- Qcmult_plus_distr_l. f_equal. rewrite <- sumn_scal, <- sumn_plus. apply sumn_ext. intros q Hq.
  assert (E : fe_value collision basis V_dofs size (vadd (vscale a u) v) k (nth q pts x) = (a * fe_value collision basis V_dofs size u k (nth q pts x) + fe_value collision basis V_dofs size v k (nth q pts x))%Qc).
  { unfold fe_value. rewrite <- sumn_scal, <- sumn_plus. apply sumn_ext. intros l Hl.
    assert (B : nth l (V_dofs (collision (nth q pts x))) 0 < length u) by (apply (R (nth q pts x)); [apply nth_In, Hq|apply nth_In, Hl]).
    unfold vadd, vscale. rewrite vtab_length. rewrite vnth_vtab by assumption. rewrite vnth_vtab by assumption. ring. }
  rewrite E. ring.
Qed.
Theorem C33_local {X N} collision basis V_dofs (quadrature : X -> N -> list X * list Qc) size u v k x n :
  (forall p, In p (fst (quadrature x n)) -> fe_value collision basis V_dofs size u k p = fe_value collision basis V_dofs size v k p) ->
  full_average collision basis V_dofs quadrature size u k x n = full_average collision basis V_dofs quadrature size v k x n.
Proof.
  unfold full_average. destruct (quadrature x n) as [pts w]. cbn [fst]. intros H. f_equal. apply sumn_ext. intros q Hq. rewrite H; [reflexivity|]. apply nth_In, Hq.
Qed.

(** C32: constants are reproduced when all points lie in the mesh and the weights
    do not cancel. *)
Theorem C32_constants_partial {X N} collision limit basis V_dofs (quadrature : X -> N -> list X * list Qc) m u a cells n dofs r x :
  space_ok limit basis V_dofs 1 (length u) -> quadrature_ok quadrature ->
  NoDup (flat_map (fun lc => map fst (snd lc)) cells) -> In (n, dofs) cells -> In (r, x) dofs -> r < m ->
  (forall p, In p (fst (quadrature x n)) -> fe_value collision basis V_dofs 1 u 0 p = a) ->
  all_inside collision limit quadrature x n -> qsum (snd (quadrature x n)) <> q0 ->
  vnth (mv (scalar_average collision limit basis V_dofs quadrature m (length u) cells) u) r = a.
Proof.
  intros SO QO ND Hc Hd Hr CO AI NZ. rewrite (C33_scalar_average collision limit basis V_dofs quadrature m u cells n dofs r x) by assumption. unfold full_average. specialize (QO x n). destruct (quadrature x n) as [pts w]. cbn [fst snd] in *.
  rewrite (sumn_ext (length pts) _ (fun q => (a * vnth w q)%Qc)).
  - rewrite sumn_scal, QO. rewrite qsum_sumn in NZ. field. exact NZ.
  - intros q Hq. rewrite CO by (apply nth_In, Hq). ring.
Qed.
Theorem C32_vector_constants_partial {X N} collision limit basis V_dofs (quadrature : X -> N -> list X * list Qc) size m u a cells n dofs r x k :
  space_ok limit basis V_dofs size (length u) -> quadrature_ok quadrature ->
  NoDup (flat_map (fun lc => flat_map (fun rx : nat * X => map (fun s => fst rx + s) (seq 0 size)) (snd lc)) cells) ->
  In (n, dofs) cells -> In (r, x) dofs -> k < size -> r + k < m ->
  (forall p, In p (fst (quadrature x n)) -> fe_value collision basis V_dofs size u k p = a) ->
  all_inside collision limit quadrature x n -> qsum (snd (quadrature x n)) <> q0 ->
  vnth (mv (vector_average collision limit basis V_dofs quadrature size m (length u) cells) u) (r + k) = a.
Proof.
  intros SO QO ND Hc Hd Hk Hr CO AI NZ. rewrite (C33_vector_average collision limit basis V_dofs quadrature size m u cells n dofs r x k) by assumption. unfold full_average. specialize (QO x n). destruct (quadrature x n) as [pts w]. cbn [fst snd] in *.
  rewrite (sumn_ext (length pts) _ (fun q => (a * vnth w q)%Qc)).
  - rewrite sumn_scal, QO. rewrite qsum_sumn in NZ. field. exact NZ.
  - intros q Hq. rewrite CO by (apply nth_In, Hq). ring.
Qed.
(** C32 is false otherwise: the constant comes out scaled with the part of the
    weights that is inside. *)
Theorem C32_outside_refuted {X N} collision limit basis V_dofs (quadrature : X -> N -> list X * list Qc) m u a cells n dofs r x :
  space_ok limit basis V_dofs 1 (length u) -> quadrature_ok quadrature ->
  NoDup (flat_map (fun lc => map fst (snd lc)) cells) -> In (n, dofs) cells -> In (r, x) dofs -> r < m ->
  (forall p, In p (fst (quadrature x n)) -> collision p < limit -> fe_value collision basis V_dofs 1 u 0 p = a) ->
  vnth (mv (scalar_average collision limit basis V_dofs quadrature m (length u) cells) u) r =
  (a * (qsum (map snd (filter (fun p => inside collision limit (fst p)) (combine (fst (quadrature x n)) (snd (quadrature x n))))) / qsum (snd (quadrature x n))))%Qc.
Proof.
  intros SO QO ND Hc Hd Hr CO. rewrite (C33_outside_points collision limit basis V_dofs quadrature m u cells n dofs r x) by assumption. unfold shape_average. specialize (QO x n). destruct (quadrature x n) as [pts w]. cbn [fst snd] in *.
  rewrite <- (qsum_sumn w). unfold Qcdiv. rewrite Qcmult_assoc. f_equal.
  etransitivity; [symmetry; apply (combine_sumn (fun y v => if inside collision limit y then (v * fe_value collision basis V_dofs 1 u 0 y)%Qc else q0) pts w x q0); assumption|].
  assert (G : forall l, (forall y, In y (map fst l) -> In y pts) -> qsum (map (fun p => if inside collision limit (fst p) then (snd p * fe_value collision basis V_dofs 1 u 0 (fst p))%Qc else q0) l) = (a * qsum (map snd (filter (fun p => inside collision limit (fst p)) l)))%Qc).
  { induction l as [|[y v] l IH]; intros HI; cbn [map qsum filter fst snd]; [unfold q0; ring|]. rewrite IH by (intros; apply HI; right; assumption).
    destruct (inside collision limit y) eqn:IN; cbn [map qsum snd]; [|unfold q0; ring]. unfold inside in IN. apply Nat.ltb_lt in IN. rewrite CO; [ring|apply HI; left; reflexivity|assumption]. }
  apply G. intros y Hy. apply in_map_iff in Hy. destruct Hy as ([y' v] & <- & Hy). eapply in_combine_l, Hy.
Qed.

(** A concrete case: one cell with two dofs and linear basis functions on
    [0, 1], averages over {x - 1/2, x + 1/2}; at x = 1/2 both points are inside, at
    x = 3/4 one is outside. *)
Definition exh : Qc := Q2Qc (1 # 2).
Definition ex_collision (x : Qc) : nat := if qleb q0 x && qleb x q1 then 0 else 9.
Definition ex_basis (c : nat) (x : Qc) : list Qc := [(q1 - x)%Qc; x].
Definition ex_dofs (c : nat) : list nat := [1; 0].
Definition ex_quad (x : Qc) (n : unit) : list Qc * list Qc := ([(x - exh)%Qc; (x + exh)%Qc], [q1; q1]).
Definition ex_lines : list (unit * list (nat * Qc)) := [(tt, [(0, exh); (1, Q2Qc (3 # 4))])].
Definition ex_ones : vec := [q1; q1].
Example C33_hypotheses_met :
  space_ok 1 ex_basis ex_dofs 1 (length ex_ones) /\ quadrature_ok ex_quad /\ NoDup (flat_map (fun lc => map fst (snd lc)) ex_lines) /\
  all_inside ex_collision 1 ex_quad exh tt /\ ~ all_inside ex_collision 1 ex_quad (Q2Qc (3 # 4)) tt /\ qsum (snd (ex_quad exh tt)) <> q0.
Proof.
  split; [|split; [|split; [|split; [|split]]]].
  - intros c _. split; [repeat constructor; cbn; intuition discriminate|]. split; [cbn; intros j [<-|[<-|[]]]; lia|reflexivity].
  - intros x n. reflexivity.
  - repeat constructor; cbn; intuition discriminate.
  - intros p [<-|[<-|[]]]; vm_compute; lia.
  - intros H. specialize (H (Q2Qc (3 # 4) + exh)%Qc (or_intror (or_introl eq_refl))). vm_compute in H. lia.
  - intros H. apply (f_equal (fun q => this q)) in H. vm_compute in H. discriminate.
Qed.
Theorem C32_half_refuted : let A := scalar_average ex_collision 1 ex_basis ex_dofs ex_quad 2 2 ex_lines in
  vnth (mv A ex_ones) 0 = q1 /\ vnth (mv A ex_ones) 1 = exh.
Proof. split; apply Qc_is_canon; vm_compute; reflexivity. Qed.
Example C31_hypotheses_met : let cs := [FCell [0; 1] [2; 0] (fun l k => qz (Z.of_nat (l + k))); FCell [1; 2] [1; 3] (fun l k => qz (Z.of_nat (l * 5 + k)))] in
  Forall (dofmap_ok 3 4) cs /\ to_rows (trace_cg 3 4 cs) = map (map qz) [[1; 0; 0; 0]; [2; 0; 1; 0]; [0; 1; 0; 6]]%Z.
Proof.
  split.
  - repeat apply Forall_cons; [..|apply Forall_nil]; (split; [|split; [|split]]); cbn; try (intros i Hi; repeat destruct Hi as [<-|Hi]; try destruct Hi; lia);
      repeat constructor; cbn; intuition discriminate.
  - vm_compute. reflexivity.
Qed.
Print Assumptions C31_implementations_agree.
Print Assumptions C33_vector_average.
Print Assumptions C32_outside_refuted.
