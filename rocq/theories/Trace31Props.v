(** C83: trace_3d1d_matrix evaluates functions at the dofs of the line *)
From Coq Require Import Lia ZArith.
From Verif Require Import Base BaseProofs Mat MatProofs FillModel FillProofs AverageProofs EmbedModel Trace31Model Trace31Proofs.
Local Open Scope nat_scope.

(** Component [s] at [x] of the function with coefficients [u] *)
Definition value_at {X} (phi : nat -> X -> nat -> Qc) (u : vec) (x : X) (s : nat) : Qc := sumn (length u) (fun j => (vnth u j * phi j x s)%Qc).

Section Lookup.
Context {X : Type}.
Variables (parents : option (nat -> option nat)) (edge_cells : nat -> list nat) (collision : nat -> nat) (limit : nat).
Variables (basis : nat -> X -> list Qc) (V_dofs : nat -> list nat) (size : nat) (contains : nat -> X -> Prop) (phi : nat -> X -> nat -> Qc).
Variable cells : list (nat * list (nat * X)).
Hypothesis conf : continuous_space contains phi basis V_dofs size.
Hypothesis block : blocked size cells.
Notation matrix m n := (trace_3d1d_matrix parents edge_cells collision limit basis V_dofs size m n cells).

Lemma result m n : Forall (found_inside parents edge_cells collision limit contains) cells ->
  exists A, matrix m n = Ok A /\ nr A = m /\ nc A = n /\
  state_ok size phi cells (fun r => False \/ exists c x, In c cells /\ found parents edge_cells collision limit c /\ In (r, x) (snd c)) (ent A).
Proof.
  intros H. unfold trace_3d1d_matrix.
  destruct (cells_ok parents edge_cells collision limit basis V_dofs size contains phi conf cells block cells (fun _ => False) (fun _ _ => q0)) as [E [-> HE]]; auto.
  - intros z Hz. exact Hz.
  - intros c r x s j _ _ _. split; [intros [] | reflexivity].
  - exists (Mat m n E). split; [reflexivity |]. split; [reflexivity |]. split; [reflexivity | exact HE].
Qed.

(** If the cell that is looked up contains the points of the line cell, or nothing is found:
    the matrix gives values of functions *)
Theorem C83_trace_partial : forall m u, Forall (found_inside parents edge_cells collision limit contains) cells ->
  exists A, matrix m (length u) = Ok A /\
  forall c r x s, In c cells -> found parents edge_cells collision limit c -> In (r, x) (snd c) -> s < size -> r + s < m ->
    vnth (mv A u) (r + s) = value_at phi u x s.
Proof.
  intros m u H. destruct (result m (length u) H) as [A [E [Hm [Hn HA]]]]. exists A. split; auto. intros c r x s Hc Hf Hr Hs Hlt.
  unfold mv, vnth. unfold vtab. rewrite Hm. rewrite (nth_indep _ q0 (sumn (nc A) (fun j => (ent A 0 j * vnth u j)%Qc))) by (rewrite map_length, seq_length; auto).
  rewrite (map_nth (fun i => sumn (nc A) (fun j => (ent A i j * vnth u j)%Qc))), seq_nth by auto. rewrite Hn. unfold value_at. apply sumn_ext. intros j Hj.
  destruct (HA c r x s j Hc Hr Hs) as [H1 _]. rewrite Nat.add_0_l, H1 by (right; exists c, x; auto). ring.
Qed.
(** and zero at dofs whose cells are all without an answer *)
Theorem C83_outside : forall m n, Forall (found_inside parents edge_cells collision limit contains) cells ->
  exists A, matrix m n = Ok A /\
  forall c r x s j, In c cells -> In (r, x) (snd c) -> s < size -> (forall c' x', In c' cells -> In (r, x') (snd c') -> ~ found parents edge_cells collision limit c') -> ent A (r + s) j = q0.
Proof.
  intros m n H. destruct (result m n H) as [A [E [Hm [Hn HA]]]]. exists A. split; auto. intros c r x s j Hc Hr Hs Hno.
  destruct (HA c r x s j Hc Hr Hs) as [_ H2]. apply H2. intros [[] | [c' [x' [Hc' [Hf' Hr']]]]]. exact (Hno c' x' Hc' Hr' Hf').
Qed.
End Lookup.

(** Lines made of edges of the mesh: each cell at the edge contains the points of it, so any
    will do *)
Theorem C83_embedded : forall X mapping edge_cells collision limit (basis : nat -> X -> list Qc) V_dofs size (contains : nat -> X -> Prop) phi cells,
  continuous_space contains phi basis V_dofs size -> blocked size cells ->
  (forall c, In c cells -> exists e, mapping (fst c) = Some e /\ edge_cells e <> [] /\ forall t r x, In t (edge_cells e) -> In (r, x) (snd c) -> contains t x) ->
  forall m u, exists A, trace_3d1d_matrix (Some mapping) edge_cells collision limit basis V_dofs size m (length u) cells = Ok A /\
  forall c r x s, In c cells -> In (r, x) (snd c) -> s < size -> r + s < m -> vnth (mv A u) (r + s) = value_at phi u x s.
Proof.
  intros X mapping edge_cells collision limit basis V_dofs size contains phi cells conf block H m u.
  assert (Hget : forall c, In c cells -> exists t, located (Some mapping) edge_cells collision limit (fst c) (Some t) /\ forall r x, In (r, x) (snd c) -> contains t x).
  { intros c Hc. destruct (H c Hc) as [e [He [Hne Ht]]]. destruct (edge_cells e) as [| t ts] eqn:Ee; [congruence |].
    exists t. split; [apply (at_edge _ _ _ _ (fst c) mapping e t ts); auto |]. intros r x Hr. apply (Ht t r x); auto. left. auto. }
  destruct (C83_trace_partial (Some mapping) edge_cells collision limit basis V_dofs size contains phi cells conf block m u) as [A [E HA]].
  - apply Forall_forall. intros c Hc. right. exact (Hget c Hc).
  - exists A. split; auto. intros c r x s Hc. apply (HA c r x s Hc). destruct (Hget c Hc) as [t [Ht _]]. exists t. exact Ht.
Qed.
(** A line cell that is not in the map is refused *)
Theorem C83_unmapped : forall X mapping edge_cells collision limit (basis : nat -> X -> list Qc) V_dofs size m n c cells, mapping (fst c) = None ->
  trace_3d1d_matrix (Some mapping) edge_cells collision limit basis V_dofs size m n (c :: cells) = Err KeyError.
Proof. intros X mapping edge_cells collision limit basis V_dofs size m n c cells H. unfold trace_3d1d_matrix, trace_cell, get_cell3d. cbn [foldM fst]. rewrite H. reflexivity. Qed.

(** Two tetrahedra with the vertices 0, e1, e2, e3 and (1, 1, 1), e1, e2, e3; coordinates
    are in 20ths *)
Local Open Scope Z_scope.
Definition point := (Z * Z * Z)%type.
Definition q40 (v : Z) : Qc := (qz v / qz 40)%Qc.
Definition sum3 (p : point) : Z := let '(x, y, z) := p in x + y + z.
Definition lower (p : point) : list Z := let '(x, y, z) := p in [40 - 2 * sum3 p; 2 * x; 2 * y; 2 * z].
Definition upper (p : point) : list Z := let '(x, y, z) := p in [sum3 p - 20; 2 * x - sum3 p + 20; 2 * y - sum3 p + 20; 2 * z - sum3 p + 20].
Definition tets (t : nat) (p : point) : list Qc := map q40 (if (t =? 0)%nat then lower p else upper p).
Definition tet_dofs (t : nat) : list nat := if (t =? 0)%nat then [0; 1; 2; 3]%nat else [4; 1; 2; 3]%nat.
Definition in_tet (t : nat) (p : point) : Prop :=
  match t with O => Forall (fun b => 0 <= b) (lower p) | 1%nat => Forall (fun b => 0 <= b) (upper p) | _ => False end.
Definition hat (j : nat) (p : point) (k : nat) : Qc :=
  if sum3 p <=? 20 then match j with 4%nat => q0 | _ => nth j (map q40 (lower p)) q0 end
  else match j with O => q0 | 4%nat => nth 0 (map q40 (upper p)) q0 | _ => nth j (map q40 (upper p)) q0 end.
Lemma q40_0 : q40 0 = q0.
Proof. apply Qc_is_canon. vm_compute. reflexivity. Qed.
Lemma tets_continuous : continuous_space in_tet hat tets tet_dofs 1.
Proof.
  intros t [[x y] z] Ht. destruct t as [| [| t]]; cbn [in_tet] in Ht; [| | contradiction].
  - assert (Hs : sum3 (x, y, z) <= 20) by (pose proof (Forall_inv Ht) as H1; cbv beta in H1; lia). apply Z.leb_le in Hs.
    split; [unfold tet_dofs; cbn; repeat constructor; cbn; lia |]. split.
    + intros l j k Hl Hk. assert (k = 0)%nat as -> by lia. unfold hat. rewrite Hs. unfold tets. cbn [Nat.eqb].
      destruct l as [| [| [| [| l]]]]; cbn in Hl; try (injection Hl as <-; reflexivity). destruct l; discriminate.
    + intros j k Hj _. unfold hat. rewrite Hs. destruct j as [| [| [| [| [| j]]]]]; try (exfalso; apply Hj; cbn; tauto); [reflexivity | unfold lower; cbn [map nth]; destruct j; reflexivity].
  - assert (Hs : 20 <= sum3 (x, y, z)) by (pose proof (Forall_inv Ht) as H1; cbv beta in H1; lia).
    split; [unfold tet_dofs; cbn; repeat constructor; cbn; lia |]. destruct (Z.leb_spec (sum3 (x, y, z)) 20) as [Hle | Hlt].
    + assert (E : sum3 (x, y, z) = 20) by lia. assert (Hle' : sum3 (x, y, z) <=? 20 = true) by (apply Z.leb_le; auto). split.
      * intros l j k Hl Hk. assert (k = 0)%nat as -> by lia. unfold hat. rewrite Hle'. unfold tets. cbn [Nat.eqb]. unfold lower, upper. rewrite E.
        destruct l as [| [| [| [| l]]]]; cbn [tet_dofs Nat.eqb nth_error] in Hl; try (injection Hl as <-; cbn [map nth Nat.mul Nat.add]; rewrite <- ?q40_0; f_equal; lia). destruct l; discriminate.
      * intros j k Hj _. unfold hat. rewrite Hle'. destruct j as [| [| [| [| [| j]]]]]; try (exfalso; apply Hj; cbn; tauto); [| unfold lower; cbn [map nth]; destruct j; reflexivity].
        unfold lower. cbn [map nth]. rewrite E. exact q40_0.
    + assert (Hle' : sum3 (x, y, z) <=? 20 = false) by (apply Z.leb_gt; auto). split.
      * intros l j k Hl Hk. assert (k = 0)%nat as -> by lia. unfold hat. rewrite Hle'. unfold tets. cbn [Nat.eqb].
        destruct l as [| [| [| [| l]]]]; cbn in Hl; try (injection Hl as <-; reflexivity). destruct l; discriminate.
      * intros j k Hj _. unfold hat. rewrite Hle'. destruct j as [| [| [| [| [| j]]]]]; try (exfalso; apply Hj; cbn; tauto); [reflexivity | unfold upper; cbn [map nth]; destruct j; reflexivity].
Qed.
Definition diagonal (a : Z) : point := (a, a, a).
(** A line through both: vertices at 2, 8 and 12, midpoints at 5 and 10.  The matrix does not
    keep constants, though all points are in the mesh and the midpoints in the cells found *)
Definition way : list (nat * list (nat * point)) := [(0, [(0, diagonal 2); (1, diagonal 8)]); (1, [(1, diagonal 8); (2, diagonal 12)])]%nat.
Definition find (c : nat) : nat := c.
Theorem C83_lines_refuted : continuous_space in_tet hat tets tet_dofs 1 /\ blocked 1 way /\
  (in_tet (find 0) (diagonal 5) /\ in_tet (find 1) (diagonal 10)) /\
  Forall (fun c : nat * list (nat * point) => Forall (fun rx : nat * point => exists t, (t < 2)%nat /\ in_tet t (snd rx)) (snd c)) way /\
  exists A, trace_3d1d_matrix None (fun _ => []) find 2 tets tet_dofs 1 3 5 way = Ok A /\
    vnth (mv A (repeat q1 5)) 1 = (qz 4 / qz 5)%Qc /\ value_at hat (repeat q1 5) (diagonal 8) 0 = q1.
Proof.
  split; [exact tets_continuous |]. split.
  { intros c c' r r' x x' s s' Hc Hc' Hr Hr' Hs Hs' E. assert (r = r')%nat as <- by lia. split; auto.
    destruct Hc as [<- | [<- | []]], Hc' as [<- | [<- | []]]; cbn in Hr, Hr'; destruct Hr as [Hr | [Hr | []]], Hr' as [Hr' | [Hr' | []]]; congruence. }
  split. { split; cbn; repeat constructor; lia. }
  split. { repeat constructor; cbn [snd]; [exists 0%nat | exists 1%nat | exists 1%nat | exists 1%nat]; (split; [lia |]); cbn; repeat constructor; lia. }
  eexists. split; [reflexivity |]. split; apply Qc_is_canon; vm_compute; reflexivity.
Qed.
(** An edge from e1 to e2, between both: any of the cells gives the values *)
Definition edge_12 : list (nat * list (nat * point)) := [(0%nat, [(0%nat, (20, 0, 0)); (1%nat, (0, 20, 0))])].
Example case_edge : exists A, trace_3d1d_matrix (Some (fun _ => Some 7%nat)) (fun _ => [1; 0]%nat) find 2 tets tet_dofs 1 2 (length [q0; qz 3; qz 5; q0; q0]) edge_12 = Ok A /\
  vnth (mv A [q0; qz 3; qz 5; q0; q0]) 0 = value_at hat [q0; qz 3; qz 5; q0; q0] (20, 0, 0) 0 /\ vnth (mv A [q0; qz 3; qz 5; q0; q0]) 1 = qz 5.
Proof.
  destruct (C83_embedded point (fun _ => Some 7%nat) (fun _ => [1; 0]%nat) find 2 tets tet_dofs 1 in_tet hat edge_12 tets_continuous) with (m := 2%nat) (u := [q0; qz 3; qz 5; q0; q0]) as [A [E H]].
  - intros c c' r r' x x' s s' Hc Hc' Hr Hr' Hs Hs' Er. assert (r = r')%nat as <- by lia. split; auto.
    destruct Hc as [<- | []], Hc' as [<- | []]; cbn in Hr, Hr'; destruct Hr as [Hr | [Hr | []]], Hr' as [Hr' | [Hr' | []]]; congruence.
  - intros c [<- | []]. exists 7%nat. split; [reflexivity |]. split; [discriminate |]. intros t r x Ht Hr.
    destruct Ht as [<- | [<- | []]], Hr as [Hr | [Hr | []]]; injection Hr as <- <-; cbn; repeat constructor; lia.
  - exists A. split; [exact E |]. split.
    + apply (H (0%nat, [(0%nat, (20, 0, 0)); (1%nat, (0, 20, 0))]) 0%nat (20, 0, 0) 0%nat); cbn; auto; lia.
    + pose proof (H (0%nat, [(0%nat, (20, 0, 0)); (1%nat, (0, 20, 0))]) 1%nat (0, 20, 0) 0%nat) as H1. cbn [Nat.add] in H1. rewrite H1; cbn [In snd edge_12]; auto; try lia.
Qed.

Print Assumptions C83_trace_partial.
Print Assumptions C83_outside.
Print Assumptions C83_embedded.
Print Assumptions C83_unmapped.
Print Assumptions C83_lines_refuted.
