(** C81: evaluators of degrees of freedom and basis functions *)
From Verif Require Import Base BaseProofs Mat FemEvalModel FemEvalProofs.
From Coq Require Import List ZArith Lia Bool.
Import ListNotations.
Local Open Scope Z_scope.

(** After any calls of setters and methods, also with wrong arguments: eval_dofs has the
    degrees of freedom of the function on the cell that was set last *)
Theorem C81_dofs : forall F X (V : space F X) st ops f, new V = Ok st ->
  let c := the_cell V ops in
  snd (step V (fst (run V st ops)) (EvalDofs f)) = Array (New (s_evaluate_dofs V f (s_coordinates V c) (side V c) c)).
Proof.
  intros F X V st ops f H c.
  assert (Hn : (0 < s_ncells V)%nat). { unfold new, get_cell in H. destruct (Nat.ltb_spec 0 (s_ncells V)); auto. discriminate. }
  destruct (new_ok V Hn) as [st' [E Hst]]. rewrite H in E. injection E as <-. destruct (run_at V ops st 0%nat 0 Hst) as [H1 [H2 [H3 H4]]].
  cbn [step snd]. unfold eval_dofs. rewrite H1, H2, H3. reflexivity.
Qed.
(** eval has that which was set last, if it is one *)
Theorem C81_dof : forall F X (V : space F X) st ops f, new V = Ok st ->
  (forall f x o c, length (s_evaluate_dofs V f x o c) = s_dim V) -> 0 <= the_dof V ops ->
  let c := the_cell V ops in
  (s_dim V <> 0)%nat -> exists q, nth_error (s_evaluate_dofs V f (s_coordinates V c) (side V c) c) (Z.to_nat (the_dof V ops)) = Some q /\
  snd (step V (fst (run V st ops)) (Eval f)) = Number q.
Proof.
  intros F X V st ops f H Hl Hd c Hdim.
  assert (Hn : (0 < s_ncells V)%nat). { unfold new, get_cell in H. destruct (Nat.ltb_spec 0 (s_ncells V)); auto. discriminate. }
  destruct (new_ok V Hn) as [st' [E Hst]]. rewrite H in E. injection E as <-. destruct (run_at V ops st 0%nat 0 Hst) as [H1 [H2 [H3 H4]]].
  assert (Hlt : the_dof V ops < Z.of_nat (s_dim V)).
  { unfold the_dof. assert (G : forall ops d, d < Z.of_nat (s_dim V) -> set_last (dof_set V) d ops < Z.of_nat (s_dim V)).
    { clear. induction ops as [| o ops IH]; intros d Hd; [exact Hd |]. unfold set_last. cbn [fold_left]. apply IH. destruct o; cbn [dof_set]; auto.
      destruct (Z.ltb_spec value (Z.of_nat (s_dim V))); auto. }
    apply G. lia. }
  cbn [step snd]. unfold eval. rewrite H1, H2, H3, H4. fold (the_cell V ops) (the_dof V ops). fold c. set (l := s_evaluate_dofs V f (s_coordinates V c) (side V c) c).
  assert (Ll : length l = s_dim V) by apply Hl. destruct (nth_error l (Z.to_nat (the_dof V ops))) as [q |] eqn:Eq; [| apply nth_error_None in Eq; lia].
  exists q. split; auto. unfold item. rewrite Ll. replace (0 <=? the_dof V ops) with true by (symmetry; apply Z.leb_le; auto).
  replace (the_dof V ops <? Z.of_nat (s_dim V)) with true by (symmetry; apply Z.ltb_lt; auto). cbn [andb]. rewrite Eq. reflexivity.
Qed.
(** A call of a basis function has the values of the basis function of the degree of
    freedom and cell that were set last *)
Theorem C81_basis : forall F X (V : space F X) st ops x, new V = Ok st ->
  let c := the_cell V ops in
  snd (step V (fst (run V st ops)) (Call x)) = Array (New (s_evaluate_basis V (the_dof V ops) x (s_coordinates V c) (side V c))).
Proof.
  intros F X V st ops x H c.
  assert (Hn : (0 < s_ncells V)%nat). { unfold new, get_cell in H. destruct (Nat.ltb_spec 0 (s_ncells V)); auto. discriminate. }
  destruct (new_ok V Hn) as [st' [E Hst]]. rewrite H in E. injection E as <-. destruct (run_at V ops st 0%nat 0 Hst) as [H1 [H2 [H3 H4]]].
  cbn [step snd call e_values]. unfold eval_cell. rewrite H2, H3, H4. reflexivity.
Qed.
(** It can be made for every mesh with cells, of any dimension, curves in space too *)
Theorem C81_new : forall F X (V : space F X), (exists st, new V = Ok st) <-> (0 < s_ncells V)%nat.
Proof.
  intros F X V. split.
  - intros [st H]. unfold new, get_cell in H. destruct (Nat.ltb_spec 0 (s_ncells V)); auto. discriminate.
  - intros H. destruct (new_ok V H) as [st [E _]]. exists st; auto.
Qed.
(** Arguments that can not be set raise and change nothing *)
Theorem C81_rejected : forall F X (V : space F X) st,
  (forall d, Z.of_nat (s_dim V) <= d -> step V st (SetDof d) = (st, Raised AssertionError)) /\
  (forall c, (s_ncells V <= c)%nat -> step V st (SetCell c) = (st, Raised RuntimeError)) /\
  (forall d, d < Z.of_nat (s_dim V) -> snd (step V st (SetDof d)) = Done) /\
  forall c, (c < s_ncells V)%nat -> snd (step V st (SetCell c)) = Done.
Proof.
  intros F X V st. split; [| split; [| split]].
  - intros d H. cbn [step]. unfold set_dof. replace (d <? Z.of_nat (s_dim V)) with false by (symmetry; apply Z.ltb_ge; auto). reflexivity.
  - intros c H. cbn [step]. unfold set_cell, get_cell. replace (c <? s_ncells V)%nat with false by (symmetry; apply Nat.ltb_ge; auto). reflexivity.
  - intros d H. cbn [step]. unfold set_dof. replace (d <? Z.of_nat (s_dim V)) with true by (symmetry; apply Z.ltb_lt; auto). reflexivity.
  - intros c H. cbn [step]. unfold set_cell, get_cell. replace (c <? s_ncells V)%nat with true by (symmetry; apply Nat.ltb_lt; auto). rewrite orient_ok. reflexivity.
Qed.
(** Arrays that were returned do not change with later calls *)
Theorem C81_kept : forall F X (V : space F X) st ops ops' i a, nth_error (snd (run V st ops)) i = Some (Array a) ->
  look (fst (run V st (ops ++ ops'))) a = look (fst (run V st ops)) a /\ nth_error (snd (run V st (ops ++ ops'))) i = Some (Array a).
Proof.
  intros F X V st ops ops' i a H. destruct (run_app V ops ops' st) as [E1 E2]. rewrite E2. split.
  - pose proof (run_new V ops st) as N. rewrite Forall_forall in N. specialize (N _ (nth_error_In _ _ H)). destruct a as [| v]; [congruence | reflexivity].
  - rewrite nth_error_app1; auto. apply nth_error_Some. congruence.
Qed.
(** A degree of freedom of a space on a basis function of the space on the same cell is one
    if they are of one number and zero otherwise, if that is so of the element *)
Theorem C81_dual : forall X (V : space (X -> list Qc) X) st st' ops ops', new V = Ok st -> new V = Ok st' ->
  (forall j c, (j < s_dim V)%nat -> (c < s_ncells V)%nat ->
     s_evaluate_dofs V (fun x => s_evaluate_basis V (Z.of_nat j) x (s_coordinates V c) (side V c)) (s_coordinates V c) (side V c) c =
     map (fun i => if (i =? j)%nat then q1 else q0) (seq 0 (s_dim V))) ->
  (0 < s_dim V)%nat -> 0 <= the_dof V ops -> 0 <= the_dof V ops' -> the_cell V ops = the_cell V ops' ->
  let basis := fun x => eval_cell V (fst (run V st' ops')) x in
  snd (step V (fst (run V st ops)) (Eval basis)) = Number (if the_dof V ops =? the_dof V ops' then q1 else q0).
Proof.
  intros X V st st' ops ops' H H' Hdual Hdim Hd Hd' Hc basis.
  assert (Hn : (0 < s_ncells V)%nat). { unfold new, get_cell in H. destruct (Nat.ltb_spec 0 (s_ncells V)); auto. discriminate. }
  destruct (new_ok V Hn) as [st1 [E Hst]]. rewrite H in E. injection E as <-. rewrite H in H'. injection H' as <-.
  destruct (run_at V ops st 0%nat 0 Hst) as [H1 [H2 [H3 H4]]]. destruct (run_at V ops' st 0%nat 0 Hst) as [K1 [K2 [K3 K4]]].
  fold (the_cell V ops) (the_dof V ops) in *. fold (the_cell V ops') (the_dof V ops') in *.
  assert (Hlt : forall o, the_dof V o < Z.of_nat (s_dim V)).
  { intros o. unfold the_dof. assert (G : forall ops d, d < Z.of_nat (s_dim V) -> set_last (dof_set V) d ops < Z.of_nat (s_dim V)).
    { clear. induction ops as [| o ops IH]; intros d Hd; [exact Hd |]. unfold set_last. cbn [fold_left]. apply IH. destruct o; cbn [dof_set]; auto.
      destruct (Z.ltb_spec value (Z.of_nat (s_dim V))); auto. }
    apply G. lia. }
  assert (Hcell : forall o, (the_cell V o < s_ncells V)%nat).
  { intros o. unfold the_cell. assert (G : forall ops c, (c < s_ncells V)%nat -> (set_last (cell_set V) c ops < s_ncells V)%nat).
    { clear. induction ops as [| o ops IH]; intros d Hd; [exact Hd |]. unfold set_last. cbn [fold_left]. apply IH. destruct o; cbn [cell_set]; auto.
      destruct (Nat.ltb_spec value (s_ncells V)); auto. }
    apply G. lia. }
  cbn [step snd]. unfold eval. rewrite H1, H2, H3, H4. unfold basis, eval_cell. rewrite K2, K3, K4, <- Hc.
  specialize (Hdual (Z.to_nat (the_dof V ops')) (the_cell V ops)). rewrite Z2Nat.id in Hdual by auto.
  rewrite Hdual; [| pose proof (Hlt ops'); lia | apply Hcell]. pose proof (Hlt ops) as L. unfold item. rewrite map_length, seq_length.
  replace (0 <=? the_dof V ops) with true by (symmetry; apply Z.leb_le; auto).
  replace (the_dof V ops <? Z.of_nat (s_dim V)) with true by (symmetry; apply Z.ltb_lt; auto). cbn [andb].
  rewrite nth_error_map, (nth_error_nth' _ 0%nat) by (rewrite seq_length; lia). rewrite seq_nth by lia. cbn [option_map opt_res Nat.add].
  destruct (Z.eqb_spec (the_dof V ops) (the_dof V ops')) as [-> | Hne]; [rewrite Nat.eqb_refl; reflexivity |].
  replace (Z.to_nat (the_dof V ops) =? Z.to_nat (the_dof V ops'))%nat with false; [reflexivity |]. symmetry. apply Nat.eqb_neq. lia.
Qed.

(** An element on two intervals: values at the ends *)
Definition hat (x : list Qc) (o : nat) (j : Z) (y : Qc) : Qc :=
  let a := nth 0 x q0 in let b := nth 1 x q0 in
  if j =? 0 then ((b - y) / (b - a))%Qc else ((y - a) / (b - a))%Qc.
Definition P1 : space (Qc -> list Qc) Qc :=
  Space 1 1 2 (fun c => [qz (Z.of_nat c); qz (Z.of_nat c + 1)]) (fun _ => 0%nat) 2 1
        (fun f x _ _ => map (fun y => nth 0 (f y) q0) x) (fun j y x o => [hat x o j y]).
Definition start : state := State 0 [qz 0; qz 1] 0 0 [q0].
Definition calls : list (op (Qc -> list Qc) Qc) := [SetCell 1; SetDof 7; SetDof 1; SetCell 5; Call (qz 2)].
Example case_P1 : new P1 = Ok start /\ the_cell P1 calls = 1%nat /\ the_dof P1 calls = 1 /\
  (forall j c, (j < 2)%nat -> (c < 2)%nat ->
     s_evaluate_dofs P1 (fun x => s_evaluate_basis P1 (Z.of_nat j) x (s_coordinates P1 c) (side P1 c)) (s_coordinates P1 c) (side P1 c) c =
     map (fun i => if (i =? j)%nat then q1 else q0) (seq 0 (s_dim P1))).
Proof.
  split; [reflexivity | split; [reflexivity | split; [reflexivity |]]].
  intros [| [| j]] [| [| c]] Hj Hc; try lia; cbn [P1 s_evaluate_dofs s_evaluate_basis s_coordinates map seq s_dim nth]; f_equal; try f_equal; apply Qc_is_canon; vm_compute; reflexivity.
Qed.
(** False: a number that is not one of a degree of freedom is rejected.  Negative ones are
    accepted and count from the end *)
Theorem C81_negative : forall F X (V : space F X) st k l f, length l = s_dim V ->
  s_evaluate_dofs V f (e_vertex_x st) (e_orientation st) (e_cell st) = l -> (0 < k <= s_dim V)%nat ->
  exists q, nth_error l (s_dim V - k) = Some q /\ snd (step V (fst (step V st (SetDof (- Z.of_nat k)))) (Eval f)) = Number q.
Proof.
  intros F X V st k l f Hl E Hk. destruct (nth_error l (s_dim V - k)) as [q |] eqn:Eq; [| apply nth_error_None in Eq; lia].
  exists q. split; auto. cbn [step fst snd]. unfold set_dof. replace (- Z.of_nat k <? Z.of_nat (s_dim V)) with true by (symmetry; apply Z.ltb_lt; lia).
  cbn [fst]. unfold eval. cbn [e_vertex_x e_orientation e_cell e_dof]. rewrite E. unfold item. rewrite Hl.
  replace (0 <=? - Z.of_nat k) with false by (symmetry; apply Z.leb_gt; lia). cbn [andb].
  replace (- Z.of_nat k <? 0) with true by (symmetry; apply Z.ltb_lt; lia).
  replace (- Z.of_nat (s_dim V) <=? - Z.of_nat k) with true by (symmetry; apply Z.leb_le; lia). cbn [andb].
  replace (Z.to_nat (- Z.of_nat k + Z.of_nat (s_dim V))) with (s_dim V - k)%nat by lia. rewrite Eq. reflexivity.
Qed.
Theorem C81_range_refuted : exists (V : space (Qc -> list Qc) Qc) st d, new V = Ok st /\ d < 0 /\ snd (step V st (SetDof d)) = Done /\
  (forall f, exists q, snd (step V (fst (step V st (SetDof d))) (Eval f)) = Number q).
Proof.
  exists P1, start, (-1). split; [reflexivity | split; [lia | split; [reflexivity |]]]. intros f. eexists. reflexivity.
Qed.

Print Assumptions C81_dofs.
Print Assumptions C81_dof.
Print Assumptions C81_basis.
Print Assumptions C81_new.
Print Assumptions C81_rejected.
Print Assumptions C81_kept.
Print Assumptions C81_dual.
Print Assumptions C81_negative.
Print Assumptions C81_range_refuted.
