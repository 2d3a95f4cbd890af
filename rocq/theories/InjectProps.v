(** C82: the injection matrix by lookup interpolates coarse functions *)
From Coq Require Import Lia Permutation.
From Verif Require Import Base BaseProofs Mat MatProofs InjectModel InjectProofs.
Local Open Scope nat_scope.

(** False: line 88 uses mat before it has a value, whatever the spaces *)
Theorem C82_raises_refuted : forall V d ds, v_items V <> [] -> Permutation (map fst (v_items V)) (seq 0 (length (v_items V))) ->
  v_dofs V 0 = d :: ds -> d < v_dim V -> lookup_matrix V true = Err UnboundLocalError.
Proof.
  intros V d ds Hne Hp Hd Hlt. unfold lookup_matrix. destruct (fine_to_coarse_nth (v_items V) Hne Hp) as [r [-> [Lr _]]]. cbn [bind].
  destruct r as [| c r]; [destruct (v_items V); [congruence | discriminate] |]. cbn [fill_cells]. rewrite Hd. cbn [fill_rows fst].
  rewrite (nth_error_nth' _ false) by (rewrite repeat_length; auto). rewrite nth_repeat. reflexivity.
Qed.

Section LineLeftOut.
Variable V : pair_of_spaces.
Variable parents : list nat.
Hypothesis items : v_items V = combine (seq 0 (length parents)) parents.
Hypothesis some : parents <> [].
Hypothesis dofs : forall f i, f < length parents -> In i (v_dofs V f) -> i < v_dim V.
Hypothesis dofs_c : forall c j, In c parents -> In j (v_dofs_c V c) -> j < v_dim_c V.
Hypothesis covered : forall i, i < v_dim V -> exists f l c, is_dof V parents i f l c.

(** Without line 88, and the dictionary in the order of cells: row [i] times [w] is a
    degree of freedom [i] of the function with coefficients [w] *)
Theorem C82_interpolates_partial : exists t, lookup_matrix V false = Ok t /\
  forall i, i < v_dim V -> exists f l c, is_dof V parents i f l c /\ forall w, product (v_dim_c V) (entry t) w i = dof_of V w f l c.
Proof.
  unfold lookup_matrix. rewrite items, fine_to_coarse_in_order by exact some. cbn [bind].
  destruct (fill_cells_ok V parents parents 0 (repeat false (v_dim V), [])) as [st [-> [[Hl [_ Hy]] [A _]]]].
  - unfold rows_right. cbn [fst snd]. rewrite repeat_length. split; auto. split; [intros i _ x [] |].
    intros i Hi. exfalso. apply nth_error_In, repeat_spec in Hi. discriminate.
  - auto.
  - intros f i Hf Hi. apply (dofs f); auto.
  - exact dofs_c.
  - exists (snd st). split; [reflexivity |]. intros i Hi. apply Hy. destruct (covered i Hi) as [f [l [c [H1 H2]]]].
    apply (A f i). { apply nth_error_Some. congruence. } apply nth_error_In in H2. exact H2.
Qed.

(** If the degrees of freedom do not depend on the cell from which they are taken, as for
    nested spaces: the row is that of any cell *)
Theorem C82_any_cell_partial :
  (forall i f l c f' l' c' w, is_dof V parents i f l c -> is_dof V parents i f' l' c' -> dof_of V w f l c = dof_of V w f' l' c') ->
  exists t, lookup_matrix V false = Ok t /\
  forall i f l c w, is_dof V parents i f l c -> product (v_dim_c V) (entry t) w i = dof_of V w f l c.
Proof.
  intros same. destruct C82_interpolates_partial as [t [E H]]. exists t. split; auto. intros i f l c w Hi.
  assert (Hlt : i < v_dim V). { destruct Hi as [H1 H2]. apply (dofs f). { apply nth_error_Some. congruence. } apply nth_error_In in H2. exact H2. }
  destruct (H i Hlt) as [f' [l' [c' [Hi' H']]]]. rewrite H'. apply (same i); auto.
Qed.
End LineLeftOut.

(** The version of the sandbox, with the array of parents and values inserted: the rows are degrees of
    freedom of the function with coefficients w *)
Theorem C82_sandbox : forall V parents, (forall f i, f < length parents -> In i (v_dofs V f) -> i < v_dim V) ->
  (forall c j, In c parents -> In j (v_dofs_c V c) -> j < v_dim_c V) -> (forall c, In c parents -> NoDup (v_dofs_c V c)) ->
  (forall i, i < v_dim V -> exists f l c, is_dof V parents i f l c) ->
  exists t, sandbox_matrix V true true true parents = Ok t /\
  forall i, i < v_dim V -> exists f l c, is_dof V parents i f l c /\ forall w, product (v_dim_c V) (inserted t) w i = dof_of V w f l c.
Proof.
  intros V parents dofs dofs_c nodup covered. unfold sandbox_matrix. cbn [py_assert bind andb].
  destruct (fill_cells_ok V parents parents 0 (repeat false (v_dim V), [])) as [st [E [[Hl [_ Hy]] [A _]]]].
  - unfold rows_right. cbn [fst snd]. rewrite repeat_length. split; auto. split; [intros i _ x [] |].
    intros i Hi. exfalso. apply nth_error_In, repeat_spec in Hi. discriminate.
  - auto.
  - intros f i Hf Hi. apply (dofs f); auto.
  - exact dofs_c.
  - rewrite E. cbn [bind]. exists (snd st). split; [reflexivity |]. intros i Hi.
    assert (ON : NoDup (map fst (snd st))).
    { eapply fill_cells_once; [exact nodup | | exact E]. split; [constructor | intros x []]. }
    destruct (Hy i) as (f & l & c & H1 & H2).
    { destruct (covered i Hi) as [f [l [c [H1 H2]]]]. apply (A f i). { apply nth_error_Some. congruence. } apply nth_error_In in H2. exact H2. }
    exists f, l, c. split; auto. intros w. rewrite <- H2. unfold product. apply sumn_ext. intros j _. rewrite inserted_entry; auto.
Qed.
(** It asks for the fine mesh to be a refinement of the coarse *)
Theorem C82_sandbox_parent : forall V p c s parents t, sandbox_matrix V p c s parents = Ok t -> p = true /\ c = true /\ s = true.
Proof. intros V [] [] [] parents t E; try discriminate; auto. Qed.

(** Line 46 puts the values of the dictionary in the order of their keys exactly if the
    order of keys is its own inverse *)
Theorem C82_order_partial : forall keys, keys <> [] -> Permutation keys (seq 0 (length keys)) ->
  (forall values, length values = length keys -> exists r, fine_to_coarse (combine keys values) = Ok r /\
     forall k c, In (k, c) (combine keys values) -> nth_error r k = Some c) <->
  (forall i k, nth_error keys i = Some k -> nth_error keys k = Some i).
Proof.
  intros keys Hne Hp.
  assert (Hf : forall values : list nat, length values = length keys -> map fst (combine keys values) = keys).
  { clear. induction keys as [| x keys IH]; intros [| v values] H; try discriminate; cbn; auto. f_equal. apply IH. injection H as H. auto. }
  assert (Hs : forall values : list nat, length values = length keys -> map snd (combine keys values) = values).
  { clear. induction keys as [| x keys IH]; intros [| v values] H; try discriminate; cbn; auto. f_equal. apply IH. injection H as H. auto. }
  assert (Hl : forall values : list nat, length values = length keys -> length (combine keys values) = length keys) by (intros values H; rewrite combine_length; lia).
  assert (Hr : forall values : list nat, length values = length keys -> exists r, fine_to_coarse (combine keys values) = Ok r /\
     forall i k c, nth_error keys i = Some k -> nth_error values k = Some c -> nth_error r i = Some c).
  { intros values H. destruct (fine_to_coarse_nth (combine keys values)) as [r [E [_ R]]].
    - intros E. apply (f_equal (@length _)) in E. rewrite Hl in E by auto. destruct keys; [congruence | discriminate].
    - rewrite Hf, Hl; auto.
    - exists r. split; auto. rewrite Hf, Hs in R by auto. exact R. }
  assert (Hin : forall i k, nth_error keys i = Some k -> i < length keys /\ k < length keys).
  { intros i k H. split; [apply nth_error_Some; congruence |]. apply nth_error_In in H. apply (Permutation_in _ Hp), in_seq in H. lia. }
  split.
  - intros H i k Hi. destruct (Hin i k Hi) as [Li Lk]. specialize (H (seq 0 (length keys)) (seq_length _ _)). specialize (Hr (seq 0 (length keys)) (seq_length _ _)).
    destruct H as [r [E H]]. destruct Hr as [r' [E' R]]. rewrite E in E'. injection E' as <-.
    specialize (H k i (combine_seq_nth keys i k Hi)). destruct (nth_error keys k) as [k' |] eqn:Ek; [| apply nth_error_None in Ek; lia].
    destruct (Hin k k' Ek) as [_ Lk']. assert (R' : nth_error r k = Some k'). { apply (R k k'); auto. rewrite (nth_error_nth' _ 0) by (rewrite seq_length; auto). rewrite seq_nth; auto. }
    congruence.
  - intros H values Hv. destruct (Hr values Hv) as [r [E R]]. exists r. split; auto. intros k c Hkc. apply In_nth_error in Hkc. destruct Hkc as [i Hi].
    apply (R k i c).
    + apply H. rewrite <- (Hf values Hv), nth_error_map, Hi. reflexivity.
    + rewrite <- (Hs values Hv), nth_error_map, Hi. reflexivity.
Qed.
(** not for keys 1, 2, 0 *)
Theorem C82_order_refuted : exists items, Permutation (map fst items) (seq 0 (length items)) /\
  exists r k c, fine_to_coarse items = Ok r /\ In (k, c) items /\ nth_error r k <> Some c.
Proof.
  exists [(1, 10); (2, 20); (0, 30)]. split.
  - cbn. apply perm_trans with [1; 0; 2]; [apply perm_skip, perm_swap | apply perm_swap].
  - exists [20; 30; 10], 1, 10. split; [reflexivity |]. split; [left; reflexivity | discriminate].
Qed.

(** The interval (0, 1) and its halves, P1 *)
Definition halves : pair_of_spaces :=
  Pair [(0, 0); (1, 0)] 3 2 (fun f => [f; S f]) (fun _ => [0; 1])
    (fun f l _ k => let x := (qz (Z.of_nat (f + l)) / qz 2)%Qc in if k =? 0 then (q1 - x)%Qc else x).
Example case_halves : exists t, lookup_matrix halves false = Ok t /\ product 2 (entry t) (fun j => qz (Z.of_nat j)) 1 = (q1 / qz 2)%Qc /\
  lookup_matrix halves true = Err UnboundLocalError.
Proof.
  eexists. split; [reflexivity |]. split; [apply Qc_is_canon; vm_compute; reflexivity | reflexivity].
Qed.
Example case_sandbox : exists t, sandbox_matrix halves true true true [0; 0] = Ok t /\ product 2 (inserted t) (fun j => qz (Z.of_nat j)) 1 = (q1 / qz 2)%Qc.
Proof. eexists. split; [reflexivity |]. apply Qc_is_canon; vm_compute; reflexivity. Qed.
Example case_hypotheses : v_items halves = combine (seq 0 (length [0; 0])) [0; 0] /\
  (forall i, i < v_dim halves -> exists f l c, is_dof halves [0; 0] i f l c) /\
  (forall i f l c f' l' c' w, is_dof halves [0; 0] i f l c -> is_dof halves [0; 0] i f' l' c' -> dof_of halves w f l c = dof_of halves w f' l' c').
Proof.
  split; [reflexivity |]. split.
  - intros [| [| [| i]]] Hi; [exists 0, 0, 0 | exists 0, 1, 0 | exists 1, 1, 0 | cbn in Hi; lia]; split; reflexivity.
  - assert (G : forall i f l c, is_dof halves [0; 0] i f l c -> c = 0 /\ f + l = i).
    { intros i f l c [H1 H2]. cbn in H2. destruct f as [| [| f]]; cbn in H1; try (destruct f; discriminate); injection H1 as <-;
      (destruct l as [| [| l]]; cbn in H2; [injection H2 as <- | injection H2 as <- | destruct l; discriminate]); auto. }
    intros i f l c f' l' c' w H H'. destruct (G _ _ _ _ H) as [-> E]. destruct (G _ _ _ _ H') as [-> E'].
    unfold dof_of. cbn [v_value halves]. rewrite E, E'. reflexivity.
Qed.

Print Assumptions C82_raises_refuted.
Print Assumptions C82_interpolates_partial.
Print Assumptions C82_any_cell_partial.
Print Assumptions C82_sandbox.
Print Assumptions C82_sandbox_parent.
Print Assumptions C82_order_partial.
Print Assumptions C82_order_refuted.
