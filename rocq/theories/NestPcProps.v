(** Field split preconditioners (property C68) *)
From Coq Require Import Sorting.Sorted.
From Verif Require Import BlockUtilsProofs BaseProofs MatProofs ConvertProofs ConvertActionProofs NestPcModel NestPcProofs.
Local Close Scope Q_scope.
Local Close Scope Qc_scope.
Local Open Scope nat_scope.

Lemma sets_agree sets : forallb (fun p => same_set (fst p) (snd p)) (combine sets sets) = true.
Proof.
  apply forallb_forall. intros [a b] I. cbn [fst snd]. assert (a = b). { revert I. induction sets as [|s l IH]; intros I; [destruct I|]. cbn [combine] in I. destruct I as [E|I]; [congruence|apply IH, I]. } subst. unfold same_set. destruct (list_eq_dec Nat.eq_dec (np_unique b) (np_unique b)); congruence.
Qed.
Lemma sum_to_mono sizes a b : a <= b -> b <= length sizes -> sum_to sizes a <= sum_to sizes b.
Proof. intros H Hb. induction H as [|b H IH]; [lia|]. rewrite sum_to_S by lia. specialize (IH ltac:(lia)). lia. Qed.
Lemma sum_to_all sizes : sum_to sizes (length sizes) = list_sum sizes.
Proof. unfold sum_to. rewrite firstn_all. reflexivity. Qed.

(** The groups of a reduction with offsets [o]: the fields are all rows, in order, without repetition,
    and the field of group [k] has the entries of the blocks of that group, in order *)
Theorem C68_fields : forall o n sizes inner,
  valid_offsets o n -> (0 < hd 0 o)%Z -> length sizes = n -> n <> 1 -> diagonal_blocks (length o) inner ->
  exists fields sets diagonal, pc_nest (BMul true (0%Z :: o) inner) (nest_sets sizes) (nest_sets sizes) = Ok (Split fields sets diagonal) /\
    length fields = length o /\ length sets = length o /\ length diagonal = length o /\ concat fields = seq 0 (list_sum sizes) /\
    (forall xs k, map (@length Qc) xs = sizes -> k < length o -> gather (concat xs) (nth k fields []) = concat (seg xs (low o k) (nth k o 0%Z))) /\
    forall k, k < length o -> pc_mat (nth k (nth k inner []) PZero) = Ok (nth k sets (Composite []), nth k diagonal (mid 0)).
Proof.
  intros o n sizes inner V H0 L N1 D. unfold pc_nest. rewrite Nat.eqb_refl. cbn [py_assert bind]. rewrite sets_agree. cbn [py_assert bind]. replace (length (nest_sets sizes) =? 1) with false by (unfold nest_sets; rewrite map_length, seq_length; symmetry; apply Nat.eqb_neq; congruence).
  rewrite (fields_spec o n sizes V H0 L). cbn [bind]. set (f := fun k => sum_to sizes (Z.to_nat (nth k (0%Z :: o) 0%Z))). set (fields := map _ (seq 0 (length o))). assert (F : fields = map (fun k => seq (f k) (f (S k) - f k)) (seq 0 (length o))) by reflexivity. clearbody fields. assert (Lf : length fields = length o) by (rewrite F, map_length, seq_length; reflexivity).
  destruct (proj2 (split_spec fields inner)) as [out SF]; [rewrite Lf; exact D|]. destruct (split_values _ _ _ SF) as [sets [diagonal [-> [L1 [L2 P]]]]]. rewrite Lf in L1, L2, P. exists fields, sets, diagonal. rewrite SF. split; [reflexivity|]. split; [exact Lf|]. split; [exact L1|]. split; [exact L2|].
  assert (B : forall k, k < length o -> (0 <= low o k < nth k o 0)%Z /\ (nth k o 0 <= Z.of_nat n)%Z) by (intros k Hk; exact (low_bounds o n k V H0 Hk)). split; [|split; [|exact P]].
  - rewrite F, fields_cover.
    + assert (T : f (length o) = list_sum sizes). { destruct V as [VN [_ VL]]. unfold f. destruct o as [|x o]; [congruence|]. cbn [length nth]. rewrite <- (sum_to_all sizes). f_equal. assert (Q : nth (length o) (x :: o) 0%Z = last (x :: o) 0%Z). { clear. revert x. induction o as [|y o IH]; intros x; [reflexivity|]. cbn [length nth]. exact (IH y). } cbn [nth] in Q. rewrite Q, VL, Nat2Z.id. congruence. }
      rewrite T. replace (f 0) with 0 by reflexivity. rewrite Nat.sub_0_r. reflexivity.
    + intros k Hk. destruct (B k Hk) as [B1 B2]. unfold f. unfold low in B1. change (nth (S k) (0%Z :: o) 0%Z) with (nth k o 0%Z). apply sum_to_mono; lia.
  - intros xs k X Hk. destruct (B k Hk) as [B1 B2]. assert (Lx : length xs = n) by (rewrite <- L, <- X, map_length; reflexivity). rewrite F, (nth_map_seq _ _ _ _ Hk). unfold f. fold (low o k). change (nth (S k) (0%Z :: o) 0%Z) with (nth k o 0%Z). rewrite <- X. apply gather_group; lia.
Qed.
(** The additive field split does Rt*inner*R: each diagonal block acts on the blocks of its group *)
Theorem C68_action : forall means solve o n sizes inner fields sets diagonal xs y,
  agree means solve -> valid_offsets o n -> (0 < hd 0 o)%Z -> length sizes = n -> n <> 1 ->
  pc_nest (BMul true (0%Z :: o) inner) (nest_sets sizes) (nest_sets sizes) = Ok (Split fields sets diagonal) ->
  map (@length Qc) xs = sizes ->
  additive fields (fun k => set_action solve (nth k sets (Composite [])) (nth k diagonal (mid 0))) (concat xs) y ->
  y = concat (map (fun k => block_action means (nth k (nth k inner []) PZero) (concat (seg xs (low o k) (nth k o 0%Z)))) (seq 0 (length o))).
Proof.
  intros means solve o n sizes inner fields sets diagonal xs y G V H0 L N1 H X [Ly A].
  assert (D : diagonal_blocks (length o) inner).
  { unfold pc_nest in H. rewrite Nat.eqb_refl in H. cbn [py_assert bind] in H. rewrite sets_agree in H. cbn [py_assert bind] in H. replace (length (nest_sets sizes) =? 1) with false in H by (unfold nest_sets; rewrite map_length, seq_length; symmetry; apply Nat.eqb_neq; congruence). rewrite (fields_spec o n sizes V H0 L) in H. cbn [bind] in H. set (fs := map _ (seq 0 (length o))) in H. replace (length o) with (length fs) by (unfold fs; rewrite map_length, seq_length; reflexivity). apply split_spec. eexists. exact H. }
  destruct (C68_fields o n sizes inner V H0 L N1 D) as [fs [ss [ds [E [L1 [L2 [L3 [C [Ga P]]]]]]]]]. rewrite H in E. injection E as <- <- <-.
  assert (Lc : length (concat xs) = list_sum sizes). { rewrite <- X. clear. induction xs as [|x xs IH]; [reflexivity|]. cbn [concat map]. rewrite app_length, IH. reflexivity. }
  rewrite <- (gather_all y), Ly, Lc, <- C, <- gather_concat. f_equal. rewrite <- L1. apply (nth_ext _ _ (gather y []) []).
  { rewrite !map_length, seq_length. reflexivity. }
  intros k Hk. rewrite map_length in Hk. rewrite (map_nth (gather y)), (nth_map_seq _ _ _ _ Hk), (A k Hk). rewrite L1 in Hk. rewrite (Ga xs k X Hk). apply pc_mat_action; [exact G|apply P, Hk].
Qed.
(** Without a reduction each block has its own rows *)
Theorem C68_blocks : forall means solve sizes blocks,
  agree means solve -> length sizes <> 1 -> diagonal_blocks (length sizes) blocks ->
  exists sets diagonal, pc_nest (BMat blocks) (nest_sets sizes) (nest_sets sizes) = Ok (Split (nest_sets sizes) sets diagonal) /\
    forall xs y, map (@length Qc) xs = sizes ->
      additive (nest_sets sizes) (fun k => set_action solve (nth k sets (Composite [])) (nth k diagonal (mid 0))) (concat xs) y ->
      y = concat (map (fun k => block_action means (nth k (nth k blocks []) PZero) (nth k xs [])) (seq 0 (length sizes))).
Proof.
  intros means solve sizes blocks G N1 D. set (n := length sizes) in *. assert (Ln : length (nest_sets sizes) = n) by (unfold nest_sets; rewrite map_length, seq_length; reflexivity).
  destruct (proj2 (split_spec (nest_sets sizes) blocks)) as [out S]; [rewrite Ln; exact D|]. destruct (split_values _ _ _ S) as [sets [diagonal [-> [L1 [L2 P]]]]]. exists sets, diagonal. split.
  - unfold pc_nest. rewrite Nat.eqb_refl. cbn [py_assert bind]. rewrite sets_agree. cbn [py_assert bind]. rewrite Ln. destruct (Nat.eqb_spec n 1); [congruence|]. exact S.
  - intros xs y X [Ly A]. assert (Lx : length xs = n) by (unfold n; rewrite <- X, map_length; reflexivity).
    assert (Lc : length (concat xs) = list_sum sizes). { rewrite <- X. clear. induction xs as [|x xs IH]; [reflexivity|]. cbn [concat map]. rewrite app_length, IH. reflexivity. }
    assert (C : concat (nest_sets sizes) = seq 0 (list_sum sizes)).
    { unfold nest_sets. rewrite (map_ext_in (rows_of sizes) (fun k => seq (sum_to sizes k) (sum_to sizes (Datatypes.S k) - sum_to sizes k))). - rewrite fields_cover by (intros; apply sum_to_mono; unfold n in *; lia). rewrite sum_to_all. change (sum_to sizes 0) with 0. rewrite Nat.sub_0_r. reflexivity. - intros k K. apply in_seq in K. unfold rows_of. fold (sum_to sizes k). rewrite sum_to_S by (unfold n in *; lia). f_equal. lia. }
    rewrite <- (gather_all y), Ly, Lc, <- C, <- gather_concat. f_equal. apply (nth_ext _ _ (gather y []) []); [rewrite !map_length, seq_length; exact Ln|].
    intros k Hk. rewrite map_length, Ln in Hk. rewrite (map_nth (gather y)), (nth_map_seq _ _ _ _ Hk), A by (rewrite Ln; exact Hk). replace (gather (concat xs) (nth k (nest_sets sizes) [])) with (nth k xs []).
    + apply pc_mat_action; [exact G|apply P; rewrite Ln; exact Hk].
    + unfold nest_sets. rewrite (nth_map_seq _ _ _ _ Hk). unfold rows_of. fold (sum_to sizes k). replace (nth k sizes 0) with (sum_to sizes (Datatypes.S k) - sum_to sizes k) by (rewrite sum_to_S by (unfold n in *; lia); lia). rewrite <- X. rewrite gather_group by lia. replace (Datatypes.S k - k) with 1 by lia. clear - Hk Lx. subst n. rewrite <- Lx in Hk. clear Lx. revert k Hk. induction xs as [|x xs IH]; intros k Hk; [cbn in Hk; lia|]. destruct k as [|k]; [cbn; rewrite app_nil_r; reflexivity|]. cbn [skipn nth]. apply IH. cbn in Hk. lia.
Qed.
(** One block *)
Theorem C68_single : forall means solve size b, agree means solve -> supported b ->
  exists s A, pc_nest (BMat [[b]]) (nest_sets [size]) (nest_sets [size]) = Ok (Single s A) /\ forall x, set_action solve s A x = block_action means b x.
Proof.
  intros means solve size b G U. destruct (proj2 (pc_mat_supported b) U) as [[s A] E]. exists s, A. split; [|intros x; apply (pc_mat_action means solve b); assumption].
  unfold pc_nest. rewrite Nat.eqb_refl. cbn [py_assert bind]. rewrite sets_agree. cbn [py_assert bind]. change (length (nest_sets [size]) =? 1) with true. cbv iota. change (py_get [[b]] 0) with (Ok [b]). cbn [bind]. change (py_get [b] 0) with (Ok b). cbn [bind]. rewrite E. reflexivity.
Qed.
(** The operator that is given to PETSc for a field: the matrix of the preconditioner, the identity for a sum *)
Theorem C68_operators : forall b s A, pc_mat b = Ok (s, A) ->
  (forall c B, b = PPre c B -> A = B) /\ (forall c B d D, b = PAdd (PPre c B) (PPre d D) -> A = mid (nr D)).
Proof.
  intros b s A H. split.
  - intros c B ->. cbn [pc_mat] in H. congruence.
  - intros c B d D ->. cbn [pc_mat is_precond] in H. congruence.
Qed.
(** What is refused: anything that is not a diagonal matrix of supported blocks, one per field *)
Theorem C68_refused : forall o n sizes inner,
  valid_offsets o n -> (0 < hd 0 o)%Z -> length sizes = n -> n <> 1 ->
  (~ diagonal_blocks n inner -> pc_nest (BMat inner) (nest_sets sizes) (nest_sets sizes) = Err AssertionError) /\
  (~ diagonal_blocks (length o) inner -> pc_nest (BMul true (0%Z :: o) inner) (nest_sets sizes) (nest_sets sizes) = Err AssertionError) /\
  pc_nest (BMul false (0%Z :: o) inner) (nest_sets sizes) (nest_sets sizes) = Err AssertionError /\
  pc_nest BMulOther (nest_sets sizes) (nest_sets sizes) = Err ValueError.
Proof.
  intros o n sizes inner V H0 L N1. assert (Ln : length (nest_sets sizes) = n) by (unfold nest_sets; rewrite map_length, seq_length; exact L).
  assert (R : forall fields, ~ diagonal_blocks (length fields) inner -> split_fields fields inner = Err AssertionError).
  { intros fields ND. destruct (split_fields fields inner) as [out|e] eqn:E; [exfalso; apply ND, split_spec; exists out; exact E|]. unfold split_fields in E. destruct (shape_is inner (length fields)); cbn [py_assert bind] in E; [|congruence]. destruct (forallb _ (list_prod _ _)); cbn [py_assert bind] in E; [|congruence]. destruct (mapM _ (seq 0 (length fields))) as [|e'] eqn:M; cbn [bind] in E; [discriminate|]. injection E as <-. apply mapM_err_in in M. destruct M as [k [_ K]]. rewrite pc_mat_error in K; [congruence|]. intros U. apply pc_mat_supported in U. destruct U as [r U]. congruence. }
  unfold pc_nest. rewrite Nat.eqb_refl. cbn [py_assert bind]. rewrite sets_agree. cbn [py_assert bind]. rewrite Ln. destruct (Nat.eqb_spec n 1); [congruence|].
  split; [intros ND; apply R; rewrite Ln; exact ND|]. split; [|split; reflexivity]. intros ND. rewrite (fields_spec o n sizes V H0 L). cbn [bind]. apply R. rewrite map_length, seq_length. exact ND.
Qed.
(** The rows and the columns of the nested matrix have to be the same sets of indices: whatever the
    preconditioner, anything else is refused *)
Theorem C68_index_sets : forall pc isets jsets,
  (length isets <> length jsets \/ exists k i, k < length isets /\ ((In i (nth k isets []) /\ ~ In i (nth k jsets [])) \/ (~ In i (nth k isets []) /\ In i (nth k jsets [])))) ->
  pc_nest pc isets jsets = Err AssertionError.
Proof.
  intros pc isets jsets H. unfold pc_nest. destruct (Nat.eqb_spec (length isets) (length jsets)) as [L|L]; [|reflexivity]. cbn [py_assert bind].
  destruct H as [H|[k [i [Hk H]]]]; [congruence|]. destruct (forallb _ (combine isets jsets)) eqn:F; [exfalso|reflexivity]. rewrite forallb_forall in F.
  assert (I : In (nth k isets [], nth k jsets []) (combine isets jsets)) by (rewrite <- combine_nth by exact L; apply nth_In; rewrite combine_length; lia).
  apply F in I. cbn [fst snd] in I. unfold same_set in I. destruct (list_eq_dec Nat.eq_dec _ _) as [E|]; [|discriminate].
  rewrite <- (EmbedProofs.np_unique_In (nth k isets [])), <- (EmbedProofs.np_unique_In (nth k jsets [])), E in H. tauto.
Qed.
Example C68_index_sets_ex : forall A, pc_nest (BMat [[PPre LU A]]) [[0; 1]] [[0; 2]] = Err AssertionError.
Proof. intros A. apply C68_index_sets. right. exists 0, 1. split; [cbn; lia|]. left. cbn. intuition lia. Qed.
(** Sums are taken apart only once: a sum of three preconditioners is refused *)
Theorem C68_sum_refuted : forall size c A d B e C,
  pc_nest (BMat [[PAdd (PAdd (PPre c A) (PPre d B)) (PPre e C)]]) (nest_sets [size]) (nest_sets [size]) = Err AssertionError /\
  pc_nest (BMat [[PAdd (PPre e C) (PAdd (PPre c A) (PPre d B))]]) (nest_sets [size]) (nest_sets [size]) = Err AssertionError.
Proof.
  intros. unfold pc_nest. rewrite Nat.eqb_refl. cbn [py_assert bind]. rewrite sets_agree. cbn [py_assert bind]. split; reflexivity.
Qed.
(** With a first offset 0, which the restriction accepts, the first field is the first block although
    its group is empty: the fields overlap *)
Theorem C68_first_offset_refuted : forall (A B : mat), exists fields sets diagonal,
  valid_offsets [0; 2]%Z 2 /\
  pc_nest (BMul true [0; 0; 2]%Z [[PPre LU A; PZero]; [PZero; PPre LU B]]) (nest_sets [1; 1]) (nest_sets [1; 1]) = Ok (Split fields sets diagonal) /\
  seg [1; 2] (low [0; 2]%Z 0) 0 = [] /\ nth 0 fields [] = [0] /\ nth 1 fields [] = [0; 1].
Proof.
  intros A B. exists [[0]; [0; 1]], [Simple T_lu; Simple T_lu], [A; B]. split; [split; [discriminate|]; split; [repeat constructor|reflexivity]|]. repeat split; reflexivity.
Qed.
(** Three blocks in two groups *)
Example C68_example : forall A B C,
  valid_offsets [1; 3]%Z 3 /\ diagonal_blocks 2 [[PPre AMG A; PZero]; [PZero; PAdd (PPre LU B) (PPre Elasticity C)]] /\
  pc_nest (BMul true [0; 1; 3]%Z [[PPre AMG A; PZero]; [PZero; PAdd (PPre LU B) (PPre Elasticity C)]]) (nest_sets [2; 1; 2]) (nest_sets [2; 1; 2])
    = Ok (Split [[0; 1]; [2; 3; 4]] [Simple T_hypre; Composite [(T_lu, B); (T_gamg, C)]] [A; mid (nr C)]).
Proof.
  intros A B C. split; [split; [discriminate|]; split; [repeat constructor; lia|reflexivity]|]. split; [|reflexivity]. split; [reflexivity|]. split; [intros row [<- | [<- | []]]; reflexivity|]. split.
  - intros [|[|i]] [|[|j]] Hi Hj N; try lia; reflexivity.
  - intros [|[|i]] Hi; [left; do 2 eexists; reflexivity|right; do 4 eexists; reflexivity|lia].
Qed.
Example C68_agree_example : agree (fun c A x => match c with LU => mv A x | SUPERLU_LU => mv A x | AMG => x | Elasticity => vadd x x end) (fun t A x => match t with T_lu | T_lu_superlu => mv A x | T_hypre => x | T_gamg => vadd x x end).
Proof. intros A x. repeat split. Qed.
Print Assumptions C68_fields.
Print Assumptions C68_action.
Print Assumptions C68_blocks.
Print Assumptions C68_single.
Print Assumptions C68_operators.
Print Assumptions C68_refused.
Print Assumptions C68_index_sets.
Print Assumptions C68_sum_refuted.
Print Assumptions C68_first_offset_refuted.
