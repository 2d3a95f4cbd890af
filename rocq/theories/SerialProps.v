(** C131: matrices filled in a with block *)
From Verif Require Import SerialModel RestrictModel MatProofs FillProofs SerialProofs.
Local Open Scope nat_scope.
Local Close Scope Q_scope.
Local Close Scope Qc_scope.

(** The block is entered with two integers or two spaces, on one process *)
Theorem C131_enter world test trial A : enter world test trial = Ok A <->
  exists n m, A = assemblyBegin (createAIJ n m (fun _ => 0)) /\
    ((test = Number n /\ trial = Number m /\ world = 1) \/ (exists q, test = Space n 1 /\ trial = Space m q)).
Proof.
  split.
  - unfold enter, py_assert. destruct test as [n|n|n p], trial as [k|k|k q]; try discriminate.
    + destruct (Nat.eqb_spec world 1) as [->|]; [|discriminate]. cbn [bind]. intros H. injection H as <-. exists n, k. split; [reflexivity|]. left. repeat split.
    + destruct (Nat.eqb_spec p 1) as [->|]; [|discriminate]. cbn [bind]. intros H. injection H as <-. exists n, k. split; [reflexivity|]. right. exists q. split; reflexivity.
  - intros (n & m & -> & [(-> & -> & ->)|(q & -> & ->)]); reflexivity.
Qed.
(** Inserted values are in the matrix, in whatever order they come, if those for the same entry agree; other entries are zero *)
Theorem C131_inserted debug world test trial body A i j : with_matrix debug world test trial body = Ok A -> only INSERT_VALUES body ->
  (forall v, wrote body i j v INSERT_VALUES -> (forall v', wrote body i j v' INSERT_VALUES -> v' = v) -> getValue A i j = Ok v) /\
  ((forall v, ~ wrote body i j v INSERT_VALUES) -> getValue A i j = Ok q0).
Proof.
  intros H O. rewrite (with_spec _ _ _ _ _ _ i j H), serial_filter.
  assert (MI : forall r w, In (r, w) (writes (map (fun o => (0, o)) body)) -> r = 0 /\ mod_ w = INSERT_VALUES).
  { intros r w I. unfold writes in I. apply in_flat_map in I. destruct I as ([r' o] & I1 & I2). apply in_map_iff in I1. destruct I1 as (o' & E & I1). injection E as <- <-. cbn [fst snd] in I2.
    apply in_map_iff in I2. destruct I2 as (w' & E & I2). injection E as <- <-. split; [reflexivity|]. destruct o' as [row cols vals m|]; [|destruct I2]. cbn [op_writes] in I2. apply in_map_iff in I2.
    destruct I2 as (p & E & _). subst w'. exact (O _ _ _ _ I1). }
  assert (AT : forall r w, In (r, w) (writes (map (fun o => (0, o)) body)) -> at_ i j w = true -> wrote body i j (val w) INSERT_VALUES).
  { intros r w I T. destruct (MI r w I) as [-> M]. apply gives_writes. rewrite (at_eq i j w T), M in I. exact I. }
  split.
  - intros v W U. f_equal. apply puts_insert.
    + apply Forall_forall. intros w I. apply in_map_iff in I. destruct I as ([r w'] & E & I). cbn in E. subst w'. apply filter_In in I. destruct I as [I L]. split; [exact L|].
      intros T. split; [apply (MI r w I)|apply U, (AT r w I T)].
    + apply Exists_exists. apply gives_writes in W. exists (Z.of_nat i, Z.of_nat j, v, INSERT_VALUES). split; [|apply at_self].
      apply in_map_iff. eexists. split; [|apply filter_In; split; [exact W|exact (legal_at i j _ (at_self i j v _))]]. reflexivity.
  - intros N. f_equal. rewrite puts_other; [reflexivity|]. apply Forall_forall. intros w I. apply in_map_iff in I. destruct I as ([r w'] & E & I). cbn in E. subst w'.
    apply filter_In in I. destruct I as [I L]. split; [exact L|]. destruct (at_ i j w) eqn:T; [|reflexivity]. exfalso. exact (N _ (AT r w I T)).
Qed.
(** The last insertion counts *)
Theorem C131_last debug world test trial before row cols vals after A i j l v :
  with_matrix debug world test trial (before ++ SetRow row cols vals INSERT_VALUES :: after) = Ok A ->
  row = Z.of_nat i -> NoDup cols -> nth_error cols l = Some (Z.of_nat j) -> nth_error vals l = Some v -> (forall w m, ~ wrote after i j w m) -> getValue A i j = Ok v.
Proof.
  intros H -> ND Hj Hv N. rewrite (with_spec _ _ _ _ _ _ i j H), serial_filter. f_equal.
  rewrite map_app, writes_app, filter_app, map_app, fold_left_app. cbn [map]. change (writes ((0, SetRow (Z.of_nat i) cols vals INSERT_VALUES) :: map (fun o => (0, o)) after))
    with (map (pair 0) (op_writes (SetRow (Z.of_nat i) cols vals INSERT_VALUES)) ++ writes (map (fun o => (0, o)) after)).
  rewrite filter_app, map_app, fold_left_app. rewrite puts_other.
  - apply puts_insert.
    + apply Forall_forall. intros w I. apply in_map_iff in I. destruct I as ([r w'] & E & I). cbn in E. subst w'. apply filter_In in I. destruct I as [I L]. split; [exact L|]. intros T.
      apply in_map_iff in I. destruct I as (w' & E & I). injection E as <- ->. cbn [op_writes] in I. apply in_map_iff in I. destruct I as ([c x] & E & I). subst w. cbn [fst snd mod_ val] in *.
      split; [reflexivity|]. unfold at_ in T. rewrite Z.eqb_refl in T. apply Z.eqb_eq in T. subst c.
      clear -ND Hj Hv I. revert vals l Hj Hv I. induction cols as [|c cols IH]; intros [|y vals] [|l] Hj Hv I; try discriminate; try destruct I as [I|I].
      * cbn in Hj, Hv. congruence.
      * cbn in Hj, Hv. injection Hj as ->. inversion ND as [|? ? K1 K2]; subst. exfalso. apply K1. eapply in_combine_l, I.
      * injection I as -> ->. inversion ND as [|? ? K1 K2]; subst. exfalso. apply K1. eapply nth_error_In, Hj.
      * inversion ND as [|? ? K1 K2]; subst. exact (IH K2 vals l Hj Hv I).
    + apply Exists_exists. exists (Z.of_nat i, Z.of_nat j, v, INSERT_VALUES). split; [|apply at_self]. apply in_map_iff.
      assert (G : In (0, (Z.of_nat i, Z.of_nat j, v, INSERT_VALUES)) (writes [(0, SetRow (Z.of_nat i) cols vals INSERT_VALUES)])).
      { apply gives_writes. exists cols, vals, l. repeat split; try assumption. left. reflexivity. }
      unfold writes in G. cbn [flat_map] in G. rewrite app_nil_r in G. eexists. split; [|apply filter_In; split; [exact G|exact (legal_at i j _ (at_self i j v _))]]. reflexivity.
  - apply Forall_forall. intros w I. apply in_map_iff in I. destruct I as ([r w'] & E & I). cbn in E. subst w'. apply filter_In in I. destruct I as [I L]. split; [exact L|].
    destruct (at_ i j w) eqn:T; [|reflexivity]. exfalso. apply (N (val w) (mod_ w)). apply gives_writes.
    assert (r = 0). { unfold writes in I. apply in_flat_map in I. destruct I as ([r' o] & I1 & I2). apply in_map_iff in I1. destruct I1 as (o' & E & _). injection E as <- <-. cbn [fst snd] in I2. apply in_map_iff in I2. destruct I2 as (w' & E & _). injection E as <- _. reflexivity. }
    subst r. rewrite (at_eq i j w T) in I. exact I.
Qed.
(** Added values are summed *)
Theorem C131_added debug world test trial body A i j : with_matrix debug world test trial body = Ok A -> only ADD_VALUES body -> getValue A i j = Ok (total body i j).
Proof.
  intros H O. assert (LE : Forall (fun o => match o with SetRow _ cols vals _ => length vals = length cols | Raise _ => True end) body).
  { unfold with_matrix in H. destruct (enter world test trial) as [A0|]; [|discriminate]. cbn [bind] in H. destruct (run debug _ A0) as [B|] eqn:R; [|discriminate]. apply run_lengths in R.
    rewrite Forall_map in R. exact R. }
  rewrite (with_spec _ _ _ _ _ _ i j H), serial_filter. f_equal. rewrite puts_add.
  2:{ apply Forall_forall. intros w I. apply in_map_iff in I. destruct I as ([r w'] & E & I). cbn in E. subst w'. apply filter_In in I. destruct I as [I L]. split; [exact L|].
      unfold writes in I. apply in_flat_map in I. destruct I as ([r' o] & I1 & I2). apply in_map_iff in I1. destruct I1 as (o' & E & I1). injection E as <- <-. cbn [fst snd] in I2.
      apply in_map_iff in I2. destruct I2 as (w' & E & I2). injection E as <- <-. destruct o' as [row cols vals m|]; [|destruct I2]. cbn [op_writes] in I2. apply in_map_iff in I2. destruct I2 as (p & E & _). subst w'. exact (O _ _ _ _ I1). }
  assert (SF : forall l : list (nat * write), sum_of (map (fun w => if at_ i j w then val w else q0) (map snd (filter (fun rw => legal (snd rw)) l))) = sum_of (map (fun rw => if at_ i j (snd rw) then val (snd rw) else q0) l)).
  { intros l. induction l as [|[r w] l IH]; [reflexivity|]. cbn [filter snd]. destruct (legal w) eqn:L; cbn [map sum_of snd]; rewrite IH; [reflexivity|].
    destruct (at_ i j w) eqn:T; [apply legal_at in T; congruence|]. unfold q0. ring. }
  rewrite SF. clear SF. unfold total. replace (q0 + sum_of _)%Qc with (sum_of (map (fun rw => if at_ i j (snd rw) then val (snd rw) else q0) (writes (map (fun o => (0, o)) body)))) by (unfold q0; ring).
  clear H O A. induction body as [|o body IH]; [reflexivity|]. cbn [length]. rewrite sumn_first. cbn [nth]. rewrite <- IH by exact (Forall_inv_tail LE). clear IH. cbn [map].
  change (writes ((0, o) :: map (fun o => (0, o)) body)) with (map (pair 0) (op_writes o) ++ writes (map (fun o => (0, o)) body)). rewrite map_app, sum_of_app. f_equal.
  destruct o as [row cols vals m|]; [|reflexivity]. pose proof (Forall_inv LE) as L. cbn beta iota in L. cbn [op_writes part]. clear LE. revert vals L.
  induction cols as [|c cols IH]; intros [|v vals] L; try discriminate; [reflexivity|]. cbn [combine map sum_of length fst snd]. rewrite sumn_first, IH by (injection L as L; exact L). reflexivity.
Qed.
(** In debugging builds of PETSc a block that completes sets all values in one way *)
Theorem C131_one_mode world test trial body A : with_matrix true world test trial body = Ok A -> only INSERT_VALUES body \/ only ADD_VALUES body.
Proof.
  unfold with_matrix. destruct (enter world test trial) as [A0|]; [|discriminate]. cbn [bind]. destruct (run true _ A0) as [B|] eqn:R; [|discriminate]. intros _.
  destruct (run_modes _ _ _ R) as [M _].
  assert (M' : forall row cols vals m', In (SetRow row cols vals m') body -> p_mode B = Some m').
  { intros row cols vals m' I. apply (M 0 row cols vals). apply in_map_iff. eexists. split; [reflexivity|exact I]. }
  destruct (p_mode B) as [[]|].
  - left. intros row cols vals m' I. specialize (M' _ _ _ _ I). congruence.
  - right. intros row cols vals m' I. specialize (M' _ _ _ _ I). congruence.
  - left. intros row cols vals m' I. specialize (M' _ _ _ _ I). discriminate.
Qed.
(** A block that completes has as many values as columns in each call, and all places in the matrix *)
Theorem C131_range debug world n m q body A : with_matrix debug world (Space n 1) (Space m q) body = Ok A ->
  (forall i j v md, wrote body i j v md -> i < n /\ j < m) /\ (forall row cols vals md, In (SetRow row cols vals md) body -> length vals = length cols) /\ (forall e, ~ In (Raise e) body).
Proof.
  unfold with_matrix. cbn [enter]. unfold py_assert. cbn [Nat.eqb bind]. destruct (run debug _ _) as [B|] eqn:R; [|discriminate]. intros _. repeat split.
  - apply (run_range _ _ _ _ _ _ _ _ _ R) in H. exact (proj1 H).
  - apply (run_range _ _ _ _ _ _ _ _ _ R) in H. exact (proj2 H).
  - intros row cols vals md I. apply run_lengths in R. rewrite Forall_map, Forall_forall in R. exact (R _ I).
  - intros e I. apply (run_no_raise _ _ _ _ 0 e R). apply in_map_iff. eexists. split; [reflexivity|exact I].
Qed.
(** An exception of the block goes on to the caller, who gets no matrix, and no call after it is made *)
Theorem C131_raises debug world test trial A before e after : with_matrix debug world test trial before = Ok A -> with_matrix debug world test trial (before ++ Raise e :: after) = Err e.
Proof.
  unfold with_matrix. destruct (enter world test trial) as [A0|]; [|discriminate]. cbn [bind]. rewrite map_app, run_app. destruct (run debug _ A0) as [B|]; [|discriminate]. reflexivity.
Qed.
(** Without the assertion: only what a process sets in its own rows arrives, *)
Theorem C131_processes_lost debug n m owner ops A i j : collective true debug n m owner ops = Ok A ->
  (forall r v md, gives ops r i j v md -> r <> owner i) -> getValue A i j = Ok q0.
Proof.
  unfold collective. destruct (run debug ops _) as [B|] eqn:R; [|discriminate]. cbn [bind]. intros H N. injection H as <-. apply run_spec in R. destruct R as (_ & _ & _ & P4 & P5 & _).
  cbn [assemblyBegin createAIJ p_owner p_sent p_store p_stash app] in *. unfold getValue, assemblyEnd. cbn [p_assembled p_store]. rewrite P4, P5. cbn [fold_left]. f_equal.
  rewrite puts_other; [reflexivity|]. apply Forall_forall. intros w I. apply in_map_iff in I. destruct I as ([r w'] & E & I). cbn in E. subst w'. apply filter_In in I. cbn [fst snd] in I.
  destruct I as [I L]. apply andb_prop in L. destruct L as [L O]. split; [exact L|]. destruct (at_ i j w) eqn:T; [|reflexivity]. exfalso. rewrite (at_eq i j w T) in I, O. cbn [fst] in O. rewrite Nat2Z.id in O. apply Nat.eqb_eq in O.
  apply (N r (val w) (mod_ w)); [apply gives_writes, I|congruence].
Qed.
(** while with assemblyBegin after the block all of it would *)
Theorem C131_processes_kept debug n m owner ops A i j v r : collective false debug n m owner ops = Ok A ->
  gives ops r i j v INSERT_VALUES -> (forall r' v' md, gives ops r' i j v' md -> v' = v /\ md = INSERT_VALUES) -> getValue A i j = Ok v.
Proof.
  unfold collective. destruct (run debug ops _) as [B|] eqn:R; [|discriminate]. cbn [bind]. intros H W U. injection H as <-. apply run_spec in R. destruct R as (_ & _ & _ & P4 & P5 & P6).
  cbn [createAIJ p_owner p_sent p_store p_stash app] in *. unfold getValue, assemblyEnd, assemblyBegin. cbn [p_assembled p_store p_sent]. rewrite P4, P5, P6. cbn [app]. f_equal.
  rewrite <- fold_left_app, <- map_app. apply puts_insert.
  - apply Forall_forall. intros w I. apply in_map_iff in I. destruct I as ([r' w'] & E & I). cbn in E. subst w'. apply in_app_or in I.
    assert (I' : In (r', w) (writes ops) /\ legal w = true). { destruct I as [I|I]; apply filter_In in I; destruct I as [I L]; cbn [fst snd] in L; apply andb_prop in L; split; [exact I|apply L|exact I|apply L]. }
    destruct I' as [I' L]. split; [exact L|]. intros T. rewrite (at_eq i j w T) in I'. apply gives_writes in I'. destruct (U _ _ _ I') as [-> ->]. split; reflexivity.
  - apply gives_writes in W. apply Exists_exists. exists (Z.of_nat i, Z.of_nat j, v, INSERT_VALUES). split; [|apply at_self]. apply in_map_iff. exists (r, (Z.of_nat i, Z.of_nat j, v, INSERT_VALUES)). split; [reflexivity|].
    pose proof (legal_at i j _ (at_self i j v INSERT_VALUES)) as L. destruct (owner i =? r) eqn:O; apply in_or_app; [left|right]; apply filter_In; (split; [exact W|]); cbn [fst snd]; rewrite L, Nat2Z.id, O; reflexivity.
Qed.
(** Rows inserted one after another, as in the other loops of xii (restriction_matrix.py:61-92, average_matrix.py:92-146, interpolation_matrix.py:42-63,
    nonconforming_trace_matrix.py:61-98), succeed and give the matrix that is filled row by row in the models of those loops *)
Theorem C131_rows debug world m n q rows :
  Forall (fun r => fst (fst r) < m /\ Forall (fun c => c < n) (snd (fst r)) /\ length (snd r) = length (snd (fst r))) rows ->
  exists A, with_matrix debug world (Space m 1) (Space n q) (map (fun r => SetRow (Z.of_nat (fst (fst r))) (map Z.of_nat (snd (fst r))) (snd r) INSERT_VALUES) rows) = Ok A /\
    forall i j, getValue A i j = Ok (fold_left (fun E r => set_row E (fst (fst r)) (snd (fst r)) (snd r)) rows (fun _ _ => q0) i j).
Proof.
  intros F. unfold with_matrix. cbn [enter]. unfold py_assert. cbn [Nat.eqb bind].
  destruct (run_rows debug rows (assemblyBegin (createAIJ m n (fun _ => 0)))) as (B & R & S1 & S2); [reflexivity|left; reflexivity|exact F|].
  rewrite map_map. rewrite R. cbn [bind]. eexists. split; [reflexivity|]. intros i j. unfold getValue, assemblyEnd. cbn [p_assembled p_store]. rewrite S1, S2. reflexivity.
Qed.
(** Traces with averages or jumps, in builds without debugging: the matrix of C60 *)
Theorem C131_traces_partial gdim cell_mid trace_mid normal facet_cells T_dofs V_dofs dof_value m n r mapping num_cells :
  (forall t, Forall (fun d => d < m) (T_dofs t)) -> (forall c, Forall (fun d => d < n) (V_dofs c)) ->
  match two_fill gdim cell_mid trace_mid normal facet_cells T_dofs V_dofs dof_value m n r mapping num_cells with
  | Ok M => exists A, two_restrict gdim cell_mid trace_mid normal facet_cells T_dofs V_dofs dof_value false m n 1 r mapping num_cells = Ok A /\ forall i j, getValue A i j = Ok (ent M i j)
  | Err e => two_restrict gdim cell_mid trace_mid normal facet_cells T_dofs V_dofs dof_value false m n 1 r mapping num_cells = Err e
  end.
Proof.
  intros T V. unfold two_fill, two_restrict. destruct (pieces r) as [ps|e]; cbn [bind]; [|reflexivity].
  pose proof (run_loop gdim cell_mid trace_mid normal facet_cells T_dofs V_dofs dof_value m n T V ps mapping (seq 0 num_cells) (repeat false m) (assemblyBegin (createAIJ m n (fun _ => 0))) (fun _ _ => q0)) as R.
  specialize (R ltac:(repeat split)). unfold with_matrix, enter, py_assert. cbn [Nat.eqb bind].
  destruct (two_loop _ _ _ _ _ _ _ _ ps mapping _ _) as [s|e]; cbn [bind].
  - destruct R as (B & R & _ & _ & _ & H4 & H5). rewrite R. cbn [bind]. eexists. split; [reflexivity|]. intros i j. unfold getValue, assemblyEnd. cbn [p_assembled p_store ent]. rewrite H4, H5. reflexivity.
  - rewrite R. reflexivity.
Qed.
(** in builds with debugging there is no matrix as soon as the first cell with some dof is between two cells *)
Theorem C131_traces_refuted gdim cell_mid trace_mid normal facet_cells T_dofs V_dofs dof_value m n r mapping num_cells t d f c c' A :
  t < num_cells -> d < m -> In d (T_dofs t) -> (forall t', t' < t -> ~ In d (T_dofs t')) -> lookup t mapping = Some f -> facet_cells f = [c; c'] ->
  two_restrict gdim cell_mid trace_mid normal facet_cells T_dofs V_dofs dof_value true m n 1 r mapping num_cells <> Ok A.
Proof.
  intros Ht Hd I N Hf Hc H. unfold two_restrict in H. destruct (pieces r) as [ps|e]; cbn [bind] in H; [|discriminate].
  set (body := loop_ops gdim cell_mid trace_mid normal facet_cells T_dofs V_dofs dof_value ps mapping (seq 0 num_cells) (repeat false m)) in *.
  assert (X : (exists e, In (Raise e) body) \/ exists k mc mc', In (row_op V_dofs dof_value t k d INSERT_VALUES mc) body /\ In (row_op V_dofs dof_value t k d ADD_VALUES mc') body).
  { assert (G : forall cells seen, In t cells -> NoDup cells -> nth d seen true = false -> (forall t', In t' cells -> t' < t -> ~ In d (T_dofs t')) -> (exists a b, cells = a ++ t :: b /\ forall t', In t' a -> t' < t) ->
      let ops := loop_ops gdim cell_mid trace_mid normal facet_cells T_dofs V_dofs dof_value ps mapping cells seen in
      (exists e, In (Raise e) ops) \/ exists k mc mc', In (row_op V_dofs dof_value t k d INSERT_VALUES mc) ops /\ In (row_op V_dofs dof_value t k d ADD_VALUES mc') ops).
    { intros cells. induction cells as [|x cells IH]; intros seen It ND S0 NS (a & b & E & LT); [destruct It|]. cbn [loop_ops]. destruct a as [|y a]; cbn [app] in E; injection E as E1 E2.
      - subst x cells. rewrite Hf. cbn [opt_res bind]. rewrite Hc. cbn [two_cells].
        assert (MC : exists mc mc', (if qltb q0 (inner gdim (vminus gdim (cell_mid c) (trace_mid t)) (normal t)) then [(fst ps, c); (snd ps, c')] else [(fst ps, c'); (snd ps, c)]) = [mc; mc'])
          by (destruct (qltb _ _); eauto). destruct MC as (mc & mc' & MC). rewrite MC.
        destruct (dofs_unseen V_dofs dof_value t [mc; mc'] (T_dofs t) 0 seen d I S0) as (k & IN). right. exists k, mc, mc'.
        split; apply in_or_app; left; apply IN; [left; reflexivity|right; left; reflexivity].
      - subst y. assert (XT : x < t) by (apply LT; left; reflexivity). match goal with |- context [match ?z with Ok _ => _ | Err _ => _ end] => destruct z as [mcs|e] end; [|left; exists e; left; reflexivity].
        destruct (IH (fst (dofs_ops V_dofs dof_value x 0 mcs (T_dofs x) seen))) as [(e & W)|(k & mc & mc' & W1 & W2)].
        + rewrite E2. apply in_or_app. right. left. reflexivity.
        + inversion ND; assumption.
        + rewrite dofs_seen; [exact S0|]. apply NS; [left; reflexivity|exact XT].
        + intros t' J. apply NS. right. exact J.
        + exists a, b. split; [exact E2|]. intros t' J. apply LT. right. exact J.
        + left. exists e. apply in_or_app. right. exact W.
        + right. exists k, mc, mc'. split; apply in_or_app; right; assumption. }
    apply G.
    - apply in_seq. lia.
    - apply seq_NoDup.
    - rewrite nth_indep with (d' := false) by (rewrite repeat_length; exact Hd). apply nth_repeat.
    - intros t' _. apply N.
    - exists (seq 0 t), (seq (S t) (num_cells - S t)). split.
      + replace num_cells with (t + S (num_cells - S t)) at 1 by lia. rewrite seq_app. reflexivity.
      + intros t' J. apply in_seq in J. lia. }
  destruct X as [(e & W)|(k & mc & mc' & W1 & W2)].
  - unfold with_matrix in H. cbn [enter] in H. unfold py_assert in H. cbn [Nat.eqb bind] in H. destruct (run true _ _) as [B|] eqn:R; [|discriminate].
    apply (run_no_raise _ _ _ _ 0 e R). apply in_map_iff. eexists. split; [reflexivity|exact W].
  - apply C131_one_mode in H. destruct H as [H|H]; [specialize (H _ _ _ _ W2)|specialize (H _ _ _ _ W1)]; discriminate.
Qed.

(** ** Cases *)
Definition qn (n : Z) : Qc := Q2Qc (inject_Z n).
Definition shared : list op := [SetRow 0 [0; 2]%Z [qn 3; qn 4] INSERT_VALUES; SetRow 1 [1]%Z [qn 5] INSERT_VALUES; SetRow 0 [2; -1]%Z [qn 4; qn 7] INSERT_VALUES].
Example C131_case : exists A, with_matrix true 1 (Space 2 1) (Space 3 1) shared = Ok A /\ only INSERT_VALUES shared /\ wrote shared 0 2 (qn 4) INSERT_VALUES /\
  (forall v', wrote shared 0 2 v' INSERT_VALUES -> v' = qn 4) /\ (forall v, ~ wrote shared 1 0 v INSERT_VALUES).
Proof.
  eexists. split; [reflexivity|]. split; [|split; [|split]].
  - intros row cols vals m' [E|[E|[E|[]] ] ]; injection E as <- <- <- <-; reflexivity.
  - exists [0; 2]%Z, [qn 3; qn 4], 1. split; [left; reflexivity|split; reflexivity].
  - intros v (cols & vals & l & [E|[E|[E|[]] ] ] & Hc & Hv); inversion E; subst; destruct l as [|[|[|l] ] ]; cbn in Hc, Hv; congruence.
  - intros v (cols & vals & l & [E|[E|[E|[]] ] ] & Hc & Hv); inversion E; subst; destruct l as [|[|[|l] ] ]; cbn in Hc, Hv; congruence.
Qed.
Definition sums : list op := [SetRow 0 [0; 2]%Z [qn 3; qn 4] ADD_VALUES; SetRow 0 [2; 2]%Z [qn 4; qn 7] ADD_VALUES].
Example C131_sums : exists A, with_matrix true 1 (Number 2) (Number 3) sums = Ok A /\ only ADD_VALUES sums /\ total sums 0 2 = qn 15.
Proof.
  eexists. split; [reflexivity|]. split; [|apply Qc_is_canon; reflexivity]. intros row cols vals m' [E|[E|[]] ]; injection E as <- <- <- <-; reflexivity.
Qed.
(** two processes with a row each, the first sets a value in the row of the second *)
Definition abroad : list (nat * op) := [(0, SetRow 1 [0]%Z [qn 5] INSERT_VALUES)].
Example C131_abroad : exists A B, collective true true 2 1 (fun i => i) abroad = Ok A /\ collective false true 2 1 (fun i => i) abroad = Ok B /\ getValue A 1 0 = Ok q0 /\ getValue B 1 0 = Ok (qn 5).
Proof. eexists. eexists. repeat split. Qed.
Example C131_mixed : exists e, with_matrix true 1 (Number 1) (Number 1) [SetRow 0 [0]%Z [qn 1] INSERT_VALUES; SetRow 0 [0]%Z [qn 1] ADD_VALUES] = Err e.
Proof. eexists. reflexivity. Qed.
(** one facet between two cells with one function each *)
Example C131_facet : exists A, two_restrict 1 (fun c => [qn (Z.of_nat c)]) (fun _ => [q0]) (fun _ => [q1]) (fun _ => [1; 0]) (fun _ => [0]) (fun c => [c]) (fun _ _ _ _ => q1)
  false 1 2 1 Jump [(0, 0)] 1 = Ok A /\ getValue A 0 0 = Ok (- q1)%Qc /\ getValue A 0 1 = Ok q1.
Proof. eexists. split; [reflexivity|]. split; cbn; f_equal; apply Qc_is_canon; reflexivity. Qed.

Print Assumptions C131_enter.
Print Assumptions C131_inserted.
Print Assumptions C131_last.
Print Assumptions C131_added.
Print Assumptions C131_one_mode.
Print Assumptions C131_range.
Print Assumptions C131_raises.
Print Assumptions C131_processes_lost.
Print Assumptions C131_processes_kept.
Print Assumptions C131_rows.
Print Assumptions C131_traces_partial.
Print Assumptions C131_traces_refuted.
