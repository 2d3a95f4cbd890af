(** C110: matrices stored in rows *)
From Verif Require Import Base BaseProofs MatProofs CsrModel CsrProofs.
Local Open Scope nat_scope.
Local Close Scope Q_scope.
Local Close Scope Qc_scope.

(** PETSc takes exactly what fits together, and takes it as it is; scipy gives it back *)
Theorem C110_sparse : forall A, (wf A -> numpy_to_petsc (Sparse A) = Ok (PMat A) /\ csr_matrix (data A) (indices A) (indptr A) (c_m A) (c_n A) = Ok A) /\
  (forall P, numpy_to_petsc (Sparse A) = Ok P -> wf A /\ P = PMat A).
Proof.
  intros A. split.
  - intros W. split; [| apply csr_matrix_wf, W]. cbn [numpy_to_petsc]. rewrite createAIJ_wf by exact W. reflexivity.
  - intros P H. cbn [numpy_to_petsc] in H. destruct (createAIJ _ _ _ _ _) as [B | e] eqn:E; [| discriminate]. injection H as <-. apply createAIJ_spec in E. destruct E as [-> W]. destruct A. split; [exact W | reflexivity].
Qed.
Print Assumptions C110_sparse.

(** Dense arrays: one axis gives a vector, two a matrix with the same entries *)
Theorem C110_dense : (forall x, numpy_to_petsc (Array1 x) = Ok (PVec x)) /\
  forall m n a, length a = m -> Forall (fun row => length row = n) a ->
    exists A, numpy_to_petsc (Array2 m n a) = Ok (PMat A) /\ wf A /\ c_m A = m /\ c_n A = n /\ forall i j, i < m -> j < n -> value A i j = nth j (nth i a []) q0.
Proof.
  split; [reflexivity |]. intros m n a L F. pose (rows := map (fun row => filter (fun p => negb (qeqb (snd p) q0)) (combine (seq 0 n) row)) a).
  assert (LR : length rows = m) by (unfold rows; rewrite map_length; exact L).
  assert (W : wf (from_dense m n a)).
  { apply wf_from_rows; [exact LR |]. unfold rows. rewrite Forall_map. eapply Forall_impl; [| exact F]. intros row _. apply Forall_forall. intros [j v] I. apply filter_In in I. destruct I as [I _]. apply in_combine_l, in_seq in I. cbn. lia. }
  exists (from_dense m n a). cbn [numpy_to_petsc]. rewrite createAIJ_wf by exact W. split; [reflexivity |]. split; [exact W |]. split; [reflexivity |]. split; [reflexivity |].
  intros i j Hi Hj. unfold from_dense. fold rows. rewrite value_from_rows by assumption. unfold rows.
  change (@nil (nat * Qc)) with ((fun row => filter (fun p => negb (qeqb (snd p) q0)) (combine (seq 0 n) row)) []) || idtac.
  rewrite (nth_indep _ _ (filter (fun p => negb (qeqb (snd p) q0)) (combine (seq 0 n) []))) by (rewrite map_length; lia).
  rewrite (map_nth (fun row => filter (fun p => negb (qeqb (snd p) q0)) (combine (seq 0 n) row))).
  assert (LN : length (nth i a []) = n) by (apply (proj1 (Forall_forall _ _) F), nth_In; lia). revert LN. generalize (nth i a []). intros row LN.
  assert (G : forall s row, rowval (filter (fun p => negb (qeqb (snd p) q0)) (combine (seq s (length row)) row)) (s + j) = nth j row q0 /\ (forall k, k < s -> rowval (filter (fun p => negb (qeqb (snd p) q0)) (combine (seq s (length row)) row)) k = q0)).
  { clear. intros s row. split.
    - revert s j. induction row as [| x row IH]; intros s j; [destruct j; reflexivity |]. cbn [length seq combine filter snd].
      assert (T : rowval (if negb (qeqb x q0) then (s, x) :: filter (fun p => negb (qeqb (snd p) q0)) (combine (seq (S s) (length row)) row) else filter (fun p => negb (qeqb (snd p) q0)) (combine (seq (S s) (length row)) row)) (s + j) =
        ((if s =? s + j then x else q0) + rowval (filter (fun p => negb (qeqb (snd p) q0)) (combine (seq (S s) (length row)) row)) (s + j))%Qc).
      { unfold qeqb. destruct (Qc_eq_dec x q0) as [-> | N]; cbn [negb]; [destruct (s =? s + j); unfold q0; ring | reflexivity]. }
      rewrite T. destruct j as [| j].
      + rewrite Nat.add_0_r, Nat.eqb_refl. cbn [nth]. rewrite rowval_out; [unfold q0; ring |]. apply Forall_forall. intros [k v] I. apply filter_In in I. destruct I as [I _]. apply in_combine_l, in_seq in I. cbn. lia.
      + replace (s =? s + S j) with false by (symmetry; apply Nat.eqb_neq; lia). cbn [nth]. replace (s + S j) with (S s + j) by lia. rewrite IH. unfold q0. ring.
    - intros k H. apply rowval_out. apply Forall_forall. intros [k' v] I. apply filter_In in I. destruct I as [I _]. apply in_combine_l, in_seq in I. cbn. lia. }
  rewrite <- LN. apply (G 0 row).
Qed.
Print Assumptions C110_dense.

(** Zero matrices; with rows but without columns there is none *)
Theorem C110_zero : (forall m n, 0 < n \/ m = 0 -> exists A, zero_matrix m n = Ok A /\ wf A /\ c_m A = m /\ c_n A = n /\ forall i j, i < m -> value A i j = q0) /\
  (forall m, 0 < m -> zero_matrix m 0 = Err ValueError).
Proof.
  split.
  - intros m n H. unfold zero_matrix, from_triples. rewrite (proj2 (forallb_forall _ _)).
    2:{ intros t I. apply in_map_iff in I. destruct I as (i & <- & I). apply in_seq in I. cbn [fst snd]. rewrite andb_true_iff, !Nat.ltb_lt. lia. }
    cbn [bind]. set (rows := map _ (seq 0 m)). assert (LR : length rows = m) by (unfold rows; rewrite map_length, seq_length; reflexivity).
    assert (R : forall row p, In row rows -> In p row -> snd p = q0 /\ fst p = 0 /\ 0 < m).
    { intros row p I Ip. unfold rows in I. apply in_map_iff in I. destruct I as (i & <- & I). apply in_seq in I. apply in_map_iff in Ip. destruct Ip as (t & <- & It). apply filter_In in It. destruct It as [It _]. apply in_map_iff in It. destruct It as (k & <- & _). cbn. repeat split. lia. }
    assert (W : wf (from_rows m n rows)). { apply wf_from_rows; [exact LR |]. apply Forall_forall. intros row I. apply Forall_forall. intros p Ip. destruct (R row p I Ip) as (_ & -> & ?). lia. }
    exists (from_rows m n rows). split; [apply createAIJ_wf, W |]. split; [exact W |]. split; [reflexivity |]. split; [reflexivity |]. intros i j Hi. rewrite value_from_rows by assumption.
    apply qsum_0. rewrite Forall_map. apply Forall_forall. intros p Ip. assert (Li : i < length rows) by lia. destruct (R (nth i rows []) p (nth_In rows [] Li) Ip) as (-> & _). destruct (fst p =? j); reflexivity.
  - intros [| m] H; [lia |]. unfold zero_matrix, from_triples. cbn [seq map forallb fst snd Nat.ltb Nat.leb]. rewrite andb_false_r. reflexivity.
Qed.
Print Assumptions C110_zero.

(** Matrices of rows *)
Theorem C110_row : (forall rows n, rows <> [] -> Forall (fun r => length r = n) rows -> exists A, row_matrix rows = Ok A /\ wf A /\ c_m A = length rows /\ c_n A = n /\ forall i j, i < length rows -> j < n -> value A i j = nth j (nth i rows []) q0) /\
  (forall rows, (forall n, ~ Forall (fun r => length r = n) rows) \/ rows = [] -> row_matrix rows = Err ValueError).
Proof.
  split.
  - intros rows n NE F. unfold row_matrix. rewrite (nodup_const n); [| intros H; apply map_eq_nil in H; contradiction | rewrite Forall_map; exact F].
    pose (A := from_rows (length rows) n (map (combine (seq 0 n)) rows)). destruct (tiled n rows F) as (T1 & T2 & T3).
    assert (W : wf A). { apply wf_from_rows; [apply map_length |]. rewrite Forall_map. apply Forall_forall. intros r _. apply Forall_forall. intros [k v] I. apply in_combine_l, in_seq in I. cbn. lia. }
    cbn zeta. rewrite <- T1, <- T2, <- T3. pose proof (csr_matrix_wf A W) as H1. cbn [A from_rows c_m c_n indptr indices data] in H1. rewrite H1. cbn [bind]. exists A. split; [exact (createAIJ_wf A W) |]. split; [exact W |]. split; [reflexivity |]. split; [reflexivity |].
    intros i j Hi Hj. unfold A. rewrite value_from_rows by (rewrite ?map_length; auto). rewrite (nth_indep _ _ (combine (seq 0 n) [])) by (rewrite map_length; exact Hi). rewrite (map_nth (combine (seq 0 n))).
    assert (L : length (nth i rows []) = n) by (apply (proj1 (Forall_forall _ _) F), nth_In, Hi). rewrite <- L. apply (rowval_combine 0 (nth i rows []) j).
  - intros rows H. unfold row_matrix. destruct (nodup Nat.eq_dec (map (fun r : list Qc => length r) rows)) as [| n [| ? ?]] eqn:E; try reflexivity. destruct H as [H | ->]; [| discriminate]. exfalso. apply (H n). apply nodup_one in E. rewrite Forall_map in E. exact E.
Qed.
Print Assumptions C110_row.

(** Diagonal matrices, and matrices with one 1 in every row *)
Theorem C110_diagonal : (forall n d, length d = n -> exists A, diagonal_matrix n d = Ok A /\ wf A /\ c_m A = n /\ c_n A = n /\ forall i j, i < n -> value A i j = if i =? j then nth i d q0 else q0) /\
  (forall m n columns, length columns = m -> Forall (fun j => j < n) columns -> exists A, extension_csr m n columns = Ok (PMat A) /\ wf A /\ c_m A = m /\ c_n A = n /\ forall i j, i < m -> value A i j = if nth i columns 0 =? j then q1 else q0) /\
  (forall n d, length d <> n -> diagonal_matrix n d = Err ValueError) /\
  (forall m n columns P, extension_csr m n columns = Ok P -> length columns = m /\ Forall (fun j => j < n) columns).
Proof.
  assert (ONE : forall {A} (g : A -> nat * Qc) l, map (fun r => length r) (map (fun x => [g x]) l) = repeat 1 (length l) /\ concat (map (fun x => [g x]) l) = map g l).
  { intros A g l. induction l as [| x l [H1 H2]]; [split; reflexivity |]. cbn [map length repeat concat app]. rewrite H1, H2. split; reflexivity. }
  split; [| split; [| split]].
  - intros n d L. pose (rows := map (fun p : nat * Qc => [p]) (combine (seq 0 n) d)). pose (A := from_rows n n rows).
    assert (LC : length (combine (seq 0 n) d) = n) by (rewrite combine_length, seq_length, L; apply Nat.min_id).
    assert (LR : length rows = n) by (unfold rows; rewrite map_length; exact LC).
    assert (W : wf A). { apply wf_from_rows; [exact LR |]. unfold rows. rewrite Forall_map. apply Forall_forall. intros [k v] I. apply in_combine_l, in_seq in I. repeat constructor. cbn. lia. }
    exists A. split; [| split; [exact W | split; [reflexivity | split; [reflexivity |]]]].
    + unfold diagonal_matrix. rewrite L, Nat.eqb_refl. pose proof (createAIJ_wf A W) as H. destruct (ONE _ (fun p => p) (combine (seq 0 n) d)) as [O1 O2]. fold rows in O1, O2. rewrite map_id in O2. cbn [A from_rows c_m c_n indptr indices data] in H. rewrite O1, O2, LC in H.
      destruct (tiled n [d]) as (_ & T2 & T3); [repeat constructor; exact L |]. cbn [map concat length repeat] in T2, T3. rewrite !app_nil_r in T2, T3. rewrite T2, T3 in H. rewrite H. unfold A, from_rows. rewrite O1, O2, LC, T2, T3. reflexivity.
    + intros i j Hi. unfold A. rewrite value_from_rows by assumption. unfold rows. rewrite (nth_indep _ _ [(0, q0)]) by (rewrite map_length, LC; exact Hi). rewrite (map_nth (fun p : nat * Qc => [p]) _ (0, q0)). rewrite combine_nth by (rewrite seq_length; congruence). rewrite seq_nth by exact Hi. rewrite rowval_cons. cbn [fst snd plus]. change (rowval [] j) with q0. destruct (i =? j); unfold q0; ring.
  - intros m n columns L F. pose (rows := map (fun j => [(j, q1)]) columns). pose (A := from_rows m n rows).
    assert (LR : length rows = m) by (unfold rows; rewrite map_length; exact L).
    assert (W : wf A). { apply wf_from_rows; [exact LR |]. unfold rows. rewrite Forall_map. eapply Forall_impl; [| exact F]. intros j H. repeat constructor. exact H. }
    exists A. split; [| split; [exact W | split; [reflexivity | split; [reflexivity |]]]].
    + destruct (ONE _ (fun j => (j, q1)) columns) as [O1 O2]. fold rows in O1, O2. assert (FD : A = Csr m n (seq 0 (S m)) columns (map (fun _ => q1) columns)). { unfold A, from_rows. rewrite O1, O2, !map_map, L, cumsum_ones. cbn [fst snd]. rewrite map_id. reflexivity. }
      unfold extension_csr. pose proof (csr_matrix_wf A W) as H. rewrite FD in H at 1 2 3 4 5. cbn [c_m c_n indptr indices data] in H. rewrite H. cbn [bind]. apply C110_sparse, W.
    + intros i j Hi. unfold A. rewrite value_from_rows by assumption. unfold rows. rewrite (nth_indep _ _ [(0, q1)]) by (rewrite map_length, L; exact Hi). rewrite (map_nth (fun j => [(j, q1)])). rewrite rowval_cons. cbn [fst snd]. change (rowval [] j) with q0. destruct (nth i columns 0 =? j); unfold q0; ring.
  - intros n d H. unfold diagonal_matrix. apply Nat.eqb_neq in H. rewrite H. reflexivity.
  - intros m n columns P H. unfold extension_csr in H. destruct (csr_matrix _ _ _ _ _) as [A | e] eqn:E; [| discriminate]. cbn [bind] in H. apply C110_sparse in H. destruct H as [W _].
    unfold csr_matrix in E. repeat match type of E with (if ?b then _ else _) = _ => destruct b; [discriminate |] end. injection E as <-. destruct W as [_ _ _ W4 _ W6]. cbn [c_m c_n indptr indices] in *. split; [| exact W6]. rewrite <- W4. change (0 :: seq 1 m) with (seq 0 (S m)). rewrite seq_nth by lia. reflexivity.
Qed.
Print Assumptions C110_diagonal.

(** Block matrices are laid out by the sizes of their blocks *)
Definition fits (m n : nat) (rs cs : list nat) (b : list (option csr)) : Prop :=
  length rs = m /\ length cs = n /\
  (forall i j A, i < m -> j < n -> nth (i * n + j) b None = Some A -> wf A /\ c_m A = nth i rs 0 /\ c_n A = nth j cs 0) /\
  (forall i, i < m -> nth i rs 0 = 0 \/ exists j A, j < n /\ nth (i * n + j) b None = Some A) /\
  (forall j, j < n -> nth j cs 0 = 0 \/ exists i A, i < m /\ nth (i * n + j) b None = Some A).
Definition laid_out (m n : nat) (rs cs : list nat) (b : list (option csr)) (M : csr) : Prop :=
  wf M /\ c_m M = list_sum rs /\ c_n M = list_sum cs /\
  forall i j r c, i < m -> j < n -> r < nth i rs 0 -> c < nth j cs 0 -> value M (before rs i + r) (before cs j + c) = match nth (i * n + j) b None with Some A => value A r c | None => q0 end.
Theorem C110_bmat : (forall m n rs cs b, fits m n rs cs b -> exists M, scipy_bmat m n b = Ok M /\ laid_out m n rs cs b M) /\
  (forall m n b M, scipy_bmat m n b = Ok M ->
     (forall i j j' A B, i < m -> j < n -> j' < n -> nth (i * n + j) b None = Some A -> nth (i * n + j') b None = Some B -> 0 < c_m A -> 0 < c_m B -> c_m A = c_m B) /\
     (forall i i' j A B, i < m -> i' < m -> j < n -> nth (i * n + j) b None = Some A -> nth (i' * n + j) b None = Some B -> 0 < c_n A -> 0 < c_n B -> c_n A = c_n B)).
Proof.
  split.
  - intros m n rs cs b (Lr & Lc & HB & HR & HC).
    assert (MR : mapM (fun i => lengths c_m (map (grid m n b i) (seq 0 n))) (seq 0 m) = Ok rs).
    { rewrite <- (map_nth_seq rs 0), Lr. apply mapM_map. apply Forall_forall. intros i I. apply in_seq in I. apply lengths_spec.
      - rewrite Forall_map. apply Forall_forall. intros j J. apply in_seq in J. unfold grid. destruct (nth (i * n + j) b None) as [A |] eqn:E; [| exact Logic.I]. apply (HB i j A); [lia | lia | exact E].
      - destruct (HR i ltac:(lia)) as [Z | (j & A & J & E)]; [right; exact Z | left]. exists A. apply in_map_iff. exists j. split; [exact E | apply in_seq; lia]. }
    assert (MC : mapM (fun j => lengths c_n (map (fun i => grid m n b i j) (seq 0 m))) (seq 0 n) = Ok cs).
    { rewrite <- (map_nth_seq cs 0), Lc. apply mapM_map. apply Forall_forall. intros j J. apply in_seq in J. apply lengths_spec.
      - rewrite Forall_map. apply Forall_forall. intros i I. apply in_seq in I. unfold grid. destruct (nth (i * n + j) b None) as [A |] eqn:E; [| exact Logic.I]. apply (HB i j A); [lia | lia | exact E].
      - destruct (HC j ltac:(lia)) as [Z | (i & A & I & E)]; [right; exact Z | left]. exists A. apply in_map_iff. exists i. split; [exact E | apply in_seq; lia]. }
    unfold scipy_bmat. rewrite MR, MC. cbn [bind]. cbn zeta. rewrite !cumsum_last, !Nat.add_0_l.
    pose (entries := fun i j => match grid m n b i j with Some A => concat (map (fun r => map (fun p => (nth i (cumsum 0 rs) 0 + r, nth j (cumsum 0 cs) 0 + fst p, snd p)) (getrow A r)) (seq 0 (c_m A))) | None => [] end).
    change (flat_map _ (seq 0 m)) with (flat_map (fun i => flat_map (entries i) (seq 0 n)) (seq 0 m)).
    assert (EN : forall i j, i < m -> j < n -> entries i j = match nth (i * n + j) b None with Some A => moved (before rs i) (before cs j) A | None => [] end).
    { intros i j Hi Hj. unfold entries, grid, moved. destruct (nth (i * n + j) b None) as [A |]; [| reflexivity]. rewrite !cumsum_nth, !Nat.add_0_l by lia. reflexivity. }
    assert (RG : forall i j t, i < m -> j < n -> In t (entries i j) -> exists r c, r < nth i rs 0 /\ c < nth j cs 0 /\ fst (fst t) = before rs i + r /\ snd (fst t) = before cs j + c).
    { intros i j t Hi Hj I. rewrite EN in I by assumption. destruct (nth (i * n + j) b None) as [A |] eqn:E; [| contradiction]. destruct (HB i j A Hi Hj E) as (W & S1 & S2). apply moved_range in I; [| exact W]. exists (fst (fst t) - before rs i), (snd (fst t) - before cs j). lia. }
    destruct (from_triples_spec (list_sum rs) (list_sum cs) (flat_map (fun i => flat_map (entries i) (seq 0 n)) (seq 0 m))) as (M & E & W & S1 & S2 & V).
    { apply Forall_forall. intros t I. apply in_flat_map in I. destruct I as (i & Ii & I). apply in_flat_map in I. destruct I as (j & Ij & I). apply in_seq in Ii. apply in_seq in Ij. assert (Hi : i < m) by lia. assert (Hj : j < n) by lia. destruct (RG i j t Hi Hj I) as (r & c & Hr & Hc & -> & ->). split; apply before_bound; lia. }
    exists M. split; [exact E |]. split; [exact W |]. split; [exact S1 |]. split; [exact S2 |]. intros i j r c Hi Hj Hr Hc. rewrite V by (apply before_bound; lia).
    rewrite (tripval_single _ _ i); [rewrite (tripval_single _ _ j); [| apply seq_NoDup | apply in_seq; lia |] | apply seq_NoDup | apply in_seq; lia |].
    + rewrite EN by assumption. destruct (nth (i * n + j) b None) as [A |] eqn:EA; [| reflexivity]. destruct (HB i j A Hi Hj EA) as (WA & SA1 & SA2). apply moved_value; [exact WA | lia].
    + intros j' I N. apply in_seq in I. apply tripval_out. apply Forall_forall. intros t It. right. intros EQ. assert (Hj' : j' < n) by lia. destruct (RG i j' t Hi Hj' It) as (r' & c' & _ & Hc' & _ & E2). apply N. apply (before_unique cs j' j c' c); lia.
    + intros i' I N. apply in_seq in I. apply tripval_out. apply Forall_forall. intros t It. left. intros EQ. apply in_flat_map in It. destruct It as (j' & Ij & It). apply in_seq in Ij. assert (Hi' : i' < m) by lia. assert (Hj' : j' < n) by lia. destruct (RG i' j' t Hi' Hj' It) as (r' & c' & Hr' & _ & E1 & _). apply N. apply (before_unique rs i' i r' r); lia.
  - intros m n b M H. unfold scipy_bmat in H. destruct (mapM (fun i => lengths c_m (map (grid m n b i) (seq 0 n))) (seq 0 m)) as [rs | e] eqn:ER; [| discriminate]. cbn [bind] in H.
    destruct (mapM (fun j => lengths c_n (map (fun i => grid m n b i j) (seq 0 m))) (seq 0 n)) as [cs | e] eqn:EC; [| discriminate]. clear H. split.
    + intros i j j' A B Hi Hj Hj' EA EB PA PB. destruct (lengths c_m (map (grid m n b i) (seq 0 n))) as [s | e] eqn:EL.
      * rewrite (lengths_sizes _ _ _ EL A), (lengths_sizes _ _ _ EL B); try assumption; [reflexivity | |]; apply in_map_iff; [exists j' | exists j]; (split; [assumption | apply in_seq; lia]).
      * exfalso. assert (Ii : In i (seq 0 m)) by (apply in_seq; lia). destruct (mapM_err_from (fun i => lengths c_m (map (grid m n b i) (seq 0 n))) _ i e Ii EL) as [e' He]. congruence.
    + intros i i' j A B Hi Hi' Hj EA EB PA PB. destruct (lengths c_n (map (fun i => grid m n b i j) (seq 0 m))) as [s | e] eqn:EL.
      * rewrite (lengths_sizes _ _ _ EL A), (lengths_sizes _ _ _ EL B); try assumption; [reflexivity | |]; apply in_map_iff; [exists i' | exists i]; (split; [assumption | apply in_seq; lia]).
      * exfalso. assert (Ij : In j (seq 0 n)) by (apply in_seq; lia). destruct (mapM_err_from (fun j => lengths c_n (map (fun i => grid m n b i j) (seq 0 m))) _ j e Ij EL) as [e' He]. congruence.
Qed.
Print Assumptions C110_bmat.

(** Collapsed to scipy: blocks, blocks of blocks, and nothing for a number *)
Theorem C110_numpy : (forall f A, wf A -> block_mat_to_numpy (S f) (Mat_ A) = Ok (Some A)) /\ (forall f a, block_mat_to_numpy (S f) (Num_ a) = Ok None) /\
  forall f m n rs cs bs l, Forall2 (fun b o => block_mat_to_numpy f b = Ok o) bs l -> fits m n rs cs l -> exists M, block_mat_to_numpy (S f) (Blocks m n bs) = Ok (Some M) /\ laid_out m n rs cs l M.
Proof.
  split; [| split].
  - intros f A W. cbn [block_mat_to_numpy]. rewrite csr_matrix_wf by exact W. reflexivity.
  - reflexivity.
  - intros f m n rs cs bs l F H. destruct (proj1 C110_bmat m n rs cs l H) as (M & E & L). exists M. split; [| exact L]. cbn [block_mat_to_numpy].
    assert (K : mapM (block_mat_to_numpy f) bs = Ok l). { clear - F. induction F as [| b o bs l E F IH]; [reflexivity |]. cbn [mapM]. rewrite E. cbn [bind]. rewrite IH. reflexivity. }
    rewrite K. cbn [bind]. rewrite E. reflexivity.
Qed.
Print Assumptions C110_numpy.

(** A number other than zero is lost *)
Theorem C110_number_refuted : forall f a A, wf A -> c_m A = 1 -> c_n A = 1 -> exists M, block_mat_to_numpy (S (S f)) (Blocks 2 2 [Mat_ A; Num_ a; Num_ a; Mat_ A]) = Ok (Some M) /\ c_m M = 2 /\ c_n M = 2 /\ value M 0 1 = q0 /\ value M 1 0 = q0.
Proof.
  intros f a A W S1 S2. destruct (proj2 (proj2 C110_numpy) (S f) 2 2 [1; 1] [1; 1] [Mat_ A; Num_ a; Num_ a; Mat_ A] [Some A; None; None; Some A]) as (M & E & (_ & L1 & L2 & V)).
  - repeat constructor; apply C110_numpy, W.
  - unfold fits. split; [reflexivity |]. split; [reflexivity |]. split; [| split].
    + intros [| [| i]] [| [| j]] B Hi Hj EB; cbn in EB; try discriminate; try lia; injection EB as <-; rewrite S1, S2; repeat split; apply W.
    + intros [| [| i]] H; [right; exists 0, A; split; [lia | reflexivity] | right; exists 1, A; split; [lia | reflexivity] | lia].
    + intros [| [| i]] H; [right; exists 0, A; split; [lia | reflexivity] | right; exists 1, A; split; [lia | reflexivity] | lia].
  - exists M. split; [exact E |]. split; [exact L1 |]. split; [exact L2 |]. split; [apply (V 0 1 0 0) | apply (V 1 0 0 0)]; cbn; lia.
Qed.
Print Assumptions C110_number_refuted.

(** Collapsed by assembly: the function in the code never returns; nor would it if the name it
    lacks were there *)
Theorem C110_petsc_refuted : (forall np_int b, block_mat_to_petsc np_int convert_get_sizes b = Err NameError) /\
  forall get_sizes b M, block_mat_to_petsc false (Some get_sizes) b <> Ok M.
Proof. split; [reflexivity |]. intros g b M H. unfold block_mat_to_petsc in H. cbn [opt_res bind] in H. destruct (g b); discriminate. Qed.
Print Assumptions C110_petsc_refuted.

(** With both mended it collapses blocks as scipy does *)
Definition table_fits (rs cs : list nat) (b : list (list csr)) : Prop :=
  length b = length rs /\ 0 < length cs /\
  forall i, i < length rs -> length (nth i b []) = length cs /\ forall j A, nth_error (nth i b []) j = Some A -> wf A /\ once A /\ c_m A = nth i rs 0 /\ c_n A = nth j cs 0.
Theorem C110_petsc_partial : forall get_sizes rs cs b, get_sizes b = Ok (rs, cs) -> table_fits rs cs b ->
  exists M, block_mat_to_petsc true (Some get_sizes) b = Ok M /\ nr M = list_sum rs /\ nc M = list_sum cs /\
    forall i j r c A, nth_error (nth i b []) j = Some A -> i < length rs -> r < nth i rs 0 -> c < nth j cs 0 -> ent M (before rs i + r) (before cs j + c) = value A r c.
Proof.
  intros g rs cs b G (LB & LC & H). unfold block_mat_to_petsc. cbn [opt_res bind]. rewrite G. cbn [bind negb]. cbn zeta. cbn [fst snd]. rewrite !cumsum_last, !Nat.add_0_l.
  set (co := cumsum 0 cs). set (part := fun row_blocks => map (one_row co) (zip_all [] (map all_rows row_blocks))).
  assert (PI : forall i, i < length rs -> length (part (nth i b [])) = nth i rs 0 /\ forall r, r < nth i rs 0 -> nth r (part (nth i b [])) ([], []) = one_row co (map (fun A => getrow A r) (nth i b []))).
  { intros i Hi. destruct (H i Hi) as [L HA]. unfold part.
    rewrite (zip_all_const [] (nth i rs 0)).
    - split; [rewrite !map_length, seq_length; reflexivity |]. intros r Hr. rewrite map_map. rewrite (nth_indep _ _ (one_row co (map (fun l => nth 0 l []) (map all_rows (nth i b []))))) by (rewrite map_length, seq_length; exact Hr).
      rewrite (map_nth (fun k => one_row co (map (fun l => nth k l []) (map all_rows (nth i b []))))). rewrite seq_nth by exact Hr. cbn [plus]. rewrite map_map. f_equal. apply map_ext_in. intros A I. destruct (In_nth_error _ _ I) as [j J]. destruct (HA j A J) as (_ & _ & S1 & _).
      unfold all_rows. rewrite (nth_indep _ _ (getrow A 0)) by (rewrite map_length, seq_length; lia). rewrite map_nth, seq_nth by lia. reflexivity.
    - intros E. apply map_eq_nil in E. rewrite E in L. cbn in L. lia.
    - rewrite Forall_map. apply Forall_forall. intros A I. destruct (In_nth_error _ _ I) as [j J]. destruct (HA j A J) as (_ & _ & S1 & _). unfold all_rows. rewrite map_length, seq_length. exact S1. }
  assert (ROW : forall i r, i < length rs -> r < nth i rs 0 -> Forall2 (fun row c => NoDup (map fst row) /\ Forall (fun p : nat * Qc => fst p < c) row) (map (fun A => getrow A r) (nth i b [])) cs).
  { intros i r Hi Hr. destruct (H i Hi) as [L HA]. revert L HA. generalize (nth i b []). intros l L HA. assert (K : forall l cs, length l = length cs -> (forall j A, nth_error l j = Some A -> wf A /\ once A /\ c_m A = nth i rs 0 /\ c_n A = nth j cs 0) -> Forall2 (fun row c => NoDup (map fst row) /\ Forall (fun p : nat * Qc => fst p < c) row) (map (fun A => getrow A r) l) cs); [| apply K; assumption].
    clear - Hr. induction l as [| A l IH]; intros [| c cs] L HA; try discriminate; [constructor |]. cbn [map]. constructor; [| apply IH; [injection L; auto | intros j B E; apply (HA (S j) B E)]]. destruct (HA 0 A eq_refl) as (W & O & S1 & S2). cbn [nth] in S2. rewrite <- S2. split; [apply getrow_once; [exact W | exact O | lia] | apply getrow_cols, W]. }
  assert (LS : map (fun l => length l) (map part b) = rs).
  { apply (nth_ext _ _ 0 0); [rewrite !map_length; exact LB |]. intros i Hi. rewrite !map_length in Hi. rewrite map_map. rewrite (nth_indep _ _ (length (part []))) by (rewrite map_length; exact Hi). rewrite (map_nth (fun x => length (part x))). apply PI. lia. }
  rewrite flat_map_concat_map. set (rows := concat (map part b)).
  assert (LR : length rows = list_sum rs) by (unfold rows; rewrite concat_length, LS; reflexivity).
  assert (FR : Forall (fun p => length (fst p) = length (snd p) /\ Forall (fun j => j < list_sum cs) (fst p) /\ NoDup (fst p)) rows).
  { apply Forall_forall. intros p I. unfold rows in I. apply in_concat in I. destruct I as (l & Il & Ip). apply in_map_iff in Il. destruct Il as (rb & <- & Ib). destruct (In_nth _ _ [] Ib) as (i & Hi & <-). rewrite LB in Hi. destruct (PI i Hi) as [P1 P2]. destruct (In_nth _ _ ([], []) Ip) as (r & Hr & <-). rewrite P1 in Hr. rewrite P2 by exact Hr.
    destruct (one_row_spec _ cs 0 (ROW i r Hi Hr)) as (O1 & O2 & O3 & _). fold co in O1, O2, O3. split; [exact O1 |]. split; [| exact O2]. eapply Forall_impl; [| exact O3]. cbn. intros; lia. }
  destruct (fill_rows_spec (list_sum rs) (list_sum cs) rows 0 (fun _ _ => q0) FR) as (E & F1 & _ & F3); [lia | reflexivity |].
  rewrite F1. cbn [bind]. eexists. split; [reflexivity |]. cbn [nr nc ent]. split; [reflexivity |]. split; [reflexivity |]. intros i j r c A EA Hi Hr Hc.
  destruct (PI i Hi) as [P1 P2]. destruct (H i Hi) as [L HA]. destruct (HA j A EA) as (W & O & S1 & S2).
  assert (Hj : j < length cs) by (rewrite <- L; apply nth_error_Some; congruence).
  assert (NR : nth (before rs i + r) rows ([], []) = one_row co (map (fun A => getrow A r) (nth i b []))).
  { unfold rows. rewrite <- LS at 1. assert (NI : nth i (map part b) [] = part (nth i b [])). { rewrite (nth_indep _ _ (part [])) by (rewrite map_length; lia). apply map_nth. } rewrite nth_concat; rewrite ?map_length, ?NI; [apply P2, Hr | lia | lia]. }
  specialize (F3 (before rs i + r) (before cs j + c)). rewrite Nat.add_0_l in F3. rewrite F3 by (rewrite LR; apply before_bound; assumption). rewrite NR.
  destruct (one_row_spec _ cs 0 (ROW i r Hi Hr)) as (_ & _ & _ & O4). fold co in O4. specialize (O4 j c Hj Hc). rewrite Nat.add_0_l in O4. rewrite O4. rewrite wf_value by (assumption || lia).
  rewrite (nth_indep _ _ (getrow A r)) by (rewrite map_length; lia). rewrite (map_nth (fun A => getrow A r)). rewrite (nth_error_nth _ _ A EA). reflexivity.
Qed.
Print Assumptions C110_petsc_partial.

(** Maps from local to global numbers: every matrix inside gets the identity, and is otherwise
    left as it is *)
Inductive identified : mapped -> mapped -> Prop :=
| id_num : forall a, identified (MNum a) (MNum a)
| id_mat : forall A r c rm cm, length rm = c_m A -> length cm = c_n A -> (forall i, i < c_m A -> nth i rm 0 = i) -> (forall j, j < c_n A -> nth j cm 0 = j) -> identified (MMat A r c) (MMat A (Some rm) (Some cm))
| id_blocks : forall m n b b', length b = m * n -> Forall2 identified b b' -> identified (MBlocks m n b) (MBlocks m n b').
Theorem C110_lg_map : forall f x y, set_lg_map f x = Ok y -> identified x y /\ set_lg_map f y = Ok y.
Proof.
  induction f as [| f IH]; intros x y H; [discriminate |]. cbn [set_lg_map] in H. destruct x as [a | A r c | m n b |]; [| | | discriminate].
  - injection H as <-. split; [constructor | reflexivity].
  - injection H as <-. split; [| reflexivity]. constructor; try apply seq_length; intros i Hi; rewrite seq_nth by exact Hi; reflexivity.
  - destruct (mapM (set_lg_map f) b) as [b' | e] eqn:E; [| discriminate]. cbn [bind] in H. destruct (Nat.eqb_spec (length b') (m * n)) as [L | _]; [| discriminate]. injection H as <-. apply mapM_ok_forall in E.
    assert (K : Forall2 identified b b' /\ mapM (set_lg_map f) b' = Ok b' /\ length b = length b').
    { clear L. induction E as [| x y b b' Hx E (I1 & I2 & I3)]; [repeat split; constructor |]. destruct (IH x y Hx) as [J1 J2]. split; [constructor; assumption |]. split; [cbn [mapM]; rewrite J2; cbn [bind]; rewrite I2; reflexivity | cbn; congruence]. }
    destruct K as (K1 & K2 & K3). split; [constructor; [congruence | exact K1] |]. cbn [set_lg_map]. rewrite K2. cbn [bind]. rewrite L, Nat.eqb_refl. reflexivity.
Qed.
Print Assumptions C110_lg_map.

(** Rows and columns picked out of a matrix *)
Theorem C110_as_block : (forall A rows cols, wf A -> Forall (fun i => i < c_m A) rows -> Forall (fun j => j < c_n A) cols ->
    exists B, sub_matrix A rows cols = Ok (PMat B) /\ wf B /\ c_m B = length rows /\ c_n B = length cols /\ forall r c, r < length rows -> c < length cols -> value B r c = value A (nth r rows 0) (nth c cols 0)) /\
  (forall A rows cols P, sub_matrix A rows cols = Ok P -> Forall (fun i => i < c_m A) rows /\ Forall (fun j => j < c_n A) cols).
Proof.
  split.
  - intros A rows cols W FR FC. unfold sub_matrix. rewrite csr_matrix_wf by exact W. cbn [bind]. unfold slice_rows. rewrite (proj2 (forallb_forall _ _)) by (intros i I; apply Nat.ltb_lt, (proj1 (Forall_forall _ _) FR i I)). cbn [bind].
    pose (C := from_rows (length rows) (c_n A) (map (getrow A) rows)). fold C.
    assert (LM : length (map (getrow A) rows) = length rows) by apply map_length.
    assert (GC : forall r, r < length rows -> getrow C r = getrow A (nth r rows 0)). { intros r Hr. unfold C. rewrite getrow_from_rows by assumption. rewrite (nth_indep _ _ (getrow A 0)) by (rewrite map_length; exact Hr). apply map_nth. }
    unfold slice_cols. change (c_n C) with (c_n A). rewrite (proj2 (forallb_forall _ _)) by (intros j I; apply Nat.ltb_lt, (proj1 (Forall_forall _ _) FC j I)). cbn [bind].
    pose (g := fun row : list (nat * Qc) => flat_map (fun p => flat_map (fun k => if nth k cols 0 =? fst p then [(k, snd p)] else []) (seq 0 (length cols))) row).
    pose (D := from_rows (c_m C) (length cols) (map g (all_rows C))). change (from_rows (c_m C) (length cols) (map _ (all_rows C))) with D.
    assert (LD : length (map g (all_rows C)) = length rows) by (unfold all_rows; rewrite !map_length, seq_length; reflexivity).
    assert (WD : wf D). { apply wf_from_rows; [exact LD |]. rewrite Forall_map. apply Forall_forall. intros row _. apply Forall_forall. intros q I. unfold g in I. apply in_flat_map in I. destruct I as (p & _ & I). apply in_flat_map in I. destruct I as (k & Ik & I). apply in_seq in Ik. destruct (_ =? _); [destruct I as [<- | []]; cbn; lia | contradiction]. }
    exists D. split; [apply C110_sparse, WD |]. split; [exact WD |]. split; [reflexivity |]. split; [reflexivity |]. intros r c Hr Hc. unfold D. rewrite value_from_rows by assumption.
    rewrite (nth_indep _ _ (g [])) by lia. rewrite map_nth. unfold g. rewrite picked by exact Hc. rewrite wf_value by (assumption || apply (proj1 (Forall_forall _ _) FR), nth_In, Hr). f_equal. rewrite <- GC by exact Hr. unfold all_rows. rewrite (nth_indep _ _ (getrow C 0)) by (rewrite map_length, seq_length; exact Hr). rewrite map_nth, seq_nth by exact Hr. reflexivity.
  - intros A rows cols P H. unfold sub_matrix in H. destruct (csr_matrix _ _ _ _ _) as [B | e] eqn:EB; [| discriminate]. cbn [bind] in H.
    unfold csr_matrix in EB. repeat match type of EB with (if ?b then _ else _) = _ => destruct b; [discriminate |] end. injection EB as <-. unfold slice_rows in H. cbn [c_m c_n] in H.
    destruct (forallb (fun i => i <? c_m A) rows) eqn:E1; [| discriminate]. cbn [bind] in H. unfold slice_cols in H at 1. cbn [c_n from_rows] in H. destruct (forallb (fun j => j <? c_n A) cols) eqn:E2; [| discriminate].
    split; apply Forall_forall; intros x I; apply Nat.ltb_lt; [exact (proj1 (forallb_forall _ _) E1 x I) | exact (proj1 (forallb_forall _ _) E2 x I)].
Qed.
Print Assumptions C110_as_block.

(** Collapsing a block matrix and taking it apart by its sizes gives the blocks back *)
Theorem C110_roundtrip : forall m n rs cs b M, fits m n rs cs b -> scipy_bmat m n b = Ok M -> forall i j, i < m -> j < n ->
  exists B, sub_matrix M (seq (before rs i) (nth i rs 0)) (seq (before cs j) (nth j cs 0)) = Ok (PMat B) /\ c_m B = nth i rs 0 /\ c_n B = nth j cs 0 /\
    forall r c, r < c_m B -> c < c_n B -> value B r c = match nth (i * n + j) b None with Some A => value A r c | None => q0 end.
Proof.
  intros m n rs cs b M F E i j Hi Hj. destruct (proj1 C110_bmat m n rs cs b F) as (M' & E' & (W & S1 & S2 & V)). assert (M' = M) by congruence. subst M'. destruct F as (Lr & Lc & _).
  destruct (proj1 C110_as_block M (seq (before rs i) (nth i rs 0)) (seq (before cs j) (nth j cs 0)) W) as (B & EB & _ & B1 & B2 & VB).
  - apply Forall_forall. intros k I. apply in_seq in I. rewrite S1. replace k with (before rs i + (k - before rs i)) by lia. apply before_bound; lia.
  - apply Forall_forall. intros k I. apply in_seq in I. rewrite S2. replace k with (before cs j + (k - before cs j)) by lia. apply before_bound; lia.
  - rewrite seq_length in B1, B2. exists B. split; [exact EB |]. split; [exact B1 |]. split; [exact B2 |]. intros r c Hr Hc. rewrite VB by (rewrite seq_length; lia). rewrite !seq_nth by lia. apply V; lia.
Qed.
Print Assumptions C110_roundtrip.

(** Two rows and three columns with an empty row in the middle of a block matrix *)
Definition csr_example : csr := Csr 2 3 [0; 2; 2] [2; 0] [Q2Qc 5; Q2Qc 7].
Example C110_example_wf : wf csr_example /\ once csr_example /\ value csr_example 0 2 = Q2Qc 5 /\ value csr_example 0 0 = Q2Qc 7 /\ value csr_example 1 1 = q0.
Proof.
  split; [| split; [| split; [reflexivity | split; reflexivity]]].
  - split; try reflexivity; [intros [| [| i]]; cbn; lia | repeat constructor].
  - intros [| [| i]] k l Hk Hl; cbn [csr_example indptr indices nth] in *; [| lia |].
    + destruct k as [| [| k]], l as [| [| l]]; cbn; lia.
    + destruct i as [| i]; [lia |]. destruct i; lia.
Qed.
Example C110_example_fits : fits 2 2 [2; 3] [3; 3] [Some csr_example; None; None; Some (from_rows 3 3 [[(0, q1)]; [(1, q1)]; [(2, q1)]])].
Proof.
  split; [reflexivity |]. split; [reflexivity |]. split; [| split].
  - intros [| [| i]] [| [| j]] A Hi Hj E; cbn in E; try discriminate; try lia; injection E as <-; repeat split; try apply C110_example_wf; apply wf_from_rows; try reflexivity; repeat constructor.
  - intros [| [| i]] H; [right; exists 0; eexists | right; exists 1; eexists | lia]; (split; [lia | reflexivity]).
  - intros [| [| i]] H; [right; exists 0; eexists | right; exists 1; eexists | lia]; (split; [lia | reflexivity]).
Qed.
Example C110_example_table : table_fits [2] [3; 3] [[csr_example; csr_example]].
Proof. split; [reflexivity |]. split; [cbn; lia |]. intros [| i] H; [| cbn in H; lia]. split; [reflexivity |]. intros [| [| j]] A E; cbn in E; try (injection E as <-); [| | destruct j; discriminate]; (split; [apply C110_example_wf |]; split; [apply C110_example_wf |]; split; reflexivity). Qed.
