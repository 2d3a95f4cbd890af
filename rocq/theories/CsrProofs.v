(** Specification and proofs for CsrModel.v *)
From Coq Require FinFun.
From Verif Require Import Base BaseProofs MatProofs CsrModel.
Local Open Scope nat_scope.
Local Close Scope Q_scope.
Local Close Scope Qc_scope.

(** The entry in row i and column j: the sum of what is stored there *)
Definition qsum (l : list Qc) : Qc := fold_right Qcplus q0 l.
Definition value (A : csr) (i j : nat) : Qc :=
  qsum (map (fun k => if nth k (indices A) 0 =? j then nth k (data A) q0 else q0) (seq (nth i (indptr A) 0) (nth (S i) (indptr A) 0 - nth i (indptr A) 0))).
(** The fields fit together *)
Record wf (A : csr) : Prop := {
  wf_ptr : length (indptr A) = S (c_m A);
  wf_start : nth 0 (indptr A) 0 = 0;
  wf_sorted : forall i, i < c_m A -> nth i (indptr A) 0 <= nth (S i) (indptr A) 0;
  wf_end : nth (c_m A) (indptr A) 0 = length (indices A);
  wf_data : length (data A) = length (indices A);
  wf_cols : Forall (fun j => j < c_n A) (indices A) }.
(** No column twice in a row *)
Definition once (A : csr) : Prop := forall i k l, nth i (indptr A) 0 <= k < nth (S i) (indptr A) 0 -> nth i (indptr A) 0 <= l < nth (S i) (indptr A) 0 ->
  nth k (indices A) 0 = nth l (indices A) 0 -> k = l.
(** Sizes of the blocks in front of the i-th *)
Definition before (l : list nat) (i : nat) : nat := list_sum (firstn i l).

(** ** A row *)
Definition rowval (l : list (nat * Qc)) (j : nat) : Qc := qsum (map (fun p => if fst p =? j then snd p else q0) l).
Lemma qsum_app a b : qsum (a ++ b) = (qsum a + qsum b)%Qc.
Proof. unfold qsum. induction a as [| x a IH]; cbn [app fold_right]; [unfold q0; ring |]. rewrite IH. ring. Qed.
Lemma qsum_0 l : Forall (fun x => x = q0) l -> qsum l = q0.
Proof. induction 1 as [| x l -> _ IH]; [reflexivity |]. cbn. unfold qsum in IH. rewrite IH. unfold q0. ring. Qed.
Lemma rowval_app a b j : rowval (a ++ b) j = (rowval a j + rowval b j)%Qc.
Proof. unfold rowval. rewrite map_app, qsum_app. reflexivity. Qed.
Lemma rowval_out l j : Forall (fun p => fst p <> j) l -> rowval l j = q0.
Proof. intros H. apply qsum_0. rewrite Forall_map. eapply Forall_impl; [| exact H]. cbn. intros p N. destruct (Nat.eqb_spec (fst p) j); [contradiction | reflexivity]. Qed.
Lemma rowval_cons p l j : rowval (p :: l) j = ((if fst p =? j then snd p else q0) + rowval l j)%Qc.
Proof. reflexivity. Qed.
Lemma rowval_shift l o j : rowval (map (fun p => (o + fst p, snd p)) l) (o + j) = rowval l j.
Proof.
  induction l as [| p l IH]; [reflexivity |]. cbn [map]. rewrite !rowval_cons, IH. cbn [fst snd]. do 2 f_equal. destruct (Nat.eqb_spec (o + fst p) (o + j)), (Nat.eqb_spec (fst p) j); try reflexivity; lia.
Qed.
Lemma rowval_in l j v : NoDup (map fst l) -> In (j, v) l -> rowval l j = v.
Proof.
  induction l as [| p l IH]; intros ND I; [contradiction |]. inversion ND as [| x y N ND' E]; subst. rewrite rowval_cons. destruct I as [-> | I].
  - cbn [fst snd]. rewrite Nat.eqb_refl, rowval_out; [unfold q0; ring |]. apply Forall_forall. intros p I E. apply N. cbn. rewrite <- E. apply in_map, I.
  - rewrite (IH ND' I). destruct (Nat.eqb_spec (fst p) j) as [E |]; [| unfold q0; ring]. exfalso. apply N. rewrite E. apply (in_map fst _ _ I).
Qed.

Lemma map_seq_shift {A} (f : nat -> A) a n : map f (seq a n) = map (fun k => f (a + k)) (seq 0 n).
Proof. revert a f. induction n as [| n IH]; intros a f; [reflexivity |]. cbn [seq map]. rewrite Nat.add_0_r. f_equal. rewrite IH. rewrite (IH 1). apply map_ext. intros k. f_equal. lia. Qed.
Lemma value_getrow A i j : length (data A) = length (indices A) -> nth (S i) (indptr A) 0 <= length (indices A) -> value A i j = rowval (getrow A i) j.
Proof.
  intros L B. unfold value, rowval, getrow. cbn zeta. set (a := nth i (indptr A) 0) in *. set (b := nth (S i) (indptr A) 0) in *.
  f_equal. clearbody a b. revert B L. generalize (indices A), (data A). intros ix d B L.
  rewrite <- (firstn_map (fun p : nat * Qc => if fst p =? j then snd p else q0)), <- skipn_map.
  assert (E : map (fun p : nat * Qc => if fst p =? j then snd p else q0) (combine ix d) = map (fun k => if nth k ix 0 =? j then nth k d q0 else q0) (seq 0 (length ix))).
  { clear B. revert d L. induction ix as [| x ix IH]; intros [| y d] L; try discriminate; [reflexivity |]. cbn [combine map length seq nth fst snd]. f_equal. rewrite IH by (injection L; auto). rewrite (map_seq_shift _ 1). apply map_ext. intros k. reflexivity. }
  rewrite E. clear E L. rewrite skipn_map, firstn_map. f_equal.
  destruct (le_lt_dec b a) as [H | H]; [replace (b - a) with 0 by lia; reflexivity |].
  replace (length ix) with (a + ((b - a) + (length ix - b))) by lia. rewrite !seq_app. rewrite skipn_app, skipn_all2 by (rewrite seq_length; lia). rewrite seq_length, Nat.sub_diag. cbn [app skipn Nat.add].
  rewrite firstn_app, firstn_all2 by (rewrite seq_length; lia). rewrite seq_length, Nat.sub_diag. cbn [firstn]. rewrite app_nil_r. reflexivity.
Qed.

(** ** Sums of sizes *)
Lemma cumsum_length a l : length (cumsum a l) = S (length l).
Proof. revert a. induction l as [| x l IH]; intros a; cbn; [reflexivity |]. rewrite IH. reflexivity. Qed.
Lemma cumsum_nth a l i : i <= length l -> nth i (cumsum a l) 0 = a + before l i.
Proof.
  unfold before. revert a i. induction l as [| x l IH]; intros a [| i] H; cbn [cumsum nth firstn list_sum fold_right length] in *; try (cbn; lia).
  rewrite IH by lia. unfold list_sum. cbn [fold_right]. lia.
Qed.
Lemma cumsum_last a l : last (cumsum a l) 0 = a + list_sum l.
Proof. revert a. induction l as [| x l IH]; intros a; [cbn; lia |]. cbn [cumsum]. destruct (cumsum (a + x) l) as [| y m] eqn:E; [destruct l; discriminate |]. change (last (a :: y :: m) 0) with (last (y :: m) 0). rewrite <- E, IH. change (list_sum (x :: l)) with (x + list_sum l). lia. Qed.
Lemma before_cons x l i : before (x :: l) (S i) = x + before l i.
Proof. reflexivity. Qed.
Lemma before_S l i : before l (S i) = before l i + nth i l 0.
Proof.
  revert i. induction l as [| x l IH]; intros [| i]; [reflexivity | reflexivity | unfold before; cbn; lia |]. rewrite !before_cons, IH. cbn [nth]. lia.
Qed.
Lemma before_le l i j : i <= j -> before l i <= before l j.
Proof. induction 1; [lia |]. rewrite before_S. lia. Qed.
Lemma before_all l : before l (length l) = list_sum l.
Proof. unfold before. rewrite firstn_all. reflexivity. Qed.
Lemma before_bound l i k : i < length l -> k < nth i l 0 -> before l i + k < list_sum l.
Proof. intros H1 H2. rewrite <- before_all. pose proof (before_le l (S i) (length l) H1). rewrite before_S in *. lia. Qed.
(** An index lies in one block *)
Lemma before_unique l i j k k' : i < length l -> j < length l -> k < nth i l 0 -> k' < nth j l 0 -> before l i + k = before l j + k' -> i = j /\ k = k'.
Proof.
  intros Hi Hj Hk Hk' E. destruct (lt_eq_lt_dec i j) as [[L | ->] | L]; [| lia |].
  - pose proof (before_le l (S i) j L). rewrite before_S in *. lia.
  - pose proof (before_le l (S j) i L). rewrite before_S in *. lia.
Qed.

(** ** Rows put together *)
Lemma concat_slice {A} (rows : list (list A)) i : i < length rows -> firstn (length (nth i rows [])) (skipn (before (map (fun r => length r) rows) i) (concat rows)) = nth i rows [].
Proof.
  unfold before. revert i. induction rows as [| r rows IH]; intros i H; [cbn in H; lia |]. destruct i as [| i]; cbn [map firstn nth concat].
  - cbn [list_sum fold_right skipn]. rewrite firstn_app, firstn_all, Nat.sub_diag. cbn. apply app_nil_r.
  - cbn [length] in H. change (list_sum (length r :: ?l)) with (length r + list_sum l). rewrite skipn_app, skipn_all2 by lia. cbn [app]. replace (length r + _ - length r) with (list_sum (firstn i (map (fun r => length r) rows))) by lia. apply IH. lia.
Qed.
Lemma combine_fst_snd {A B} (l : list (A * B)) : combine (map fst l) (map snd l) = l.
Proof. induction l as [| [a b] l IH]; [reflexivity |]. cbn. rewrite IH. reflexivity. Qed.
Lemma getrow_from_rows m n rows i : length rows = m -> i < m -> getrow (from_rows m n rows) i = nth i rows [].
Proof.
  intros L H. unfold getrow, from_rows. cbn [indptr indices data]. rewrite combine_fst_snd, !cumsum_nth by (rewrite map_length; lia). cbn [Nat.add].
  rewrite before_S. replace (before _ i + _ - before _ i) with (nth i (map (fun r : list (nat * Qc) => length r) rows) 0) by lia. change 0 with (length (@nil (nat * Qc))) at 1. rewrite map_nth. apply concat_slice. lia.
Qed.
Lemma concat_length {A} (l : list (list A)) : length (concat l) = list_sum (map (fun r => length r) l).
Proof. induction l as [| x l IH]; [reflexivity |]. cbn [concat map]. rewrite app_length, IH. reflexivity. Qed.
Lemma wf_from_rows m n rows : length rows = m -> Forall (Forall (fun p => fst p < n)) rows -> wf (from_rows m n rows).
Proof.
  intros L F. split; cbn [from_rows c_m c_n indptr indices data].
  - rewrite cumsum_length, map_length. lia.
  - rewrite cumsum_nth by lia. reflexivity.
  - intros i H. rewrite !cumsum_nth by (rewrite map_length; lia). rewrite before_S. lia.
  - rewrite cumsum_nth by (rewrite map_length; lia). rewrite map_length, concat_length. subst m. replace (length rows) with (length (map (fun r : list (nat * Qc) => length r) rows)) by apply map_length. rewrite before_all. reflexivity.
  - rewrite !map_length. reflexivity.
  - rewrite Forall_map. apply Forall_concat. exact F.
Qed.
Lemma value_from_rows m n rows i j : length rows = m -> i < m -> value (from_rows m n rows) i j = rowval (nth i rows []) j.
Proof.
  intros L H. rewrite value_getrow; [rewrite getrow_from_rows by assumption; reflexivity | cbn; rewrite !map_length; reflexivity |]. cbn [from_rows indptr indices].
  rewrite cumsum_nth by (rewrite map_length; lia). rewrite map_length, concat_length, <- before_all. apply before_le. rewrite map_length. lia.
Qed.

(** ** What the libraries accept *)
Lemma last_nth {A} (l : list A) d : last l d = nth (length l - 1) l d.
Proof. induction l as [| x l IH]; [reflexivity |]. destruct l as [| y l]; [reflexivity |]. change (last (x :: y :: l) d) with (last (y :: l) d). rewrite IH. cbn [length]. rewrite !Nat.sub_succ, !Nat.sub_0_r. reflexivity. Qed.
Lemma sorted_spec l : sorted l = true <-> forall i, S i < length l -> nth i l 0 <= nth (S i) l 0.
Proof.
  induction l as [| a l IH]; [cbn; split; intros; [lia | reflexivity] |]. destruct l as [| b l]; [cbn; split; intros; [lia | reflexivity] |].
  change (sorted (a :: b :: l)) with ((a <=? b) && sorted (b :: l)). rewrite andb_true_iff, IH, Nat.leb_le. split.
  - intros [H1 H2] [| i] H; [exact H1 |]. apply (H2 i). cbn in *. lia.
  - intros H. split; [apply (H 0); cbn; lia |]. intros i Hi. apply (H (S i)). cbn in *. lia.
Qed.
Lemma createAIJ_spec m n ip ix d A : createAIJ m n ip ix d = Ok A <-> A = Csr m n ip ix d /\ wf A.
Proof.
  unfold createAIJ. destruct (negb (length ip =? S m)) eqn:E1; cbn [orb].
  { split; [discriminate |]. intros [-> [W _ _ _ _ _]]. cbn in W. rewrite W, Nat.eqb_refl in E1. discriminate. }
  apply negb_false_iff, Nat.eqb_eq in E1.
  assert (H0 : hd 1 ip = nth 0 ip 0) by (destruct ip; [discriminate | reflexivity]).
  assert (HL : last ip 0 = nth m ip 0) by (rewrite last_nth, E1; f_equal; lia).
  rewrite H0, HL. destruct (Nat.eqb_spec (nth 0 ip 0) 0) as [E2 | E2]; cbn [negb orb]; [| split; [discriminate | intros [-> W]; exfalso; apply E2, (wf_start _ W)]].
  destruct (sorted ip) eqn:E3; cbn [negb orb].
  2:{ split; [discriminate |]. intros [-> W]. assert (sorted ip = true) as K; [| congruence]. apply sorted_spec. intros i Hi. apply (wf_sorted _ W). cbn. lia. }
  destruct (Nat.eqb_spec (nth m ip 0) (length ix)) as [E4 | E4]; cbn [negb orb]; [| split; [discriminate | intros [-> W]; exfalso; apply E4, (wf_end _ W)]].
  destruct (Nat.eqb_spec (length ix) (length d)) as [E5 | E5]; cbn [negb]; [| split; [discriminate | intros [-> W]; exfalso; apply E5; symmetry; apply (wf_data _ W)]].
  destruct (forallb (fun j => j <? n) ix) eqn:E6.
  - split; [intros H; injection H as <-; split; [reflexivity |] | intros [-> _]; reflexivity]. split; cbn; try assumption; try congruence.
    + intros i Hi. apply (proj1 (sorted_spec ip) E3). lia.
    + apply Forall_forall. intros j I. apply Nat.ltb_lt. apply (proj1 (forallb_forall _ _) E6 j I).
  - split; [discriminate |]. intros [-> W]. assert (forallb (fun j => j <? n) ix = true) as K; [| congruence]. apply forallb_forall. intros j I. apply Nat.ltb_lt. apply (proj1 (Forall_forall _ _) (wf_cols _ W) j I).
Qed.
Lemma csr_matrix_wf A : wf A -> csr_matrix (data A) (indices A) (indptr A) (c_m A) (c_n A) = Ok A.
Proof.
  intros W. unfold csr_matrix. rewrite (wf_ptr _ W), Nat.eqb_refl. cbn [negb].
  replace (hd 1 (indptr A)) with 0; [| pose proof (wf_ptr _ W) as L; pose proof (wf_start _ W) as Z; destruct (indptr A) as [| x l]; [discriminate | symmetry; exact Z]]. cbn [Nat.eqb negb].
  rewrite (wf_data _ W), Nat.eqb_refl. cbn [negb]. rewrite last_nth, (wf_ptr _ W). replace (S (c_m A) - 1) with (c_m A) by lia. rewrite (wf_end _ W). rewrite (proj2 (Nat.ltb_ge _ _)) by lia. destruct A; reflexivity.
Qed.
Lemma createAIJ_wf A : wf A -> createAIJ (c_m A) (c_n A) (indptr A) (indices A) (data A) = Ok A.
Proof. intros W. apply createAIJ_spec. destruct A. split; [reflexivity | exact W]. Qed.
Lemma wf_row_bound A i : wf A -> i < c_m A -> nth (S i) (indptr A) 0 <= length (indices A).
Proof.
  intros W H. rewrite <- (wf_end _ W). assert (K : forall k, S i + k <= c_m A -> nth (S i) (indptr A) 0 <= nth (S i + k) (indptr A) 0).
  { induction k as [| k IH]; intros B; [rewrite Nat.add_0_r; lia |]. rewrite <- plus_n_Sm. pose proof (wf_sorted _ W (S i + k) ltac:(lia)). lia. }
  specialize (K (c_m A - S i) ltac:(lia)). replace (S i + (c_m A - S i)) with (c_m A) in K by lia. exact K.
Qed.
Lemma wf_value A i j : wf A -> i < c_m A -> value A i j = rowval (getrow A i) j.
Proof. intros W H. apply value_getrow; [apply (wf_data _ W) | apply wf_row_bound; assumption]. Qed.
Lemma In_firstn {A} n (l : list A) x : In x (firstn n l) -> In x l.
Proof. revert l. induction n as [| n IH]; intros [| y l] H; cbn in *; try contradiction. destruct H; auto. Qed.
Lemma In_skipn {A} n (l : list A) x : In x (skipn n l) -> In x l.
Proof. revert l. induction n as [| n IH]; intros [| y l] H; cbn in *; auto. Qed.
Lemma getrow_cols A i : wf A -> Forall (fun p => fst p < c_n A) (getrow A i).
Proof.
  intros W. apply Forall_forall. intros p I. unfold getrow in I. apply In_firstn, In_skipn in I. destruct p as [j v]. apply in_combine_l in I. apply (proj1 (Forall_forall _ _) (wf_cols _ W) j I).
Qed.
Lemma getrow_once A i : wf A -> once A -> i < c_m A -> NoDup (map fst (getrow A i)).
Proof.
  intros W O H. pose proof (wf_row_bound A i W H) as B. unfold getrow. set (a := nth i (indptr A) 0). set (b := nth (S i) (indptr A) 0) in *.
  rewrite <- firstn_map, <- skipn_map.
  assert (E : map fst (combine (indices A) (data A)) = indices A).
  { pose proof (wf_data _ W) as L. revert L. generalize (indices A), (data A). induction l as [| x l IH]; intros [| y d] L; try discriminate; [reflexivity |]. cbn. rewrite IH by (injection L; auto). reflexivity. }
  rewrite E. apply (NoDup_nth _ 0). rewrite firstn_length, skipn_length. intros k l Hk Hl Ekl.
  assert (N : forall k, k < Nat.min (b - a) (length (indices A) - a) -> nth k (firstn (b - a) (skipn a (indices A))) 0 = nth (a + k) (indices A) 0).
  { intros k0 H0. rewrite <- (firstn_skipn a (indices A)) at 2. rewrite app_nth2 by (rewrite firstn_length; lia). rewrite firstn_length. replace (a + k0 - Nat.min a (length (indices A))) with k0 by lia.
    rewrite <- (firstn_skipn (b - a) (skipn a (indices A))) at 2. rewrite app_nth1; [reflexivity |]. rewrite firstn_length, skipn_length. lia. }
  rewrite !N in Ekl by assumption. specialize (O i (a + k) (a + l)). fold a in O. fold b in O. specialize (O ltac:(lia) ltac:(lia) Ekl). lia.
Qed.

(** ** Rows of arrays *)
Lemma rowval_combine s r j : rowval (combine (seq s (length r)) r) (s + j) = nth j r q0.
Proof.
  revert s j. induction r as [| x r IH]; intros s j; [destruct j; reflexivity |]. cbn [length seq combine]. rewrite rowval_cons. cbn [fst snd]. destruct j as [| j].
  - rewrite Nat.add_0_r, Nat.eqb_refl. cbn [nth]. rewrite rowval_out; [unfold q0; ring |]. apply Forall_forall. intros [k v] I. apply in_combine_l, in_seq in I. cbn. lia.
  - replace (s =? s + S j) with false by (symmetry; apply Nat.eqb_neq; lia). replace (s + S j) with (S s + j) by lia. rewrite IH. cbn [nth]. unfold q0. ring.
Qed.
Lemma nodup_const n l : l <> [] -> Forall (fun x => x = n) l -> nodup Nat.eq_dec l = [n].
Proof.
  intros NE F. induction F as [| x l -> F IH]; [congruence |]. destruct l as [| y l]; [reflexivity |]. cbn [nodup] in *. destruct (in_dec Nat.eq_dec n (y :: l)) as [_ | N].
  - apply IH. discriminate.
  - exfalso. apply N. inversion F; subst. left. reflexivity.
Qed.
Lemma nodup_one n l : nodup Nat.eq_dec l = [n] -> Forall (fun x => x = n) l.
Proof. intros H. apply Forall_forall. intros x I. apply (nodup_In Nat.eq_dec) in I. rewrite H in I. destruct I as [<- | []]. reflexivity. Qed.

(** ** Triples *)
Definition tripval (l : list (nat * nat * Qc)) (i j : nat) : Qc := qsum (map (fun t => if (fst (fst t) =? i) && (snd (fst t) =? j) then snd t else q0) l).
Lemma tripval_app a b i j : tripval (a ++ b) i j = (tripval a i j + tripval b i j)%Qc.
Proof. unfold tripval. rewrite map_app, qsum_app. reflexivity. Qed.
Lemma tripval_out l i j : Forall (fun t => fst (fst t) <> i \/ snd (fst t) <> j) l -> tripval l i j = q0.
Proof. intros H. apply qsum_0. rewrite Forall_map. eapply Forall_impl; [| exact H]. cbn. intros t [N | N]; apply Nat.eqb_neq in N; rewrite N; [| rewrite andb_false_r]; reflexivity. Qed.
Lemma tripval_single {A} (f : A -> list (nat * nat * Qc)) l k i j : NoDup l -> In k l -> (forall k', In k' l -> k' <> k -> tripval (f k') i j = q0) -> tripval (flat_map f l) i j = tripval (f k) i j.
Proof.
  intros ND I H.
  assert (Z : forall l, (forall k', In k' l -> tripval (f k') i j = q0) -> tripval (flat_map f l) i j = q0).
  { clear. induction l as [| x l IH]; intros H; [reflexivity |]. cbn [flat_map]. rewrite tripval_app, (H x) by (left; reflexivity). rewrite IH by (intros; apply H; right; assumption). unfold q0. ring. }
  induction ND as [| x l N ND IH]; [contradiction |]. cbn [flat_map]. rewrite tripval_app. destruct I as [-> | I].
  - rewrite Z; [unfold q0; ring |]. intros k' I'. apply H; [right; exact I' |]. intros ->. contradiction.
  - rewrite (H x); [rewrite IH; [unfold q0; ring | exact I | intros; apply H; [right |]; assumption] | left; reflexivity | intros ->; contradiction].
Qed.
Lemma rowval_filter l i j : rowval (map (fun t : nat * nat * Qc => (snd (fst t), snd t)) (filter (fun t => fst (fst t) =? i) l)) j = tripval l i j.
Proof.
  induction l as [| t l IH]; [reflexivity |]. cbn [filter]. change (tripval (t :: l) i j) with ((if (fst (fst t) =? i) && (snd (fst t) =? j) then snd t else q0) + tripval l i j)%Qc. destruct (fst (fst t) =? i); cbn [andb].
  - cbn [map]. rewrite rowval_cons, IH. reflexivity.
  - rewrite IH. unfold q0. ring.
Qed.
Lemma from_triples_spec m n l : Forall (fun t => fst (fst t) < m /\ snd (fst t) < n) l ->
  exists A, from_triples m n l = Ok A /\ wf A /\ c_m A = m /\ c_n A = n /\ forall i j, i < m -> value A i j = tripval l i j.
Proof.
  intros F. unfold from_triples. rewrite (proj2 (forallb_forall _ _)).
  2:{ intros t I. destruct (proj1 (Forall_forall _ _) F t I). rewrite andb_true_iff, !Nat.ltb_lt. auto. }
  set (rows := map _ (seq 0 m)). assert (LR : length rows = m) by (unfold rows; rewrite map_length, seq_length; reflexivity).
  exists (from_rows m n rows). split; [reflexivity |]. split; [| split; [reflexivity | split; [reflexivity |]]].
  - apply wf_from_rows; [exact LR |]. apply Forall_forall. intros row I. unfold rows in I. apply in_map_iff in I. destruct I as (i & <- & _). apply Forall_forall. intros p Ip. apply in_map_iff in Ip. destruct Ip as (t & <- & It). apply filter_In in It. apply (proj1 (Forall_forall _ _) F t (proj1 It)).
  - intros i j Hi. rewrite value_from_rows by assumption. rewrite <- rowval_filter. f_equal. unfold rows.
    rewrite (nth_indep _ _ ((fun i => map (fun t : nat * nat * Qc => (snd (fst t), snd t)) (filter (fun t => fst (fst t) =? i) l)) 0)) by (rewrite map_length, seq_length; exact Hi).
    rewrite (map_nth (fun i => map (fun t : nat * nat * Qc => (snd (fst t), snd t)) (filter (fun t => fst (fst t) =? i) l))). rewrite seq_nth by exact Hi. reflexivity.
Qed.
(** The entries of a matrix, moved *)
Definition moved (o o' : nat) (A : csr) : list (nat * nat * Qc) := concat (map (fun r => map (fun p => (o + r, o' + fst p, snd p)) (getrow A r)) (seq 0 (c_m A))).
Lemma moved_range A o o' t : wf A -> In t (moved o o' A) -> o <= fst (fst t) < o + c_m A /\ o' <= snd (fst t) < o' + c_n A.
Proof.
  intros W I. unfold moved in I. apply in_concat in I. destruct I as (l & Il & It). apply in_map_iff in Il. destruct Il as (r & <- & Ir). apply in_seq in Ir. apply in_map_iff in It. destruct It as (p & <- & Ip). cbn [fst snd].
  pose proof (proj1 (Forall_forall _ _) (getrow_cols A r W) p Ip). cbn in H. lia.
Qed.
Lemma moved_value A o o' r c : wf A -> r < c_m A -> tripval (moved o o' A) (o + r) (o' + c) = value A r c.
Proof.
  intros W H. unfold moved. rewrite <- flat_map_concat_map. rewrite (tripval_single _ _ r); [| apply seq_NoDup | apply in_seq; lia |].
  - rewrite wf_value by assumption. induction (getrow A r) as [| p l IH]; [reflexivity |]. cbn [map]. change (tripval ((o + r, o' + fst p, snd p) :: ?x) ?i ?j) with ((if (o + r =? i) && (o' + fst p =? j) then snd p else q0) + tripval x i j)%Qc.
    rewrite IH, rowval_cons, Nat.eqb_refl. cbn [andb]. f_equal. destruct (Nat.eqb_spec (o' + fst p) (o' + c)), (Nat.eqb_spec (fst p) c); try reflexivity; lia.
  - intros k _ N. apply tripval_out. apply Forall_forall. intros t I. apply in_map_iff in I. destruct I as (p & <- & _). cbn. lia.
Qed.
(** ** Sizes of block rows and columns *)
Lemma lengths_spec size s l : Forall (fun b => match b with Some A => size A = s | None => True end) l -> (exists A, In (Some A) l) \/ s = 0 -> lengths size l = Ok s.
Proof.
  intros F E. unfold lengths.
  assert (K : forall l a, Forall (fun b => match b with Some A => size A = s | None => True end) l -> a = 0 \/ a = s ->
    fold_left (fun acc b => do a <- acc; match b with Some A => set_length a (size A) | None => Ok a end) l (Ok a) = Ok a /\ (forall A, ~ In (Some A) l) \/
    fold_left (fun acc b => do a <- acc; match b with Some A => set_length a (size A) | None => Ok a end) l (Ok a) = Ok s).
  { clear. induction l as [| b l IH]; intros a F HA; [left; split; [reflexivity | intros A []] |]. inversion F as [| x y Fb Fl E]; subst. cbn [fold_left bind]. destruct b as [A |].
    - right. assert (S1 : set_length a (size A) = Ok s). { rewrite Fb. unfold set_length. destruct (Nat.eqb_spec a 0); [reflexivity |]. destruct (Nat.eqb_spec a s); [congruence | lia]. }
      rewrite S1. destruct (IH s Fl (or_intror eq_refl)) as [[H _] | H]; exact H.
    - destruct (IH a Fl HA) as [[H N] | H]; [left; split; [exact H |] | right; exact H]. intros A [K | K]; [discriminate | exact (N A K)]. }
  destruct (K l 0 F (or_introl eq_refl)) as [[H N] | H]; [| exact H]. destruct E as [[A I] | ->]; [contradiction (N A I) | exact H].
Qed.
Lemma map_nth_seq {A} (l : list A) d : map (fun i => nth i l d) (seq 0 (length l)) = l.
Proof. apply (nth_ext _ _ d d); [rewrite map_length, seq_length; reflexivity |]. intros i H. rewrite map_length, seq_length in H. rewrite (nth_indep _ _ ((fun i => nth i l d) 0)) by (rewrite map_length, seq_length; exact H). rewrite (map_nth (fun i => nth i l d)), seq_nth by exact H. reflexivity. Qed.

(** ** Rows set one after another *)
Lemma set_row_spec m n row ix vals E : length ix = length vals -> row < m -> Forall (fun j => j < n) ix -> NoDup ix -> (forall j, E row j = q0) ->
  exists E', set_row m n row ix vals E = Ok E' /\ (forall i j, i <> row -> E' i j = E i j) /\ forall j, E' row j = rowval (combine ix vals) j.
Proof.
  intros L R F ND Z. unfold set_row. rewrite L, Nat.eqb_refl. cbn [negb]. rewrite (proj2 (Nat.ltb_lt _ _) R). rewrite (proj2 (forallb_forall _ _)); [| intros j I; apply Nat.ltb_lt, (proj1 (Forall_forall _ _) F j I)]. cbn [negb andb].
  eexists. split; [reflexivity |].
  assert (K : forall l E, NoDup (map fst l) -> (forall i j, i <> row -> fold_left (fun E (p : nat * Qc) i j => if (i =? row) && (j =? fst p) then snd p else E i j) l E i j = E i j) /\
    (forall j, ~ In j (map fst l) -> fold_left (fun E (p : nat * Qc) i j => if (i =? row) && (j =? fst p) then snd p else E i j) l E row j = E row j) /\
    (forall j, In j (map fst l) -> fold_left (fun E (p : nat * Qc) i j => if (i =? row) && (j =? fst p) then snd p else E i j) l E row j = rowval l j)).
  { clear. induction l as [| p l IH]; intros E ND; [repeat split; intros; try reflexivity; contradiction |]. inversion ND as [| x y N ND' EE]; subst. cbn [fold_left].
    destruct (IH (fun i j => if (i =? row) && (j =? fst p) then snd p else E i j) ND') as (H1 & H2 & H3). split; [| split].
    - intros i j H. rewrite H1 by exact H. apply Nat.eqb_neq in H. rewrite H. reflexivity.
    - intros j H. cbn [map In] in H. rewrite H2 by tauto. rewrite Nat.eqb_refl. cbn [andb]. destruct (Nat.eqb_spec j (fst p)); [exfalso; apply H; left; congruence | reflexivity].
    - intros j I. rewrite rowval_cons. destruct (Nat.eqb_spec (fst p) j) as [<- | NE].
      + rewrite H2 by exact N. rewrite !Nat.eqb_refl. cbn [andb]. rewrite rowval_out; [unfold q0; ring |]. apply Forall_forall. intros q Iq Eq. apply N. rewrite <- Eq. apply in_map, Iq.
      + destruct I as [I | I]; [contradiction |]. rewrite H3 by exact I. unfold q0. ring. }
  assert (FS : map fst (combine ix vals) = ix). { clear - L. revert vals L. induction ix as [| x ix IH]; intros [| y v] L; try discriminate; [reflexivity |]. cbn. rewrite IH by (injection L; auto). reflexivity. }
  destruct (K (combine ix vals) E ltac:(rewrite FS; exact ND)) as (H1 & H2 & H3). split; [exact H1 |]. intros j. rewrite FS in H2, H3. destruct (in_dec Nat.eq_dec j ix) as [I | N]; [apply H3, I |].
  rewrite H2 by exact N. rewrite Z. symmetry. apply rowval_out. apply Forall_forall. intros [k v] I EQ. cbn in EQ. subst k. apply N. eapply in_combine_l, I.
Qed.
Lemma fill_rows_spec m n l : forall row E, Forall (fun p => length (fst p) = length (snd p) /\ Forall (fun j => j < n) (fst p) /\ NoDup (fst p)) l -> row + length l <= m -> (forall i j, row <= i -> E i j = q0) ->
  exists E', fill_rows m n row l E = Ok E' /\ (forall i j, i < row -> E' i j = E i j) /\ forall k j, k < length l -> E' (row + k) j = rowval (combine (fst (nth k l ([], []))) (snd (nth k l ([], [])))) j.
Proof.
  induction l as [| [ix vals] l IH]; intros row E F L Z; [exists E; repeat split; intros; cbn in *; lia |]. inversion F as [| x y (F1 & F2 & F3) Fl EE]; subst. cbn [fst snd length] in *.
  destruct (set_row_spec m n row ix vals E F1 ltac:(lia) F2 F3 (fun j => Z row j (le_n _))) as (E1 & H1 & H2 & H3). cbn [fill_rows]. rewrite H1. cbn [bind].
  destruct (IH (S row) E1 Fl ltac:(lia)) as (E2 & G1 & G2 & G3); [intros i j H; rewrite H2 by lia; apply Z; lia |].
  exists E2. split; [exact G1 |]. split; [intros i j H; rewrite G2 by lia; apply H2; lia |]. intros [| k] j H.
  - rewrite Nat.add_0_r. cbn [nth fst snd]. rewrite G2 by lia. apply H3.
  - replace (row + S k) with (S row + k) by lia. rewrite G3 by lia. reflexivity.
Qed.
Lemma one_row_spec l : forall cs a, Forall2 (fun row c => NoDup (map fst row) /\ Forall (fun p => fst p < c) row) l cs ->
  let r := one_row (cumsum a cs) l in
  length (fst r) = length (snd r) /\ NoDup (fst r) /\ Forall (fun j => a <= j < a + list_sum cs) (fst r) /\
  forall j c, j < length cs -> c < nth j cs 0 -> rowval (combine (fst r) (snd r)) (a + before cs j + c) = rowval (nth j l []) c.
Proof.
  induction l as [| row l IH]; intros cs a F; inversion F as [| x c y cs' [ND B] F' E1 E2]; subst; cbn zeta.
  - cbn. repeat split; [constructor | constructor | intros; lia].
  - specialize (IH cs' (a + c) F'). cbn zeta in IH. unfold one_row in *. cbn [cumsum combine map concat fst snd] in *.
    set (ix := concat (map (fun p => map (fun q => fst q + snd p) (fst p)) (combine l (cumsum (a + c) cs')))) in *. set (vals := concat (map (map snd) l)) in *. destruct IH as (I1 & I2 & I3 & I4).
    change (list_sum (c :: cs')) with (c + list_sum cs'). split; [rewrite !app_length, !map_length; lia |]. split; [| split].
    + assert (ND1 : NoDup (map (fun q : nat * Qc => fst q + a) row)). { rewrite <- (map_map fst (fun x => x + a)). apply FinFun.Injective_map_NoDup; [intros u v; lia | exact ND]. }
      assert (DJ : forall x, In x (map (fun q : nat * Qc => fst q + a) row) -> ~ In x ix). { intros x I J. apply in_map_iff in I. destruct I as (q & <- & Iq). pose proof (proj1 (Forall_forall _ _) B q Iq). pose proof (proj1 (Forall_forall _ _) I3 _ J). cbn in *. lia. }
      clear - ND1 I2 DJ. induction ND1 as [| x m N ND IH]; [exact I2 |]. cbn [app]. constructor; [rewrite in_app_iff; intros [K | K]; [contradiction | exact (DJ x (or_introl eq_refl) K)] |]. apply IH. intros y I. apply DJ. right. exact I.
    + apply Forall_app. split; [| eapply Forall_impl; [| exact I3]; cbn; intros; lia]. rewrite Forall_map. eapply Forall_impl; [| exact B]. cbn. intros; lia.
    + intros j c0 Hj Hc.
      assert (CA : combine (map (fun q : nat * Qc => fst q + a) row ++ ix) (map snd row ++ vals) = map (fun p => (a + fst p, snd p)) row ++ combine ix vals).
      { clear. induction row as [| q row IH]; [reflexivity |]. cbn [map app combine]. rewrite IH. f_equal. f_equal. lia. }
      rewrite CA, rowval_app. assert (FX : Forall (fun p : nat * Qc => a + c <= fst p) (combine ix vals)). { apply Forall_forall. intros [k v] I. apply in_combine_l in I. pose proof (proj1 (Forall_forall _ _) I3 _ I). cbn in *. lia. }
      destruct j as [| j]; cbn [nth].
      * cbn [nth] in Hc. change (before (c :: cs') 0) with 0. rewrite Nat.add_0_r, rowval_shift. rewrite (rowval_out (combine ix vals)); [unfold q0; ring |]. eapply Forall_impl; [| exact FX]. cbn. intros p Hp. lia.
      * rewrite before_cons. cbn [length nth] in *. rewrite rowval_out; [| rewrite Forall_map; eapply Forall_impl; [| exact B]; cbn; intros; lia]. replace (a + (c + before cs' j) + c0) with (a + c + before cs' j + c0) by lia. rewrite I4 by (lia || assumption). unfold q0. ring.
Qed.
Lemma nth_concat {A} (ls : list (list A)) d i r : i < length ls -> r < length (nth i ls []) -> nth (before (map (fun l => length l) ls) i + r) (concat ls) d = nth r (nth i ls []) d.
Proof.
  revert i. induction ls as [| l ls IH]; intros i Hi Hr; [cbn in Hi; lia |]. destruct i as [| i]; cbn [map concat nth] in *.
  - change (before _ 0) with 0. apply app_nth1, Hr.
  - rewrite before_cons. rewrite app_nth2 by lia. replace (length l + _ + r - length l) with (before (map (fun l => length l) ls) i + r) by lia. apply IH; [cbn in Hi; lia | exact Hr].
Qed.
Lemma zip_all_const {A} (d : A) n ls : ls <> [] -> Forall (fun l => length l = n) ls -> zip_all d ls = map (fun k => map (fun l => nth k l d) ls) (seq 0 n).
Proof.
  intros NE F. unfold zip_all. destruct ls as [| l ls]; [congruence |]. cbn [map]. inversion F as [| x y Hl F' E]; subst. f_equal. f_equal. revert F'. clear. intros F. assert (K : forall m, m = length l -> fold_left Nat.min (map (fun l => length l) ls) m = length l); [| apply K; reflexivity].
  induction F as [| x ls E F IH]; intros m ->; [reflexivity |]. cbn [map fold_left]. apply IH. lia.
Qed.
Lemma lengths_sizes size l s : lengths size l = Ok s -> forall A, In (Some A) l -> 0 < size A -> size A = s.
Proof.
  unfold lengths.
  assert (EE : forall l e, fold_left (fun acc b => do a <- acc; match b with Some A => set_length a (size A) | None => Ok a end) l (Err e) = Err e). { clear. induction l as [| b l IH]; intros e; [reflexivity | apply IH]. }
  assert (K : forall l a, fold_left (fun acc b => do a <- acc; match b with Some A => set_length a (size A) | None => Ok a end) l (Ok a) = Ok s -> (0 < a -> a = s) /\ forall A, In (Some A) l -> 0 < size A -> size A = s).
  { clear l. induction l as [| b l IH]; intros a H; [cbn in H; injection H as H; split; [intros _; exact H | intros A []] |]. cbn [fold_left bind] in H. destruct b as [B |].
    - unfold set_length in H. destruct (Nat.eqb_spec a 0) as [Ea | Na].
      + destruct (IH _ H) as [H1 H2]. split; [lia |]. intros A [I | I] P; [injection I as I; rewrite I in *; apply H1, P | apply H2; assumption].
      + destruct (Nat.eqb_spec a (size B)) as [EB | NB]; [| rewrite EE in H; discriminate]. destruct (IH _ H) as [H1 H2]. split; [exact H1 |]. intros A [I | I] P; [injection I as I; rewrite <- I, <- EB; apply H1; lia | apply H2; assumption].
    - destruct (IH _ H) as [H1 H2]. split; [exact H1 |]. intros A [I | I] P; [discriminate | apply H2; assumption]. }
  intros H. apply (K l 0 H).
Qed.
Lemma cumsum_ones a m : cumsum a (repeat 1 m) = seq a (S m).
Proof. revert a. induction m as [| m IH]; intros a; [reflexivity |]. cbn [repeat cumsum seq]. rewrite IH. replace (a + 1) with (S a) by lia. reflexivity. Qed.
Lemma tiled {A} (n : nat) (rows : list (list A)) : Forall (fun r => length r = n) rows ->
  map (fun r => length r) (map (combine (seq 0 n)) rows) = repeat n (length rows) /\ map fst (concat (map (combine (seq 0 n)) rows)) = concat (repeat (seq 0 n) (length rows)) /\ map snd (concat (map (combine (seq 0 n)) rows)) = concat rows.
Proof.
  assert (C : forall (r : list A) s, map fst (combine (seq s (length r)) r) = seq s (length r) /\ map snd (combine (seq s (length r)) r) = r).
  { induction r as [| x r IH]; intros s; [split; reflexivity |]. cbn [length seq combine map fst snd]. destruct (IH (S s)) as [-> ->]. split; reflexivity. }
  induction 1 as [| r rows L F (H1 & H2 & H3)]; [repeat split |]. cbn [map length repeat concat]. rewrite !map_app, H1, H2, H3. rewrite combine_length, seq_length, L, Nat.min_id. destruct (C r 0) as [C1 C2]. rewrite L in C1, C2. rewrite C1, C2. repeat split.
Qed.
Lemma picked (cols : list nat) row c : c < length cols ->
  rowval (flat_map (fun p => flat_map (fun k => if nth k cols 0 =? fst p then [(k, snd p)] else []) (seq 0 (length cols))) row) c = rowval row (nth c cols 0).
Proof.
  intros H. induction row as [| p row IH]; [reflexivity |]. cbn [flat_map]. rewrite rowval_app, IH, rowval_cons. f_equal. clear IH.
  assert (K : forall s m, rowval (flat_map (fun k => if nth k cols 0 =? fst p then [(k, snd p)] else []) (seq s m)) c = if (s <=? c) && (c <? s + m) && (nth c cols 0 =? fst p) then snd p else q0).
  { intros s m. revert s. induction m as [| m IH]; intros s.
    - cbn [seq flat_map]. replace ((s <=? c) && (c <? s + 0)) with false; [reflexivity |]. symmetry. apply andb_false_iff. destruct (Nat.leb_spec s c); [right; apply Nat.ltb_ge; lia | left; reflexivity].
    - cbn [seq flat_map]. rewrite rowval_app, IH. destruct (Nat.eq_dec s c) as [-> | N].
      + replace (S c <=? c) with false by (symmetry; apply Nat.leb_gt; lia). rewrite (proj2 (Nat.leb_le c c)), (proj2 (Nat.ltb_lt c (c + S m))) by lia. cbn [andb]. destruct (nth c cols 0 =? fst p); cbn; [rewrite Nat.eqb_refl |]; unfold q0; ring.
      + assert (Z : rowval (if nth s cols 0 =? fst p then [(s, snd p)] else []) c = q0). { apply rowval_out. destruct (nth s cols 0 =? fst p); repeat constructor. exact N. }
        rewrite Z. replace ((S s <=? c) && (c <? S s + m)) with ((s <=? c) && (c <? s + S m)); [unfold q0; ring |]. destruct (Nat.leb_spec s c), (Nat.leb_spec (S s) c), (Nat.ltb_spec c (s + S m)), (Nat.ltb_spec c (S s + m)); cbn; try reflexivity; lia. }
  rewrite K. cbn [Nat.leb andb]. rewrite Nat.add_0_l, (proj2 (Nat.ltb_lt _ _) H). cbn [andb]. rewrite Nat.eqb_sym. reflexivity.
Qed.
