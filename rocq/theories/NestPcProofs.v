(** Field split preconditioners: specification and lemmas (property C68) *)
From Coq Require Import Sorting.Sorted.
From Verif Require Export NestPcModel.
From Verif Require Import BlockUtilsProofs EmbedProofs BaseProofs MatProofs ConvertProofs ConvertActionProofs.
Local Close Scope Q_scope.
Local Close Scope Qc_scope.
Local Open Scope nat_scope.

(** ** Specification *)
(** The rows of block [k] in the monolithic system *)
Definition rows_of (sizes : list nat) (k : nat) : list nat := seq (list_sum (firstn k sizes)) (nth k sizes 0).
Definition nest_sets (sizes : list nat) : list (list nat) := map (rows_of sizes) (seq 0 (length sizes)).
(** The entries of a vector at indices *)
Definition gather (x : vec) (ix : list nat) : vec := map (vnth x) ix.
(** What a block does to a vector, given what the classes of cbc.block do *)
Fixpoint block_action (means : pcclass -> mat -> vec -> vec) (b : pblock) (x : vec) : vec :=
  match b with
  | PPre c A => means c A x
  | PAdd p q => vadd (block_action means p x) (block_action means q x)
  | PZero | POther => x
  end.
(** What the preconditioner of a field does, given what the types of PETSc do: those of a sum have matrices of
    their own, others the matrix of the operator *)
Fixpoint sum_action (solve : pctype -> mat -> vec -> vec) (subs : list (pctype * mat)) (x : vec) : vec :=
  match subs with
  | [] => x
  | [(t, A)] => solve t A x
  | (t, A) :: subs' => vadd (solve t A x) (sum_action solve subs' x)
  end.
Definition set_action (solve : pctype -> mat -> vec -> vec) (s : pcset) (A : mat) (x : vec) : vec :=
  match s with Simple t => solve t A x | Composite subs => sum_action solve subs x end.
(** The types of PETSc do what the classes of cbc.block do *)
Definition agree (means : pcclass -> mat -> vec -> vec) (solve : pctype -> mat -> vec -> vec) : Prop :=
  forall A x, means LU A x = solve T_lu A x /\ means SUPERLU_LU A x = solve T_lu_superlu A x /\ means AMG A x = solve T_hypre A x /\ means Elasticity A x = solve T_gamg A x.
(** A preconditioner, or the sum of two *)
Definition supported (b : pblock) : Prop := (exists c A, b = PPre c A) \/ exists c A d B, b = PAdd (PPre c A) (PPre d B).
(** A square matrix of blocks that is diagonal, with supported blocks *)
Definition diagonal_blocks (n : nat) (blocks : list (list pblock)) : Prop :=
  length blocks = n /\ (forall row, In row blocks -> length row = n) /\
  (forall i j, i < n -> j < n -> i <> j -> nth j (nth i blocks []) PZero = PZero) /\ forall i, i < n -> supported (nth i (nth i blocks []) PZero).
(** Additive field split: each field is preconditioned on its own *)
Definition additive (fields : list (list nat)) (acts : nat -> vec -> vec) (x y : vec) : Prop :=
  length y = length x /\ forall k, k < length fields -> gather y (nth k fields []) = acts k (gather x (nth k fields [])).

(** ** Lemmas *)
Lemma pc_mat_supported b : (exists r, pc_mat b = Ok r) <-> supported b.
Proof.
  unfold supported. destruct b as [|c A|p q|]; cbn [pc_mat].
  - split; [intros [? [=]]|intros [[? [? [=]]]|[? [? [? [? [=]]]]]]].
  - split; [intros _; left; do 2 eexists; reflexivity|intros _; eexists; reflexivity].
  - split.
    + intros [r H]. right. destruct p as [|c A| |]; try discriminate. destruct q as [|d B| |]; try discriminate. do 4 eexists. reflexivity.
    + intros [[? [? [=]]]|[c [A [d [B [= -> ->]]]]]]. eexists. reflexivity.
  - split; [intros [? [=]]|intros [[? [? [=]]]|[? [? [? [? [=]]]]]]].
Qed.
Lemma pc_mat_error b : ~ supported b -> pc_mat b = Err AssertionError.
Proof.
  intros N. destruct (pc_mat b) as [r|e] eqn:E; [exfalso; apply N, pc_mat_supported; exists r; exact E|]. destruct b as [|c A|p q|]; cbn [pc_mat] in E; try congruence. destruct (is_precond p) as [[c A]|]; [|congruence]. destruct (is_precond q) as [[d B]|]; congruence.
Qed.
Lemma pc_mat_action means solve b s A x : agree means solve -> pc_mat b = Ok (s, A) -> set_action solve s A x = block_action means b x.
Proof.
  intros G H. assert (S : forall c A x, solve (simple_type c) A x = means c A x). { intros c B z. destruct (G B z) as [G1 [G2 [G3 G4]]]. destruct c; cbn [simple_type]; symmetry; assumption. }
  destruct b as [|c B|p q|]; cbn [pc_mat] in H; try discriminate.
  - injection H as <- <-. cbn [set_action block_action]. apply S.
  - destruct p as [|c B| |]; try discriminate. destruct q as [|d D| |]; try discriminate. cbn [is_precond] in H. injection H as <- <-. cbn [set_action sum_action block_action]. rewrite !S. reflexivity.
Qed.
Lemma Forall2_at {X Y} (P : X -> Y -> Prop) l l' d d' : Forall2 P l l' -> length l = length l' /\ forall i, i < length l -> P (nth i l d) (nth i l' d').
Proof. induction 1 as [|x y l l' H F [L IH]]; [split; [reflexivity|intros i Hi; cbn in Hi; lia]|]. split; [cbn; congruence|]. intros [|i] Hi; cbn [nth]; [exact H|apply IH; cbn in Hi; lia]. Qed.
Lemma mapM_total {X Y} (f : X -> res Y) l : (forall x, In x l -> exists y, f x = Ok y) -> exists ys, mapM f l = Ok ys.
Proof. intros H. destruct (mapM f l) as [ys|e] eqn:M; [exists ys; reflexivity|]. apply mapM_err_in in M. destruct M as [x [I E]]. destruct (H x I) as [y Y']. congruence. Qed.
Lemma checks_spec n blocks : shape_is blocks n = true -> forallb (fun ij => (fst ij =? snd ij) || match entry blocks (fst ij) (snd ij) with PZero => true | _ => false end) (list_prod (seq 0 n) (seq 0 n)) = true <-> forall i j, i < n -> j < n -> i <> j -> nth j (nth i blocks []) PZero = PZero.
Proof.
  intros _. rewrite forallb_forall. split.
  - intros F i j Hi Hj N. specialize (F (i, j)). cbn [fst snd] in F. unfold entry in F. destruct (Nat.eqb_spec i j); [congruence|]. cbn [orb] in F. destruct (nth j (nth i blocks []) PZero); [reflexivity| | |]; discriminate F; apply in_prod; apply in_seq; lia.
  - intros Z [i j] I. apply in_prod_iff in I. destruct I as [I J]. apply in_seq in I, J. cbn [fst snd]. destruct (Nat.eqb_spec i j) as [|N]; [reflexivity|]. unfold entry. rewrite Z by (try lia; exact N). reflexivity.
Qed.
Lemma shape_spec n blocks : shape_is blocks n = true <-> length blocks = n /\ forall row, In row blocks -> length row = n.
Proof.
  unfold shape_is. rewrite andb_true_iff, Nat.eqb_eq, forallb_forall. split; intros [A B]; (split; [exact A|]); intros row R; [apply Nat.eqb_eq, B, R|apply Nat.eqb_eq, B, R].
Qed.
Lemma split_spec fields blocks : (exists out, split_fields fields blocks = Ok out) <-> diagonal_blocks (length fields) blocks.
Proof.
  unfold split_fields, diagonal_blocks. set (n := length fields). split.
  - intros [out H]. destruct (shape_is blocks n) eqn:S; cbn [py_assert bind] in H; [|discriminate]. pose proof (proj1 (shape_spec n blocks) S) as [S1 S2]. split; [exact S1|]. split; [exact S2|]. destruct (forallb _ (list_prod _ _)) eqn:F; cbn [py_assert bind] in H; [|discriminate]. split; [apply (checks_spec n blocks S); exact F|].
    destruct (mapM _ (seq 0 n)) as [settings|] eqn:M; [|discriminate]. apply mapM_ok_forall in M. apply (Forall2_at _ _ _ 0 (Composite [], mid 0)) in M. destruct M as [_ V]. rewrite seq_length in V. intros i Hi. specialize (V i Hi). rewrite seq_nth in V by exact Hi. apply pc_mat_supported. eexists. exact V.
  - intros [S1 [S2 [Z U]]]. assert (S : shape_is blocks n = true) by (apply shape_spec; split; assumption). rewrite S. cbn [py_assert bind]. rewrite (proj2 (checks_spec n blocks S) Z). cbn [py_assert bind]. destruct (mapM_total (fun i => pc_mat (entry blocks i i)) (seq 0 n)) as [ys M]; [intros i I; apply in_seq in I; apply pc_mat_supported, U; lia|]. rewrite M. eexists. reflexivity.
Qed.
Lemma split_values fields blocks out : split_fields fields blocks = Ok out -> exists sets diagonal, out = Split fields sets diagonal /\ length sets = length fields /\ length diagonal = length fields /\ forall i, i < length fields -> pc_mat (nth i (nth i blocks []) PZero) = Ok (nth i sets (Composite []), nth i diagonal (mid 0)).
Proof.
  unfold split_fields. intros H. set (n := length fields) in *. destruct (shape_is blocks n); cbn [py_assert bind] in H; [|discriminate]. destruct (forallb _ (list_prod _ _)); cbn [py_assert bind] in H; [|discriminate]. destruct (mapM _ (seq 0 n)) as [settings|] eqn:M; [cbn [bind] in H|discriminate]. injection H as <-.
  apply mapM_ok_forall in M. apply (Forall2_at _ _ _ 0 (Composite [], mid 0)) in M. destruct M as [L V]. rewrite seq_length in L, V. do 2 eexists. split; [reflexivity|]. split; [rewrite map_length; congruence|]. split; [rewrite map_length; congruence|]. intros i Hi. specialize (V i Hi). rewrite seq_nth in V by exact Hi. cbn [Nat.add] in V. unfold entry in V. rewrite V. f_equal.
  pose proof (map_nth fst settings (Composite [], mid 0) i) as E1. pose proof (map_nth snd settings (Composite [], mid 0) i) as E2. cbn [fst snd] in E1, E2. rewrite E1. transitivity (fst (nth i settings (Composite [], mid 0)), snd (nth i settings (Composite [], mid 0))); [apply surjective_pairing|]. f_equal. symmetry. exact E2.
Qed.
(** *** Index sets *)
Lemma sorted_unique (l : list nat) : forall l', StronglySorted lt l -> StronglySorted lt l' -> (forall x, In x l <-> In x l') -> l = l'.
Proof.
  induction l as [|a l IH]; intros [|b l'] S S' I.
  - reflexivity.
  - exfalso. apply (proj2 (I b)). left. reflexivity.
  - exfalso. apply (proj1 (I a)). left. reflexivity.
  - inversion S as [|? ? S1 F1]; subst. inversion S' as [|? ? S2 F2]; subst. rewrite Forall_forall in F1, F2.
    assert (E : a = b). { destruct (proj1 (I a) (or_introl eq_refl)) as [E|E]; [congruence|]. destruct (proj2 (I b) (or_introl eq_refl)) as [E'|E']; [congruence|]. specialize (F1 b E'). specialize (F2 a E). lia. }
    subst b. f_equal. apply IH; [assumption|assumption|]. intros x. split; intros X.
    + destruct (proj1 (I x) (or_intror X)) as [<- | Y]; [specialize (F1 a X); lia|exact Y].
    + destruct (proj2 (I x) (or_intror X)) as [<- | Y]; [specialize (F2 a X); lia|exact Y].
Qed.
Lemma seq_sorted n : forall a, StronglySorted lt (seq a n).
Proof. induction n as [|n IH]; intros a; [constructor|]. cbn [seq]. constructor; [apply IH|]. apply Forall_forall. intros x X. apply in_seq in X. lia. Qed.
Lemma union_ranges a m k : union (seq a m) (seq (a + m) k) = seq a (m + k).
Proof.
  apply sorted_unique; [apply np_unique_sorted|apply seq_sorted|]. intros x. unfold union. rewrite np_unique_In, <- seq_app. reflexivity.
Qed.
Lemma nest_sets_get sizes i : i < length sizes -> py_get (nest_sets sizes) (Z.of_nat i) = Ok (rows_of sizes i).
Proof.
  intros Hi. unfold py_get, norm_index. replace (Z.of_nat i <? 0)%Z with false by lia. replace (Z.of_nat i <? 0)%Z with false by lia. rewrite Nat2Z.id. unfold nest_sets. rewrite (nth_error_nth' _ []) by (rewrite map_length, seq_length; exact Hi). cbn [opt_res]. f_equal. apply nth_map_seq. exact Hi.
Qed.
Definition sum_to (sizes : list nat) (k : nat) : nat := list_sum (firstn k sizes).
Lemma sum_to_S sizes k : k < length sizes -> sum_to sizes (S k) = sum_to sizes k + nth k sizes 0.
Proof.
  unfold sum_to. revert k. induction sizes as [|s sizes IH]; intros k Hk; [cbn in Hk; lia|]. destruct k as [|k]; [cbn; lia|]. cbn [length] in Hk. specialize (IH k ltac:(lia)). change (firstn (S (S k)) (s :: sizes)) with (s :: firstn (S k) sizes). change (firstn (S k) (s :: sizes)) with (s :: firstn k sizes). cbn [nth]. change (list_sum (s :: firstn (S k) sizes)) with (s + list_sum (firstn (S k) sizes)). change (list_sum (s :: firstn k sizes)) with (s + list_sum (firstn k sizes)). lia.
Qed.
Lemma group_loop sizes m : forall a s l, a + m <= length sizes -> s + l = sum_to sizes a -> foldM (fun g i => do st <- py_get (nest_sets sizes) i; Ok (union g st)) (map (fun k => (Z.of_nat a + Z.of_nat k)%Z) (seq 0 m)) (seq s l) = Ok (seq s (sum_to sizes (a + m) - s)).
Proof.
  induction m as [|m IH]; intros a s l H E.
  - cbn [seq map foldM]. rewrite Nat.add_0_r. do 2 f_equal. lia.
  - cbn [seq map foldM]. replace (Z.of_nat a + Z.of_nat 0)%Z with (Z.of_nat a) by lia. rewrite nest_sets_get by lia. cbn [bind]. unfold rows_of. fold (sum_to sizes a). rewrite <- E, union_ranges.
    rewrite <- seq_shift, map_map. rewrite (map_ext (fun x => (Z.of_nat a + Z.of_nat (S x))%Z) (fun x => (Z.of_nat (S a) + Z.of_nat x)%Z)) by (intros; lia). rewrite IH; [replace (S a + m) with (a + S m) by lia; reflexivity|lia|rewrite sum_to_S by lia; lia].
Qed.
Lemma group_spec sizes a b : (0 <= a)%Z -> (a < b)%Z -> Z.to_nat b <= length sizes -> group (nest_sets sizes) (a, b) = Ok (seq (sum_to sizes (Z.to_nat a)) (sum_to sizes (Z.to_nat b) - sum_to sizes (Z.to_nat a))).
Proof.
  intros Ha Hab Hb. unfold group. assert (Ga : py_get (nest_sets sizes) a = Ok (rows_of sizes (Z.to_nat a))) by (rewrite <- nest_sets_get by lia; f_equal; lia). destruct (Z.eqb_spec (b - a) 1) as [E|E]; rewrite Ga.
  - f_equal. unfold rows_of. fold (sum_to sizes (Z.to_nat a)). f_equal. replace (Z.to_nat b) with (S (Z.to_nat a)) by lia. rewrite sum_to_S by lia. lia.
  - cbn [bind]. unfold py_range. set (m := Z.to_nat (b - (a + 1))). rewrite (map_ext (fun k => (a + 1 + Z.of_nat k)%Z) (fun k => (Z.of_nat (S (Z.to_nat a)) + Z.of_nat k)%Z)) by (intros; lia). unfold rows_of. fold (sum_to sizes (Z.to_nat a)). rewrite group_loop; [|lia|rewrite sum_to_S by lia; reflexivity]. replace (S (Z.to_nat a) + m) with (Z.to_nat b) by lia. reflexivity.
Qed.
Lemma low_bounds o n k : valid_offsets o n -> (0 < hd 0 o)%Z -> k < length o -> (0 <= low o k < nth k o 0)%Z /\ (nth k o 0 <= Z.of_nat n)%Z.
Proof.
  intros [N [S L]] H0 Hk. assert (S0 : StronglySorted Z.lt (0%Z :: o)).
  { constructor; [exact S|]. destruct o as [|x o]; [congruence|]. cbn [hd] in H0. inversion S as [|? ? _ F]; subst. constructor; [exact H0|]. rewrite Forall_forall in *. intros y Y. specialize (F y Y). lia. }
  destruct (sorted_bounds 0%Z o S0 (low o k) (nth k o 0%Z)) as [A B]; [|lia]. rewrite pairs_low. apply in_map_iff. exists k. split; [reflexivity|]. apply in_seq. lia.
Qed.
(** The fields for the offsets of a reduction *)
Lemma fields_spec o n sizes : valid_offsets o n -> (0 < hd 0 o)%Z -> length sizes = n -> mapM (group (nest_sets sizes)) (pairs_of (0%Z :: o)) = Ok (map (fun k => seq (sum_to sizes (Z.to_nat (low o k))) (sum_to sizes (Z.to_nat (nth k o 0%Z)) - sum_to sizes (Z.to_nat (low o k)))) (seq 0 (length o))).
Proof.
  intros V H0 L. rewrite pairs_low. set (g := fun p : Z * Z => seq (sum_to sizes (Z.to_nat (fst p))) (sum_to sizes (Z.to_nat (snd p)) - sum_to sizes (Z.to_nat (fst p)))). rewrite (mapM_map _ g); [rewrite map_map; reflexivity|]. apply Forall_forall. intros p P. apply in_map_iff in P. destruct P as [k [<- K]]. apply in_seq in K. destruct (low_bounds o n k V H0) as [A B]; [lia|]. apply group_spec; lia.
Qed.
Lemma skipn_concat (xs : list vec) : forall k, skipn (sum_to (map (@length Qc) xs) k) (concat xs) = concat (skipn k xs).
Proof.
  induction xs as [|x xs IH]; intros k; [destruct k; reflexivity|]. destruct k as [|k]; [reflexivity|]. cbn [skipn concat map]. unfold sum_to in *. cbn [firstn]. change (list_sum (length x :: firstn k (map (@length Qc) xs))) with (length x + list_sum (firstn k (map (@length Qc) xs))). rewrite skipn_app, skipn_all2 by lia. cbn [app]. replace (length x + list_sum (firstn k (map (@length Qc) xs)) - length x) with (list_sum (firstn k (map (@length Qc) xs))) by lia. apply IH.
Qed.
Lemma gather_seq (x : vec) : forall m a, a + m <= length x -> gather x (seq a m) = firstn m (skipn a x).
Proof.
  intros m a H. apply vec_ext; [unfold gather; rewrite map_length, seq_length, firstn_length, skipn_length; lia|]. intros i Hi. unfold gather in *. rewrite map_length, seq_length in Hi. unfold vnth. rewrite (nth_indep _ q0 (vnth x 0)) by (rewrite map_length, seq_length; exact Hi). rewrite (map_nth (vnth x)), seq_nth by exact Hi. unfold vnth. transitivity (nth i (skipn a x) q0).
  - rewrite <- (firstn_skipn a x) at 1. rewrite app_nth2; rewrite firstn_length, Nat.min_l by lia; [f_equal; lia|lia].
  - symmetry. rewrite <- (firstn_skipn m (skipn a x)) at 2. rewrite app_nth1; [reflexivity|]. rewrite firstn_length, skipn_length. lia.
Qed.
Lemma skipn_twice {X} (l : list X) : forall a b, skipn a (skipn b l) = skipn (b + a) l.
Proof. induction l as [|x l IH]; intros a [|b]; cbn [skipn Nat.add]; [reflexivity|destruct a; reflexivity|reflexivity|apply IH]. Qed.
Lemma gather_group (xs : list vec) a b : a <= b -> b <= length xs -> let sizes := map (@length Qc) xs in gather (concat xs) (seq (sum_to sizes a) (sum_to sizes b - sum_to sizes a)) = concat (firstn (b - a) (skipn a xs)).
Proof.
  intros Hab Hb sizes. assert (T : forall k, k <= length xs -> length (concat (firstn k xs)) = sum_to sizes k).
  { intros k Hk. unfold sizes, sum_to. rewrite firstn_map. clear. induction (firstn k xs) as [|x l IH]; [reflexivity|]. cbn [concat map]. rewrite app_length, IH. reflexivity. }
  assert (Q : concat xs = concat (firstn a xs) ++ concat (firstn (b - a) (skipn a xs)) ++ concat (skipn b xs)).
  { rewrite <- !concat_app. f_equal. rewrite <- (firstn_skipn a xs) at 1. f_equal. rewrite <- (firstn_skipn (b - a) (skipn a xs)) at 1. f_equal. rewrite skipn_twice. f_equal. lia. }
  assert (Lb : sum_to sizes b = sum_to sizes a + length (concat (firstn (b - a) (skipn a xs)))).
  { rewrite <- (T b Hb), <- (T a) by lia. rewrite <- app_length, <- concat_app. do 2 f_equal. rewrite <- (firstn_skipn a (firstn b xs)). rewrite firstn_firstn, Nat.min_l by lia. f_equal. rewrite skipn_firstn_comm. reflexivity. }
  rewrite Lb. replace (sum_to sizes a + _ - sum_to sizes a) with (length (concat (firstn (b - a) (skipn a xs)))) by lia. rewrite gather_seq.
  - rewrite Q. rewrite <- (T a) by lia. rewrite skipn_app, skipn_all, Nat.sub_diag, skipn_O. cbn [app]. rewrite firstn_app, Nat.sub_diag, firstn_O, app_nil_r. apply firstn_all.
  - rewrite Q, !app_length, <- (T a) by lia. lia.
Qed.
(** The fields are all rows one after the other *)
Lemma fields_cover (f : nat -> nat) m : (forall k, k < m -> f k <= f (S k)) -> concat (map (fun k => seq (f k) (f (S k) - f k)) (seq 0 m)) = seq (f 0) (f m - f 0).
Proof.
  induction m as [|m IH]; intros H; [cbn; rewrite Nat.sub_diag; reflexivity|]. rewrite seq_S, map_app, concat_app, IH by (intros; apply H; lia). cbn [map concat Nat.add]. rewrite app_nil_r. assert (M : forall k, k <= m -> f 0 <= f k). { induction k as [|k IHk]; intros Hk; [lia|]. specialize (H k ltac:(lia)). specialize (IHk ltac:(lia)). lia. }
  specialize (M m ltac:(lia)). specialize (H m ltac:(lia)). replace (f (S m) - f 0) with ((f m - f 0) + (f (S m) - f m)) by lia. rewrite seq_app. do 2 f_equal. lia.
Qed.
Lemma gather_concat y fields : concat (map (gather y) fields) = gather y (concat fields).
Proof. unfold gather. rewrite concat_map. reflexivity. Qed.
Lemma gather_all y : gather y (seq 0 (length y)) = y.
Proof. rewrite gather_seq by lia. cbn [skipn]. apply firstn_all. Qed.
