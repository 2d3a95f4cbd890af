(** Specification vocabulary and proofs for FillModel.v. *)
From Verif Require Import Base BaseProofs Mat MatProofs FillModel.
From Coq Require Import Permutation.
Local Open Scope nat_scope.
Local Close Scope Q_scope.
Local Close Scope Qc_scope.

(** ** Specification vocabulary *)

(** [row] is the row that cell [c] computes for target dof [i]. *)
Definition computes_row (c : fcell) (i : nat) (row : nat -> Qc) : Prop :=
  exists k, nth_error (f_rows c) k = Some i /\
    (forall l j, nth_error (f_cols c) l = Some j -> row j = f_val c l k) /\
    (forall j, ~ In j (f_cols c) -> row j = q0).
(** Dof maps without repetitions, with dofs in range. *)
Definition dofmap_ok (m n : nat) (c : fcell) : Prop :=
  NoDup (f_rows c) /\ NoDup (f_cols c) /\ (forall i, In i (f_rows c) -> i < m) /\ (forall j, In j (f_cols c) -> j < n).
(** The matrix has in each row what the first cell containing the dof computes. *)
Definition first_cell_rows (m : nat) (cells : list fcell) (A : mat) : Prop :=
  (forall pre c post i, cells = pre ++ c :: post -> In i (f_rows c) -> (forall c', In c' pre -> ~ In i (f_rows c')) -> computes_row c i (ent A i)) /\
  (forall i j, (forall c, In c cells -> ~ In i (f_rows c)) -> ent A i j = q0).
(** No two (visits of) cells share a target dof, as in discontinuous spaces. *)
Definition disjoint_rows (cells : list fcell) : Prop := forall a b ca cb i,
  nth_error cells a = Some ca -> nth_error cells b = Some cb -> In i (f_rows ca) -> In i (f_rows cb) -> a = b.
(** Cells sharing a dof compute the same row. *)
Definition cells_agree (cells : list fcell) : Prop :=
  forall c c' i row row', In c cells -> In c' cells -> computes_row c i row -> computes_row c' i row' -> forall j, row j = row' j.
Fixpoint qsum (l : list Qc) : Qc := match l with [] => q0 | x :: l' => (x + qsum l')%Qc end.

(** ** Sums *)

Lemma qplus_qsum l : qplus_list l = qsum l.
Proof. induction l as [|x l IH]; [reflexivity|]. cbn [qsum]. rewrite <- IH. reflexivity. Qed.
Lemma qsum_cons x l : qsum (x :: l) = (x + qsum l)%Qc.
Proof. reflexivity. Qed.

Lemma qsum_app a b : qsum (a ++ b) = (qsum a + qsum b)%Qc.
Proof. induction a as [|x a IH]; cbn [app qsum]; [unfold q0; ring|]. rewrite IH. ring. Qed.
Lemma qsum_zero {A} (f : A -> Qc) l : (forall x, In x l -> f x = q0) -> qsum (map f l) = q0.
Proof. induction l as [|x l IH]; intros H; [reflexivity|]. cbn [map qsum]. rewrite IH by (intros; apply H; right; assumption). rewrite H by (left; reflexivity). unfold q0. ring. Qed.
Lemma qsum_ext {A} (f g : A -> Qc) l : (forall x, In x l -> f x = g x) -> qsum (map f l) = qsum (map g l).
Proof. intros H. f_equal. apply map_ext_in, H. Qed.
Lemma qsum_plus {A} (f g : A -> Qc) l : qsum (map (fun x => (f x + g x)%Qc) l) = (qsum (map f l) + qsum (map g l))%Qc.
Proof. induction l as [|x l IH]; cbn [map qsum]; [unfold q0; ring|]. rewrite IH. ring. Qed.
Lemma qsum_scal {A} a (f : A -> Qc) l : qsum (map (fun x => (a * f x)%Qc) l) = (a * qsum (map f l))%Qc.
Proof. induction l as [|x l IH]; cbn [map qsum]; [unfold q0; ring|]. rewrite IH. ring. Qed.
Lemma qsum_flat_map {A B} (f : B -> Qc) (g : A -> list B) l : qsum (map f (flat_map g l)) = qsum (map (fun x => qsum (map f (g x))) l).
Proof. induction l as [|x l IH]; [reflexivity|]. cbn [flat_map map]. rewrite map_app, qsum_app, IH. reflexivity. Qed.
Lemma qsum_single {A} (f : A -> Qc) l k x : nth_error l k = Some x -> (forall k' y, nth_error l k' = Some y -> k' <> k -> f y = q0) -> qsum (map f l) = f x.
Proof.
  revert k. induction l as [|y l IH]; intros k H Z; [destruct k; discriminate|]. cbn [map qsum].
  destruct k as [|k].
  - cbn in H. injection H as ->. rewrite qsum_zero; [unfold q0; ring|]. intros z Hz. destruct (In_nth_error _ _ Hz) as [n Hn]. apply (Z (S n) z); [exact Hn|discriminate].
  - cbn in H. rewrite (IH k H); [|intros k' z Hz N; apply (Z (S k') z); [exact Hz|congruence]]. rewrite (Z 0 y eq_refl) by discriminate. unfold q0. ring.
Qed.

Lemma sumn_qsum n {A} (f : nat -> A -> Qc) l : sumn n (fun i => qsum (map (f i) l)) = qsum (map (fun x => sumn n (fun i => f i x)) l).
Proof.
  induction l as [|x l IH].
  - cbn. apply sumn_zero. reflexivity.
  - cbn [map qsum]. rewrite <- IH, <- sumn_plus. reflexivity.
Qed.

(** ** Coordinate format *)

Lemma coo_app a b i j : coo_ent (a ++ b) i j = (coo_ent a i j + coo_ent b i j)%Qc.
Proof. unfold coo_ent. rewrite map_app, !qplus_qsum. apply qsum_app. Qed.
Lemma coo_flat_map {A} (g : A -> list triple) l i j : coo_ent (flat_map g l) i j = qsum (map (fun x => coo_ent (g x) i j) l).
Proof. induction l as [|x l IH]; [reflexivity|]. cbn [flat_map map]. rewrite coo_app, IH. reflexivity. Qed.

(** A row times a vector. *)
Lemma coo_apply m n ts u i : i < m -> (forall t, In t ts -> snd (fst t) < n) ->
  vnth (mv (coo m n ts) u) i = qsum (map (fun t => if fst (fst t) =? i then (snd t * vnth u (snd (fst t)))%Qc else q0) ts).
Proof.
  intros Hi H. rewrite vnth_mv by assumption. cbn [nc coo ent]. unfold coo_ent.
  transitivity (sumn n (fun j => qsum (map (fun t => ((if (fst (fst t) =? i) && (snd (fst t) =? j) then snd t else q0) * vnth u j)%Qc) ts))).
  - apply sumn_ext. intros j _. rewrite (Qcmult_comm (qplus_list _)). rewrite qplus_qsum, <- qsum_scal. apply qsum_ext. intros. ring.
  - rewrite sumn_qsum. apply qsum_ext. intros [[r c] v] Ht. specialize (H _ Ht). cbn [fst snd] in *.
    destruct (r =? i); cbn [andb].
    + rewrite (sumn_single n c); [rewrite Nat.eqb_refl; reflexivity|assumption|]. intros j _ N. replace (c =? j) with false by (symmetry; apply Nat.eqb_neq; congruence). unfold q0. ring.
    + apply sumn_zero. intros. unfold q0. ring.
Qed.

Lemma combine_app {A B} (a a' : list A) (b b' : list B) : length a = length b -> combine (a ++ a') (b ++ b') = combine a b ++ combine a' b'.
Proof. revert b. induction a as [|x a IH]; intros [|y b] H; try discriminate; [reflexivity|]. cbn. f_equal. apply IH. cbn in H. lia. Qed.
Lemma combine_repeat {A B} (a : list A) (y : B) : combine a (repeat y (length a)) = map (fun x => (x, y)) a.
Proof. induction a as [|x a IH]; cbn; [reflexivity|]. rewrite IH. reflexivity. Qed.

(** The three arrays line up: column after column. *)
Lemma zip3_block (R C : list nat) (LV : list (list Qc)) : length C = length LV -> (forall lv, In lv LV -> length lv = length R) ->
  zip3 (np_tile R (length C)) (np_repeat C (length R)) (concat LV) =
  flat_map (fun p => map (fun rv => (fst rv, fst p, snd rv)) (combine R (snd p))) (combine C LV).
Proof.
  revert LV. induction C as [|c C IH]; intros [|lv LV] L H; try discriminate; [reflexivity|].
  cbn [length np_repeat flat_map concat combine fst snd]. unfold np_tile. cbn [repeat concat]. unfold zip3.
  rewrite combine_app by (rewrite repeat_length; reflexivity). rewrite combine_repeat.
  rewrite combine_app by (rewrite map_length; symmetry; apply H; left; reflexivity). f_equal.
  - assert (E : length lv = length R) by (apply H; left; reflexivity). revert E. clear. revert lv.
    induction R as [|r R IH]; intros [|v lv] E; try discriminate; [reflexivity|]. cbn. f_equal. apply IH. cbn in E. lia.
  - apply (IH LV); [cbn in L; lia|]. intros; apply H; right; assumption.
Qed.

(** The part of row [i] in one column. *)
Definition rowval (R : list nat) (lv : list Qc) (i : nat) : Qc := qsum (map (fun rv => if fst rv =? i then snd rv else q0) (combine R lv)).
Lemma coo_block (R C : list nat) LV i j : length C = length LV -> (forall lv, In lv LV -> length lv = length R) ->
  coo_ent (zip3 (np_tile R (length C)) (np_repeat C (length R)) (concat LV)) i j =
  qsum (map (fun p => if fst p =? j then rowval R (snd p) i else q0) (combine C LV)).
Proof.
  intros L H. rewrite zip3_block by assumption. rewrite coo_flat_map. apply qsum_ext. intros [c lv] _. cbn [fst snd].
  unfold coo_ent, rowval. rewrite map_map. cbn [fst snd]. rewrite qplus_qsum. destruct (c =? j).
  - apply qsum_ext. intros. rewrite andb_true_r. reflexivity.
  - apply qsum_zero. intros. rewrite andb_false_r. reflexivity.
Qed.

Lemma rowval_notin R lv i : ~ In i R -> rowval R lv i = q0.
Proof.
  intros N. apply qsum_zero. intros [r v] H. cbn. destruct (Nat.eqb_spec r i) as [->|]; [|reflexivity]. exfalso. apply N. eapply in_combine_l, H.
Qed.
Lemma nth_error_combine {A B} (a : list A) (b : list B) k : nth_error (combine a b) k =
  match nth_error a k, nth_error b k with Some x, Some y => Some (x, y) | _, _ => None end.
Proof.
  revert b k. induction a as [|x a IH]; intros [|y b] [|k]; cbn; try reflexivity.
  - destruct (nth_error a k); reflexivity.
  - apply IH.
Qed.
Lemma rowval_nth R lv i k v : NoDup R -> nth_error R k = Some i -> nth_error lv k = Some v -> rowval R lv i = v.
Proof.
  intros ND H Hv. unfold rowval. rewrite (qsum_single _ _ k (i, v)).
  - cbn. rewrite Nat.eqb_refl. reflexivity.
  - rewrite nth_error_combine, H, Hv. reflexivity.
  - intros k' [r w] H' N. rewrite nth_error_combine in H'. destruct (nth_error R k') as [r'|] eqn:E; [|discriminate].
    destruct (nth_error lv k'); [|discriminate]. injection H' as -> ->. cbn. destruct (Nat.eqb_spec r i) as [->|]; [|reflexivity].
    exfalso. apply N. apply (proj1 (NoDup_nth_error R) ND); [apply nth_error_Some; congruence|congruence].
Qed.

Lemma nth_error_map_seq {A} (f : nat -> A) n k : k < n -> nth_error (map f (seq 0 n)) k = Some (f k).
Proof.
  intros H. rewrite nth_error_map. assert (E : nth_error (seq 0 n) k = Some k); [|rewrite E; reflexivity].
  rewrite (nth_error_nth' _ 0) by (rewrite seq_length; assumption). rewrite seq_nth by assumption. reflexivity.
Qed.

(** Row [i] computed by a cell. *)
Definition cell_row (c : fcell) (i j : nat) : Qc := qsum (map (fun p => if fst p =? j then rowval (f_rows c) (snd p) i else q0) (combine (f_cols c) (local_values c))).
Lemma local_values_length c : length (local_values c) = length (f_cols c).
Proof. unfold local_values. rewrite map_length, seq_length. reflexivity. Qed.
Lemma local_values_In c lv : In lv (local_values c) -> length lv = length (f_rows c).
Proof. intros H. apply in_map_iff in H. destruct H as (l & <- & _). rewrite map_length, seq_length. reflexivity. Qed.
Lemma cell_row_notin c i j : ~ In i (f_rows c) -> cell_row c i j = q0.
Proof. intros N. apply qsum_zero. intros p _. rewrite rowval_notin by assumption. destruct (fst p =? j); reflexivity. Qed.
Lemma cell_row_spec m n c i : dofmap_ok m n c -> In i (f_rows c) -> computes_row c i (cell_row c i).
Proof.
  intros (NR & NC & _ & _) H. destruct (In_nth_error _ _ H) as [k Hk]. exists k. split; [assumption|]. split.
  - intros l j Hl. unfold cell_row. assert (Ll : l < length (f_cols c)) by (apply nth_error_Some; congruence).
    assert (Lk : k < length (f_rows c)) by (apply nth_error_Some; congruence).
    assert (E : nth_error (local_values c) l = Some (map (fun k => f_val c l k) (seq 0 (length (f_rows c))))) by (unfold local_values; apply (nth_error_map_seq (fun l => map (fun k => f_val c l k) (seq 0 (length (f_rows c))))); assumption).
    rewrite (qsum_single _ _ l (j, map (fun k => f_val c l k) (seq 0 (length (f_rows c))))).
    + cbn [fst snd]. rewrite Nat.eqb_refl. apply (rowval_nth _ _ _ k); [assumption..|]. apply nth_error_map_seq. assumption.
    + rewrite nth_error_combine, Hl, E. reflexivity.
    + intros l' [j' lv] H' N. rewrite nth_error_combine in H'. destruct (nth_error (f_cols c) l') as [r'|] eqn:E'; [|discriminate].
      destruct (nth_error (local_values c) l'); [|discriminate]. injection H' as -> ->. cbn. destruct (Nat.eqb_spec j' j) as [->|]; [|reflexivity].
      exfalso. apply N. apply (proj1 (NoDup_nth_error (f_cols c)) NC); [apply nth_error_Some; congruence|congruence].
  - intros j Hj. apply qsum_zero. intros [c' lv] H'. cbn. destruct (Nat.eqb_spec c' j) as [->|]; [|reflexivity]. exfalso. apply Hj. eapply in_combine_l, H'.
Qed.

(** ** The branch that skips filled rows *)

Lemma np_select_length {A B} mask (l : list A) (l' : list B) : length l = length l' -> length (np_select mask l) = length (np_select mask l').
Proof. revert l l'. induction mask as [|b mask IH]; intros [|x l] [|y l'] H; try discriminate; cbn; [reflexivity..|]. destruct b; cbn; f_equal; apply IH; cbn in H; lia. Qed.
Lemma np_select_In {A} (f : A -> bool) l x : In x (np_select (map f l) l) <-> In x l /\ f x = true.
Proof.
  induction l as [|y l IH]; cbn; [tauto|]. destruct (f y) eqn:E; cbn; rewrite IH; split.
  - intros [->|[]]; tauto.
  - intros [[->|]]; tauto.
  - tauto.
  - intros [[->|]]; [congruence|tauto].
Qed.
Lemma rowval_select (f : nat -> bool) R lv i : length lv = length R ->
  rowval (np_select (map f R) R) (np_select (map f R) lv) i = if f i then rowval R lv i else q0.
Proof.
  revert lv. induction R as [|r R IH]; intros [|v lv] L; try discriminate; cbn; [destruct (f i); reflexivity|].
  specialize (IH lv). cbn in L. unfold rowval in *. destruct (f r) eqn:E; cbn [combine map qsum fst snd]; rewrite IH by lia.
  - destruct (Nat.eqb_spec r i) as [->|]; [rewrite E; reflexivity|]. destruct (f i); [reflexivity|]. unfold q0. ring.
  - destruct (Nat.eqb_spec r i) as [->|]; [rewrite E; reflexivity|]. destruct (f i); [|reflexivity]. unfold q0. ring.
Qed.

Lemma nth_set_nth {A} (l : list A) i x d j : nth j (set_nth l i x) d = if (j =? i) && (i <? length l) then x else nth j l d.
Proof.
  revert i j. induction l as [|y l IH]; intros [|i] [|j]; cbn; try reflexivity.
  - rewrite andb_false_r. reflexivity.
  - rewrite IH. reflexivity.
Qed.
Lemma set_nth_length {A} (l : list A) i x : length (set_nth l i x) = length l.
Proof. revert i. induction l as [|y l IH]; intros [|i]; cbn; auto. Qed.
Lemma clear_nth needs ds i : nth i (clear needs ds) false = if existsb (Nat.eqb i) ds then false else nth i needs false.
Proof.
  unfold clear. revert needs. induction ds as [|d ds IH]; intros needs; [reflexivity|]. cbn [fold_left existsb]. rewrite IH, nth_set_nth.
  destruct (Nat.eqb_spec i d) as [->|]; cbn [orb andb]; [|reflexivity]. destruct (existsb (Nat.eqb d) ds); [reflexivity|].
  destruct (Nat.ltb_spec d (length needs)); [reflexivity|]. apply nth_overflow. assumption.
Qed.

Lemma flat_map_concat {A B} (g : A -> list B) l : flat_map g l = concat (map g l).
Proof. apply flat_map_concat_map. Qed.

Lemma trace_triples_step needs c cells i j :
  coo_ent (trace_triples needs (c :: cells)) i j =
  ((if nth i needs false then cell_row c i j else q0) +
   coo_ent (trace_triples (clear needs (np_select (map (fun d => nth d needs false) (f_rows c)) (f_rows c))) cells) i j)%Qc.
Proof.
  cbn [trace_triples]. rewrite coo_app. f_equal. rewrite flat_map_concat.
  rewrite coo_block.
  - unfold cell_row. transitivity (qsum (map (fun p => if fst p =? j then (if nth i needs false then rowval (f_rows c) (snd p) i else q0) else q0) (combine (f_cols c) (local_values c)))).
    + assert (G : forall C LV, (forall lv, In lv LV -> length lv = length (f_rows c)) ->
        qsum (map (fun p => if fst p =? j then rowval (np_select (map (fun d => nth d needs false) (f_rows c)) (f_rows c)) (snd p) i else q0) (combine C (map (np_select (map (fun d => nth d needs false) (f_rows c))) LV))) =
        qsum (map (fun p => if fst p =? j then (if nth i needs false then rowval (f_rows c) (snd p) i else q0) else q0) (combine C LV))).
      { induction C as [|x C IH]; intros [|lv LV] H; try reflexivity. cbn [map combine qsum fst snd]. f_equal.
        - rewrite (rowval_select (fun d => nth d needs false)) by (apply H; left; reflexivity). reflexivity.
        - apply (IH LV). intros; apply H; right; assumption. }
      apply G, local_values_In.
    + destruct (nth i needs false); [reflexivity|]. apply qsum_zero. intros. destruct (_ =? _); reflexivity.
  - rewrite map_length, local_values_length. reflexivity.
  - intros lv H. apply in_map_iff in H. destruct H as (lv' & <- & H). apply np_select_length. apply local_values_In. assumption.
Qed.

Lemma trace_triples_filled needs cells i j : nth i needs false = false -> coo_ent (trace_triples needs cells) i j = q0.
Proof.
  revert needs. induction cells as [|c cells IH]; intros needs H; [reflexivity|]. rewrite trace_triples_step, H, IH; [unfold q0; ring|].
  rewrite clear_nth, H. destruct (existsb _ _); reflexivity.
Qed.

Lemma existsb_nat i l : existsb (Nat.eqb i) l = true <-> In i l.
Proof. rewrite existsb_exists. split; [intros (x & H & E); apply Nat.eqb_eq in E; subst; assumption|intros H; exists i; rewrite Nat.eqb_refl; auto]. Qed.

Lemma trace_triples_skip pre c post i j needs : nth i needs false = true -> In i (f_rows c) -> (forall c', In c' pre -> ~ In i (f_rows c')) ->
  coo_ent (trace_triples needs (pre ++ c :: post)) i j = cell_row c i j.
Proof.
  revert needs. induction pre as [|c0 pre IH]; intros needs H Hc Hp.
  - cbn [app]. rewrite trace_triples_step, H. rewrite trace_triples_filled; [unfold q0; ring|]. rewrite clear_nth.
    replace (existsb _ _) with true; [reflexivity|]. symmetry. apply existsb_nat. apply (np_select_In (fun d => nth d needs false)). auto.
  - cbn [app]. rewrite trace_triples_step, H. rewrite cell_row_notin by (apply Hp; left; reflexivity). rewrite IH; [unfold q0; ring| |assumption|intros; apply Hp; right; assumption].
    rewrite clear_nth, H. replace (existsb _ _) with false; [reflexivity|]. symmetry. apply not_true_is_false. intros E. apply existsb_nat in E.
    apply (np_select_In (fun d => nth d needs false)) in E. eapply Hp; [left; reflexivity|apply E].
Qed.
Lemma trace_triples_none needs cells i j : (forall c, In c cells -> ~ In i (f_rows c)) -> coo_ent (trace_triples needs cells) i j = q0.
Proof.
  revert needs. induction cells as [|c cells IH]; intros needs H; [reflexivity|]. rewrite trace_triples_step, cell_row_notin, IH.
  - destruct (nth i needs false); unfold q0; ring.
  - intros; apply H; right; assumption.
  - apply H. left. reflexivity.
Qed.

Lemma nth_repeat_in {A} (x : A) n i d : i < n -> nth i (repeat x n) d = x.
Proof. revert i. induction n as [|n IH]; intros [|i] H; try lia; cbn; [reflexivity|]. apply IH. lia. Qed.

Lemma trace_cg_first m n cells : Forall (dofmap_ok m n) cells -> first_cell_rows m cells (trace_cg m n cells).
Proof.
  intros F. rewrite Forall_forall in F. split.
  - intros pre c post i -> Hi Hp. assert (D : dofmap_ok m n c) by (apply F, in_or_app; right; left; reflexivity).
    pose proof (cell_row_spec m n c i D Hi) as (k & Hk & H1 & H2). exists k. split; [assumption|]. unfold trace_cg. cbn [ent coo].
    assert (E : forall j, coo_ent (trace_triples (repeat true m) (pre ++ c :: post)) i j = cell_row c i j).
    { intros j. apply trace_triples_skip; [apply nth_repeat_in; apply D; assumption|assumption..]. }
    split; intros; rewrite E; auto.
  - intros i j H. apply trace_triples_none. assumption.
Qed.

(** ** The branch for discontinuous targets *)

Lemma coo_dg c i j : coo_ent (dg_triples c) i j = cell_row c i j.
Proof. unfold dg_triples. apply coo_block; [symmetry; apply local_values_length|apply local_values_In]. Qed.
Lemma trace_dg_first m n cells : Forall (dofmap_ok m n) cells -> disjoint_rows cells -> first_cell_rows m cells (trace_dg m n cells).
Proof.
  intros F DJ. rewrite Forall_forall in F. split.
  - intros pre c post i E Hi Hp. assert (D : dofmap_ok m n c) by (apply F; rewrite E; apply in_or_app; right; left; reflexivity).
    pose proof (cell_row_spec m n c i D Hi) as (k & Hk & H1 & H2). exists k. split; [assumption|].
    assert (EJ : forall j, ent (trace_dg m n cells) i j = cell_row c i j).
    { intros j. unfold trace_dg. cbn [ent coo]. rewrite coo_flat_map.
      assert (Hc : nth_error cells (length pre) = Some c) by (rewrite E, nth_error_app2, Nat.sub_diag by lia; reflexivity).
      rewrite (qsum_single _ _ (length pre) c); [apply coo_dg|assumption|].
      intros k' c' H' N. rewrite coo_dg. apply cell_row_notin. intros In'. apply N. eapply DJ; eassumption. }
    split; intros; rewrite EJ; auto.
  - intros i j H. unfold trace_dg. cbn [ent coo]. rewrite coo_flat_map. apply qsum_zero. intros c Hc. rewrite coo_dg. apply cell_row_notin, H, Hc.
Qed.

(** ** Insertion *)

Lemma set_row_other E i cols vals i' j : i' <> i -> set_row E i cols vals i' j = E i' j.
Proof.
  intros N. unfold set_row. generalize (combine cols vals). intros l. revert E. induction l as [|p l IH]; intros E; [reflexivity|]. cbn [fold_left].
  rewrite IH. unfold set_ent. apply Nat.eqb_neq in N. rewrite N. reflexivity.
Qed.
Lemma set_row_notin E i cols vals j : ~ In j cols -> set_row E i cols vals i j = E i j.
Proof.
  unfold set_row. revert E vals. induction cols as [|c cols IH]; intros E [|v vals] N; try reflexivity. cbn [combine fold_left fst snd].
  rewrite IH by (intros H; apply N; right; assumption). unfold set_ent. replace (j =? c) with false; [rewrite andb_false_r; reflexivity|].
  symmetry. apply Nat.eqb_neq. intros ->. apply N. left. reflexivity.
Qed.
Lemma set_row_nth E i cols vals l j v : NoDup cols -> nth_error cols l = Some j -> nth_error vals l = Some v -> set_row E i cols vals i j = v.
Proof.
  unfold set_row. revert E vals l. induction cols as [|c cols IH]; intros E [|w vals] [|l] ND Hj Hv; try discriminate.
  - cbn in Hj, Hv. injection Hj as ->. injection Hv as ->. cbn [combine fold_left fst snd].
    fold (set_row (set_ent E i j v) i cols vals). inversion ND as [|? ? N1 N2]; subst. rewrite set_row_notin by assumption. unfold set_ent. rewrite !Nat.eqb_refl. reflexivity.
  - inversion ND as [|? ? N1 N2]; subst. cbn [combine fold_left fst snd]. apply (IH _ vals l); assumption.
Qed.

Lemma fill_dofs_done c k ds s i : nth i (fst s) true = true -> (forall j, snd (fill_dofs c k ds s) i j = snd s i j) /\ nth i (fst (fill_dofs c k ds s)) true = true.
Proof.
  revert k s. induction ds as [|d ds IH]; intros k s H; [auto|]. cbn [fill_dofs]. destruct (nth d (fst s) true) eqn:E; [apply IH; assumption|].
  destruct (IH (S k) (set_nth (fst s) d true, set_row (snd s) d (f_cols c) (map (fun l => f_val c l k) (seq 0 (length (f_cols c)))))) as [A B].
  - cbn [fst]. rewrite nth_set_nth. destruct (_ && _); [reflexivity|assumption].
  - split; [|assumption]. intros j. rewrite A. cbn [snd]. apply set_row_other. intros ->. congruence.
Qed.
Lemma fill_dofs_other c k ds s i : ~ In i ds -> (forall j, snd (fill_dofs c k ds s) i j = snd s i j) /\ nth i (fst (fill_dofs c k ds s)) true = nth i (fst s) true.
Proof.
  revert k s. induction ds as [|d ds IH]; intros k s H; [auto|]. cbn [fill_dofs]. assert (N : i <> d) by (intros ->; apply H; left; reflexivity).
  assert (H' : ~ In i ds) by (intros X; apply H; right; assumption).
  destruct (nth d (fst s) true) eqn:E; [apply IH; assumption|].
  destruct (IH (S k) (set_nth (fst s) d true, set_row (snd s) d (f_cols c) (map (fun l => f_val c l k) (seq 0 (length (f_cols c))))) H') as [A B].
  split.
  - intros j. rewrite A. cbn [snd]. apply set_row_other. assumption.
  - rewrite B. cbn [fst]. rewrite nth_set_nth. apply Nat.eqb_neq in N. rewrite N. reflexivity.
Qed.
Lemma fill_dofs_hit c ds k s p i : NoDup (f_cols c) -> i < length (fst s) -> nth i (fst s) true = false -> nth_error ds p = Some i -> NoDup ds ->
  (forall l j, nth_error (f_cols c) l = Some j -> snd (fill_dofs c k ds s) i j = f_val c l (k + p)) /\
  (forall j, ~ In j (f_cols c) -> snd (fill_dofs c k ds s) i j = snd s i j) /\
  nth i (fst (fill_dofs c k ds s)) true = true.
Proof.
  intros NC. revert k s p. induction ds as [|d ds IH]; intros k s p Li Hv Hp ND; [destruct p; discriminate|]. inversion ND as [|? ? N1 N2]; subst.
  cbn [fill_dofs]. destruct p as [|p].
  - cbn in Hp. injection Hp as ->. rewrite Hv.
    match goal with |- context [fill_dofs c (S k) ds ?s'] => set (s1 := s') end.
    destruct (fill_dofs_done c (S k) ds s1 i) as [A B].
    { unfold s1. cbn [fst]. rewrite nth_set_nth, Nat.eqb_refl. apply Nat.ltb_lt in Li. rewrite Li. reflexivity. }
    split; [|split; [|assumption]].
    + intros l j Hl. rewrite A. unfold s1. cbn [snd]. rewrite Nat.add_0_r. apply (set_row_nth _ _ _ _ l); [assumption..|].
      apply (nth_error_map_seq (fun l => f_val c l k)). apply nth_error_Some. congruence.
    + intros j Hj. rewrite A. unfold s1. cbn [snd]. apply set_row_notin. assumption.
  - cbn in Hp. assert (N : i <> d) by (intros ->; apply N1; eapply nth_error_In; eassumption). replace (k + S p) with (S k + p) by lia.
    destruct (nth d (fst s) true); [apply IH; assumption|].
    match goal with |- context [fill_dofs c (S k) ds ?s'] => set (s1 := s') end.
    destruct (IH (S k) s1 p) as (A & B & C); try assumption.
    + unfold s1. cbn [fst]. rewrite set_nth_length. assumption.
    + unfold s1. cbn [fst]. rewrite nth_set_nth. apply Nat.eqb_neq in N. rewrite N. assumption.
    + split; [assumption|]. split; [|assumption]. intros j Hj. rewrite B by assumption. unfold s1. cbn [snd]. apply set_row_other. assumption.
Qed.

Lemma fill_length c ds k s : length (fst (fill_dofs c k ds s)) = length (fst s).
Proof. revert k s. induction ds as [|d ds IH]; intros k s; [reflexivity|]. cbn [fill_dofs]. destruct (nth d (fst s) true); rewrite IH; [reflexivity|]. cbn [fst]. apply set_nth_length. Qed.

Lemma fill_cells_done cells s i : nth i (fst s) true = true -> forall j, snd (fold_left (fun s c => fill_dofs c 0 (f_rows c) s) cells s) i j = snd s i j.
Proof.
  revert s. induction cells as [|c cells IH]; intros s H j; [reflexivity|]. cbn [fold_left]. destruct (fill_dofs_done c 0 (f_rows c) s i H) as [A B].
  rewrite IH by assumption. apply A.
Qed.
Lemma fill_cells_skip cells s i : (forall c, In c cells -> ~ In i (f_rows c)) ->
  (forall j, snd (fold_left (fun s c => fill_dofs c 0 (f_rows c) s) cells s) i j = snd s i j) /\ nth i (fst (fold_left (fun s c => fill_dofs c 0 (f_rows c) s) cells s)) true = nth i (fst s) true /\
  length (fst (fold_left (fun s c => fill_dofs c 0 (f_rows c) s) cells s)) = length (fst s).
Proof.
  revert s. induction cells as [|c cells IH]; intros s H; [auto|]. cbn [fold_left].
  destruct (fill_dofs_other c 0 (f_rows c) s i) as [A B]; [apply H; left; reflexivity|].
  destruct (IH (fill_dofs c 0 (f_rows c) s)) as (C & D & E); [intros; apply H; right; assumption|]. split; [|split].
  - intros j. rewrite C. apply A.
  - rewrite D. apply B.
  - rewrite E. apply fill_length.
Qed.
Lemma restriction_fill_first m n cells : Forall (dofmap_ok m n) cells -> first_cell_rows m cells (restriction_fill m n cells).
Proof.
  intros F. rewrite Forall_forall in F. split.
  - intros pre c post i -> Hi Hp. assert (D : dofmap_ok m n c) by (apply F, in_or_app; right; left; reflexivity). destruct D as (NR & NC & RM & CN).
    destruct (In_nth_error _ _ Hi) as [k Hk]. exists k. split; [assumption|]. unfold restriction_fill. cbn [ent]. rewrite fold_left_app. cbn [fold_left].
    match goal with |- context [fold_left ?f pre ?s0] => set (s1 := fold_left f pre s0); destruct (fill_cells_skip pre s0 i Hp) as (A & B & C); fold s1 in A, B, C end.
    cbn [fst snd] in A, B, C. rewrite nth_repeat_in in B by auto. rewrite repeat_length in C.
    destruct (fill_dofs_hit c (f_rows c) 0 s1 k i) as (P & Q & T); [assumption|rewrite C; auto|assumption..|].
    split; intros; rewrite fill_cells_done by assumption; [apply P; assumption|rewrite Q by assumption; apply A].
  - intros i j H. unfold restriction_fill. cbn [ent]. destruct (fill_cells_skip cells (repeat false m, fun _ _ => q0) i H) as (A & _). apply A.
Qed.

(** ** Consequences of filling rows first come first served *)

Lemma first_of cells i : (forall c, In c cells -> ~ In i (f_rows c)) \/
  exists pre c post, cells = pre ++ c :: post /\ In i (f_rows c) /\ forall c', In c' pre -> ~ In i (f_rows c').
Proof.
  induction cells as [|c cells IH]; [left; intros ? []|].
  destruct (in_dec Nat.eq_dec i (f_rows c)) as [H|H].
  - right. exists [], c, cells. repeat split; [assumption|]. intros ? [].
  - destruct IH as [A|(pre & c1 & post & -> & A & B)].
    + left. intros c' [<-|]; auto.
    + right. exists (c :: pre), c1, post. repeat split; [assumption|]. intros c' [<-|]; auto.
Qed.
Lemma order_independent m cells cells' A A' : first_cell_rows m cells A -> first_cell_rows m cells' A' -> cells_agree cells ->
  (forall c, In c cells <-> In c cells') -> forall i j, ent A i j = ent A' i j.
Proof.
  intros [F1 F2] [F1' F2'] AG P i j. destruct (first_of cells i) as [N|(pre & c & post & E & Hc & Hp)].
  - rewrite F2 by assumption. rewrite F2'; [reflexivity|]. intros c Hc. apply N, P, Hc.
  - destruct (first_of cells' i) as [N'|(pre' & c' & post' & E' & Hc' & Hp')].
    + exfalso. apply (N' c); [apply P; rewrite E; apply in_or_app; right; left; reflexivity|assumption].
    + apply (AG c c' i).
      * rewrite E. apply in_or_app; right; left; reflexivity.
      * apply P. rewrite E'. apply in_or_app; right; left; reflexivity.
      * eapply F1; eassumption.
      * eapply F1'; eassumption.
Qed.
Lemma sumn_support n (u : nat -> Qc) cols (row : nat -> Qc) : NoDup cols -> (forall j, In j cols -> j < n) -> (forall j, ~ In j cols -> row j = q0) ->
  sumn n (fun j => (row j * u j)%Qc) = qsum (map (fun j => (row j * u j)%Qc) cols).
Proof.
  intros ND LT Z. transitivity (sumn n (fun j => qsum (map (fun c => if c =? j then (row c * u c)%Qc else q0) cols))).
  - apply sumn_ext. intros j _. destruct (in_dec Nat.eq_dec j cols) as [H|H].
    + destruct (In_nth_error _ _ H) as [k Hk]. rewrite (qsum_single _ _ k j); [rewrite Nat.eqb_refl; reflexivity|assumption|].
      intros k' y Hy N. destruct (Nat.eqb_spec y j) as [->|]; [|reflexivity]. exfalso. apply N.
      apply (proj1 (NoDup_nth_error cols) ND); [apply nth_error_Some; congruence|congruence].
    + rewrite Z by assumption. rewrite qsum_zero; [unfold q0; ring|]. intros y Hy. destruct (Nat.eqb_spec y j) as [->|]; [contradiction|reflexivity].
  - rewrite sumn_qsum. apply qsum_ext. intros c Hc. rewrite (sumn_single n c); [rewrite Nat.eqb_refl; reflexivity|auto|].
    intros i _ N. replace (c =? i) with false; [reflexivity|]. symmetry. apply Nat.eqb_neq. congruence.
Qed.
Lemma map_nth_seq {A B} (f : A -> B) (g : nat -> B) l : (forall k x, nth_error l k = Some x -> g k = f x) -> map g (seq 0 (length l)) = map f l.
Proof.
  revert g. induction l as [|x l IH]; intros g H; [reflexivity|]. cbn [length seq map]. f_equal; [apply (H 0 x eq_refl)|].
  rewrite <- seq_shift, map_map. apply IH. intros k y Hk. apply (H (S k) y Hk).
Qed.

(** The product with a vector of coefficients. *)
Lemma computes_row_apply m n c i A u k : dofmap_ok m n c -> i < nr A -> nc A = n -> nth_error (f_rows c) k = Some i -> computes_row c i (ent A i) ->
  vnth (mv A u) i = qsum (map (fun l => (f_val c l k * vnth u (nth l (f_cols c) 0%nat))%Qc) (seq 0 (length (f_cols c)))).
Proof.
  intros (NR & NC & RM & CN) Hi Hn Hk (k' & Hk' & H1 & H2).
  assert (k' = k) by (apply (proj1 (NoDup_nth_error (f_rows c)) NR); [apply nth_error_Some; congruence|congruence]). subst k'.
  rewrite vnth_mv by assumption. rewrite Hn. rewrite (sumn_support n (vnth u) (f_cols c)) by assumption. f_equal. symmetry.
  apply map_nth_seq. intros l j Hl. rewrite (H1 l j Hl). f_equal. f_equal. apply nth_error_nth. assumption.
Qed.

(** Visited cells. *)
Lemma trace_cells_In marks tags c : In c (trace_cells marks tags) <-> c < length marks /\ In (nth c marks 0) tags.
Proof.
  unfold trace_cells. rewrite in_concat. split.
  - intros (l & Hl & Hc). apply in_map_iff in Hl. destruct Hl as (t & <- & Ht). unfold subset_iterator in Hc. apply filter_In in Hc. destruct Hc as [Hc E].
    apply in_seq in Hc. apply Nat.eqb_eq in E. subst t. split; [lia|assumption].
  - intros [L Ht]. exists (subset_iterator marks (nth c marks 0)). split; [apply in_map, Ht|]. apply filter_In. split; [apply in_seq; lia|apply Nat.eqb_refl].
Qed.
Lemma trace_cells_NoDup marks tags : NoDup tags -> NoDup (trace_cells marks tags).
Proof.
  unfold trace_cells. induction tags as [|t tags IH]; intros H; [constructor|]. inversion H as [|? ? N1 N2]; subst. cbn [map concat].
  assert (ND : NoDup (subset_iterator marks t)) by (apply NoDup_filter, seq_NoDup).
  assert (DJ : forall c, In c (subset_iterator marks t) -> ~ In c (concat (map (subset_iterator marks) tags))).
  { intros c Hc Hc'. apply filter_In in Hc. destruct Hc as [_ E]. apply Nat.eqb_eq in E. fold (trace_cells marks tags) in Hc'. apply trace_cells_In in Hc'. rewrite E in Hc'. tauto. }
  revert ND DJ. generalize (subset_iterator marks t) as l. induction l as [|x l IHl]; intros ND DJ; cbn; [apply IH, N2|].
  inversion ND as [|? ? M1 M2]; subst. constructor.
  - rewrite in_app_iff. intros [Hx|Hx]; [contradiction|]. apply (DJ x (or_introl eq_refl) Hx).
  - apply IHl; [assumption|]. intros c Hc. apply DJ. right. assumption.
Qed.
