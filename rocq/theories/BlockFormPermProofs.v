(** Proofs about block_form.permute. *)
From Verif Require Import Base BaseProofs UflModel UflProofs BlockFormModel BlockFormProofs BlockFormAddProofs.
From Coq Require Import Permutation Sorted.
Local Open Scope nat_scope.

(** The ordering lists every index once. *)
Definition lists_all (n : nat) (o : list Z) : Prop :=
  NoDup o /\ forall z, In z o <-> (0 <= z < Z.of_nat n)%Z.

Lemma zinsert_perm x l : Permutation (x :: l) (zinsert x l).
Proof.
  induction l as [|y l IH]; cbn [zinsert]; [apply Permutation_refl|]. destruct (x <=? y)%Z; [apply Permutation_refl|].
  eapply Permutation_trans; [apply perm_swap|]. constructor. assumption.
Qed.
Lemma np_sort_perm l : Permutation l (np_sort l).
Proof.
  induction l as [|x l IH]; cbn [np_sort]; [constructor|]. eapply Permutation_trans; [|apply zinsert_perm]. constructor. assumption.
Qed.
Lemma zinsert_sorted x l : StronglySorted Z.le l -> StronglySorted Z.le (zinsert x l).
Proof.
  induction l as [|y l IH]; cbn [zinsert]; intros H; [repeat constructor|]. inversion H as [|? ? H1 H2]; subst. destruct (x <=? y)%Z eqn:E.
  - apply Z.leb_le in E. constructor; [assumption|]. constructor; [assumption|]. eapply Forall_impl; [|exact H2]. intros; lia.
  - apply Z.leb_gt in E. constructor; [auto|]. eapply Permutation_Forall; [apply zinsert_perm|]. constructor; [lia|assumption].
Qed.
Lemma np_sort_sorted l : StronglySorted Z.le (np_sort l).
Proof. induction l as [|x l IH]; cbn [np_sort]; [constructor|]. apply zinsert_sorted. assumption. Qed.

Lemma sorted_unique l m : StronglySorted Z.le l -> StronglySorted Z.le m -> Permutation l m -> l = m.
Proof.
  revert m. induction l as [|x l IH]; intros m Hl Hm P; [apply Permutation_nil in P; congruence|].
  destruct m as [|y m]; [apply Permutation_sym, Permutation_nil in P; discriminate|].
  inversion Hl as [|? ? L1 L2]; subst. inversion Hm as [|? ? M1 M2]; subst. rewrite Forall_forall in L2, M2.
  assert (x = y).
  { assert (In x (y :: m)) by (eapply Permutation_in; [exact P|left; reflexivity]).
    assert (In y (x :: l)) by (eapply Permutation_in; [apply Permutation_sym; exact P|left; reflexivity]).
    destruct H as [->|H]; [reflexivity|]. destruct H0 as [->|H0]; [reflexivity|]. apply L2 in H0. apply M2 in H. lia. }
  subst y. f_equal. apply IH; try assumption. eapply Permutation_cons_inv. exact P.
Qed.

Definition zseq (x : Z) (n : nat) : list Z := map (fun k => (x + Z.of_nat k)%Z) (seq 0 n).

Lemma zseq_S x n : zseq x (S n) = x :: zseq (x + 1) n.
Proof. unfold zseq. cbn [seq map]. f_equal; [lia|]. rewrite <- seq_shift, map_map. apply map_ext. intros; lia. Qed.
Lemma zseq_In x n z : In z (zseq x n) <-> (x <= z < x + Z.of_nat n)%Z.
Proof.
  unfold zseq. rewrite in_map_iff. split.
  - intros (k & <- & Hk). apply in_seq in Hk. lia.
  - intros H. exists (Z.to_nat (z - x)). split; [lia|]. apply in_seq. lia.
Qed.
Lemma zseq_NoDup x n : NoDup (zseq x n).
Proof. unfold zseq. apply FinFun.Injective_map_NoDup; [intros a b E; lia|apply seq_NoDup]. Qed.
Lemma zseq_length x n : length (zseq x n) = n.
Proof. unfold zseq. rewrite map_length, seq_length. reflexivity. Qed.
Lemma zseq_sorted n : forall x, StronglySorted Z.le (zseq x n).
Proof.
  induction n as [|n IH]; intros x; [constructor|]. rewrite zseq_S. constructor; [apply IH|].
  apply Forall_forall. intros z Hz. apply zseq_In in Hz. lia.
Qed.

Lemma np_diff_cons x y l : np_diff (x :: y :: l) = (y - x)%Z :: np_diff (y :: l).
Proof. reflexivity. Qed.
Lemma np_diff_zseq n : forall x, np_diff (zseq x (S n)) = repeat 1%Z n.
Proof.
  induction n as [|n IH]; intros x; [reflexivity|]. rewrite !zseq_S, np_diff_cons. rewrite <- zseq_S, IH. cbn [repeat]. f_equal. lia.
Qed.
Lemma np_diff_ones l x : Forall (fun d => d = 1%Z) (np_diff (x :: l)) -> x :: l = zseq x (S (length l)).
Proof.
  revert x. induction l as [|y l IH]; intros x H; [unfold zseq; cbn; f_equal; lia|].
  rewrite np_diff_cons in H. inversion H as [|? ? H1 H2]; subst. rewrite zseq_S. f_equal. replace (x + 1)%Z with y by lia. exact (IH y H2).
Qed.
Lemma np_diff_nonneg l : StronglySorted Z.le l -> Forall (fun d => (0 <= d)%Z) (np_diff l).
Proof.
  induction l as [|x l IH]; intros H; [constructor|]. destruct l as [|y l]; [constructor|]. rewrite np_diff_cons.
  inversion H as [|? ? H1 H2]; subst. constructor; [inversion H2; lia|]. apply IH. assumption.
Qed.

Lemma fold_min_spec l x : In (fold_left Z.min l x) (x :: l) /\ forall z, In z (x :: l) -> (fold_left Z.min l x <= z)%Z.
Proof.
  revert x. induction l as [|y l IH]; intros x; cbn [fold_left].
  - split; [left; reflexivity|]. intros z [->|[]]. lia.
  - destruct (IH (Z.min x y)) as [H1 H2]. split.
    + destruct H1 as [H1|H1]; [|right; right; assumption]. destruct (Z.min_spec x y) as [[_ E]|[_ E]]; rewrite <- H1, E; [left|right; left]; reflexivity.
    + intros z [->|[->|Hz]].
      * specialize (H2 (Z.min z y) (or_introl eq_refl)). lia.
      * specialize (H2 (Z.min x z) (or_introl eq_refl)). lia.
      * apply H2. right. assumption.
Qed.
Lemma fold_max_spec l x : In (fold_left Z.max l x) (x :: l) /\ forall z, In z (x :: l) -> (z <= fold_left Z.max l x)%Z.
Proof.
  revert x. induction l as [|y l IH]; intros x; cbn [fold_left].
  - split; [left; reflexivity|]. intros z [->|[]]. lia.
  - destruct (IH (Z.max x y)) as [H1 H2]. split.
    + destruct H1 as [H1|H1]; [|right; right; assumption]. destruct (Z.max_spec x y) as [[_ E]|[_ E]]; rewrite <- H1, E; [right; left|left]; reflexivity.
    + intros z [->|[->|Hz]].
      * specialize (H2 (Z.max z y) (or_introl eq_refl)). lia.
      * specialize (H2 (Z.max x z) (or_introl eq_refl)). lia.
      * apply H2. right. assumption.
Qed.

Lemma lists_all_perm n o : lists_all n o -> Permutation o (zseq 0 n).
Proof.
  intros [ND H]. apply NoDup_Permutation; [assumption|apply zseq_NoDup|]. intros z. rewrite H, zseq_In. lia.
Qed.
Lemma perm_lists_all n o : Permutation o (zseq 0 n) -> lists_all n o.
Proof.
  intros P. split; [eapply Permutation_NoDup; [apply Permutation_sym; exact P|apply zseq_NoDup]|].
  intros z. split; intros H.
  - apply (Permutation_in z P) in H. apply zseq_In in H. lia.
  - apply (Permutation_in z (Permutation_sym P)). apply zseq_In. lia.
Qed.
Lemma lists_all_length n o : lists_all n o -> length o = n.
Proof. intros H. apply lists_all_perm, Permutation_length in H. rewrite zseq_length in H. assumption. Qed.

(** The checks of permute accept exactly the listings of two or more indices. *)
Definition checks (n : nat) (o : list Z) : res unit :=
  match np_diff (np_sort o) with
  | [] => Err ValueError
  | step :: rest =>
    if forallb (Z.eqb step) rest then
      if negb (Z.abs step =? 1)%Z then Err AssertionError
      else if negb (length o =? n) then Err AssertionError
      else if negb ((zmin o =? 0) && (zmax o =? Z.of_nat n - 1))%Z then Err AssertionError
      else Ok tt
    else Err ValueError
  end.

Lemma checks_accept n o : 2 <= n -> lists_all n o -> checks n o = Ok tt.
Proof.
  intros Hn H. pose proof (lists_all_length n o H) as L. unfold checks.
  assert (E : np_sort o = zseq 0 n).
  { apply sorted_unique; [apply np_sort_sorted|apply zseq_sorted|].
    eapply Permutation_trans; [apply Permutation_sym, np_sort_perm|apply lists_all_perm; assumption]. }
  rewrite E. destruct n as [|[|n]]; try lia. rewrite np_diff_zseq. cbn [repeat].
  assert (F : forallb (Z.eqb 1) (repeat 1%Z n) = true) by (apply forallb_forall; intros z Hz; apply repeat_spec in Hz; subst; reflexivity).
  rewrite F. cbn [Z.abs Z.eqb Pos.eqb negb]. rewrite L, Nat.eqb_refl. cbn [negb].
  destruct o as [|z o]; [cbn in L; lia|]. destruct H as [_ H].
  assert (zmin (z :: o) = 0%Z) as ->.
  { destruct (fold_min_spec o z) as [A B]. unfold zmin. apply H in A. assert (In 0%Z (z :: o)) by (apply H; lia). apply B in H0. lia. }
  assert (zmax (z :: o) = (Z.of_nat (S (S n)) - 1)%Z) as ->.
  { destruct (fold_max_spec o z) as [A B]. unfold zmax. apply H in A. assert (In (Z.of_nat (S (S n)) - 1)%Z (z :: o)) by (apply H; lia). apply B in H0. lia. }
  rewrite !Z.eqb_refl. reflexivity.
Qed.

Lemma checks_sound n o : checks n o = Ok tt -> 2 <= n /\ lists_all n o.
Proof.
  unfold checks. pose proof (np_sort_perm o) as P. pose proof (np_sort_sorted o) as S.
  destruct (np_diff (np_sort o)) as [|step rest] eqn:ED; [discriminate|].
  destruct (forallb (Z.eqb step) rest) eqn:F; [|discriminate].
  destruct (Z.abs step =? 1)%Z eqn:E1; cbn [negb]; [|discriminate].
  destruct (length o =? n) eqn:E2; cbn [negb]; [|discriminate].
  destruct ((zmin o =? 0) && (zmax o =? Z.of_nat n - 1))%Z eqn:E3; cbn [negb]; [|discriminate]. intros _.
  apply Z.eqb_eq in E1. apply Nat.eqb_eq in E2. apply andb_true_iff in E3. destruct E3 as [E3 _]. apply Z.eqb_eq in E3.
  pose proof (np_diff_nonneg _ S) as NN. rewrite ED in NN. inversion NN; subst.
  assert (step = 1%Z) by lia. subst step.
  assert (ONE : Forall (fun d => d = 1%Z) (np_diff (np_sort o))).
  { rewrite ED. constructor; [reflexivity|]. apply Forall_forall. intros z Hz. rewrite forallb_forall in F. specialize (F z Hz). apply Z.eqb_eq in F. congruence. }
  destruct (np_sort o) as [|x l] eqn:ES; [discriminate|]. apply np_diff_ones in ONE.
  pose proof (Permutation_length P) as PL. cbn [length] in PL.
  split; [destruct l; [discriminate|cbn in PL; lia]|].
  assert (x = 0%Z).
  { destruct o as [|z o]; [cbn in PL; lia|]. destruct (fold_min_spec o z) as [A B]. unfold zmin in E3. rewrite E3 in A, B.
    assert (In x (z :: o)) by (eapply Permutation_in; [apply Permutation_sym; exact P|left; reflexivity]). apply B in H.
    apply (Permutation_in 0%Z P) in A. rewrite ONE in A. apply zseq_In in A. lia. }
  subst x. apply perm_lists_all. rewrite PL, <- ONE. assumption.
Qed.

Lemma permute_idx_checks b o : permute_idx b o =
  do _ <- checks (length (match b with Lin V _ => V | Bil V _ => V end)) o;
  do W <- mapM (py_get (match b with Lin V _ => V | Bil V _ => V end)) o;
  match b with
  | Lin _ bs => do l <- mapM (py_get bs) o; Ok (Lin W l)
  | Bil _ rows => do l <- mapM (fun i => mapM (fun j => do row <- py_get rows i; py_get row j) o) o; Ok (Bil W l)
  end.
Proof.
  unfold permute_idx, checks. destruct (np_diff (np_sort o)) as [|step rest]; [reflexivity|].
  destruct (forallb (Z.eqb step) rest); [|reflexivity].
  destruct (negb (Z.abs step =? 1)%Z); [reflexivity|].
  destruct (negb (length o =? _)); [reflexivity|].
  destruct (negb ((zmin o =? 0) && _)%Z); reflexivity.
Qed.

(** ** The permuted blocks *)

Lemma py_get_nth {A} (l : list A) z d : (0 <= z < Z.of_nat (length l))%Z -> py_get l z = Ok (nth (Z.to_nat z) l d).
Proof.
  intros H. unfold py_get. assert (E : (z <? 0)%Z = false) by (apply Z.ltb_ge; lia). rewrite !E.
  apply get_nth_some. apply nth_error_nth'. lia.
Qed.

Lemma mapM_py_get {A} (l : list A) d o : (forall z, In z o -> (0 <= z < Z.of_nat (length l))%Z) ->
  mapM (py_get l) o = Ok (map (fun z => nth (Z.to_nat z) l d) o).
Proof.
  intros H. apply mapM_map, Forall_forall. intros z Hz. apply py_get_nth. apply H. assumption.
Qed.

Definition dflt : block := BNum (Qcanon.Q2Qc (QArith_base.Qmake 0 1)).

Definition permuted1 {A} (d : A) (l : list A) (o : list Z) : list A := map (fun z => nth (Z.to_nat z) l d) o.
Definition permuted2 (rows : list (list block)) (o : list Z) : list (list block) :=
  map (fun i => map (fun j => nth (Z.to_nat j) (nth (Z.to_nat i) rows []) dflt) o) o.

Lemma permute_lin V0 bs o : 2 <= length V0 -> length bs = length V0 -> lists_all (length V0) o ->
  permute_idx (Lin V0 bs) o = Ok (Lin (permuted1 0 V0 o) (permuted1 dflt bs o)).
Proof.
  intros Hn L H. rewrite permute_idx_checks, checks_accept by assumption. cbn [bind].
  rewrite (mapM_py_get V0 0) by (intros z Hz; apply H; assumption). cbn [bind].
  rewrite (mapM_py_get bs dflt) by (intros z Hz; rewrite L; apply H; assumption). reflexivity.
Qed.

Lemma permute_bil V0 rows o : 2 <= length V0 -> shaped (length V0) rows -> lists_all (length V0) o ->
  permute_idx (Bil V0 rows) o = Ok (Bil (permuted1 0 V0 o) (permuted2 rows o)).
Proof.
  intros Hn [L R] H. rewrite permute_idx_checks, checks_accept by assumption. cbn [bind].
  rewrite (mapM_py_get V0 0) by (intros z Hz; apply H; assumption). cbn [bind].
  rewrite (mapM_map _ (fun i => map (fun j => nth (Z.to_nat j) (nth (Z.to_nat i) rows []) dflt) o)); [reflexivity|].
  apply Forall_forall. intros i Hi. apply H in Hi. apply mapM_map, Forall_forall. intros j Hj. apply H in Hj.
  rewrite (py_get_nth rows i []) by (rewrite L; assumption). cbn [bind]. apply py_get_nth.
  rewrite R; [assumption|]. apply nth_In. lia.
Qed.

Lemma permuted1_nth {A} (d : A) l o k z : nth_error o k = Some z -> (0 <= z < Z.of_nat (length l))%Z ->
  nth_error (permuted1 d l o) k = nth_error l (Z.to_nat z).
Proof.
  intros H Hz. unfold permuted1. rewrite nth_error_map, H. cbn [option_map]. symmetry. apply nth_error_nth'. lia.
Qed.

Lemma permuted2_blk n rows o k l zk zl : shaped n rows -> nth_error o k = Some zk -> nth_error o l = Some zl ->
  (0 <= zk < Z.of_nat n)%Z -> (0 <= zl < Z.of_nat n)%Z ->
  blk (permuted2 rows o) k l = blk rows (Z.to_nat zk) (Z.to_nat zl).
Proof.
  intros [L R] Hk Hl Zk Zl. unfold blk, permuted2. rewrite nth_error_map, Hk. cbn [option_map]. rewrite nth_error_map, Hl. cbn [option_map].
  rewrite (nth_error_nth' rows [] (n := Z.to_nat zk)) by lia. symmetry. apply nth_error_nth'.
  rewrite R; [lia|]. apply nth_In. lia.
Qed.

Lemma permuted2_shaped n rows o : length o = n -> shaped n (permuted2 rows o).
Proof.
  intros L. unfold permuted2. split; [rewrite map_length; assumption|]. intros r Hr. apply in_map_iff in Hr. destruct Hr as (z & <- & _). rewrite map_length. assumption.
Qed.

(** [p] undoes [o]: entry k of p is the place of k in o. *)
Definition undoes (o p : list Z) : Prop :=
  length p = length o /\ forall k z, nth_error p k = Some z -> (0 <= z)%Z /\ nth_error o (Z.to_nat z) = Some (Z.of_nat k).

Lemma nth_error_ext {A} (l m : list A) : (forall k, nth_error l k = nth_error m k) -> l = m.
Proof.
  revert m. induction l as [|x l IH]; intros [|y m] H; [reflexivity|specialize (H 0); discriminate|specialize (H 0); discriminate|].
  pose proof (H 0) as H0. cbn in H0. inversion H0. f_equal. apply IH. intros k. apply (H (S k)).
Qed.

Lemma undoes_lists_all n o p : lists_all n o -> undoes o p -> lists_all n p.
Proof.
  intros HO [L H]. pose proof (lists_all_length n o HO) as Lo.
  assert (ND : NoDup p).
  { apply NoDup_nth_error. intros i j Hi E. destruct (nth_error p i) as [z|] eqn:Ei; [|apply nth_error_None in Ei; lia].
    destruct (H i z Ei) as [_ A]. destruct (H j z (eq_sym E)) as [_ B]. assert (Z.of_nat i = Z.of_nat j) by congruence. lia. }
  assert (IN : incl p (zseq 0 n)).
  { intros z Hz. apply In_nth_error in Hz. destruct Hz as (k & Hk). destruct (H k z Hk) as [A B]. apply nth_error_lt in B. apply zseq_In. lia. }
  apply perm_lists_all. apply NoDup_Permutation_bis; [assumption|rewrite zseq_length; lia|assumption].
Qed.

Lemma permuted1_undo {A} (d : A) l o p : length l = length o -> lists_all (length l) o -> undoes o p ->
  permuted1 d (permuted1 d l o) p = l.
Proof.
  intros LL HO HU. pose proof (undoes_lists_all _ _ _ HO HU) as HP. destruct HU as [L H]. apply nth_error_ext. intros k.
  assert (Lp : length (permuted1 d l o) = length o) by (unfold permuted1; apply map_length).
  destruct (nth_error p k) as [z|] eqn:E.
  - destruct (H k z E) as [A0 B]. pose proof (nth_error_lt _ _ _ B) as Hz. rewrite (permuted1_nth d _ p k z E) by (rewrite Lp; lia).
    pose proof (nth_error_lt _ _ _ E). rewrite (permuted1_nth d l o _ _ B) by lia. rewrite Nat2Z.id. reflexivity.
  - apply nth_error_None in E. transitivity (@None A); [|symmetry]; apply nth_error_None; [|lia].
    unfold permuted1 at 1. rewrite map_length. assumption.
Qed.

Lemma blk_ext n rows rows' : shaped n rows -> shaped n rows' -> (forall k l, k < n -> l < n -> blk rows k l = blk rows' k l) -> rows = rows'.
Proof.
  intros [L R] [L' R'] H. apply nth_error_ext. intros k. destruct (nth_error rows k) as [r|] eqn:E.
  - pose proof (nth_error_lt _ _ _ E) as Hk. destruct (nth_error rows' k) as [r'|] eqn:E'; [|apply nth_error_None in E'; lia].
    f_equal. apply nth_error_ext. intros l. pose proof (R r (nth_error_In _ _ E)). pose proof (R' r' (nth_error_In _ _ E')).
    destruct (Nat.lt_ge_cases l n).
    + specialize (H k l ltac:(lia) H2). unfold blk in H. rewrite E, E' in H. assumption.
    + transitivity (@None block); [|symmetry]; apply nth_error_None; lia.
  - apply nth_error_None in E. symmetry. apply nth_error_None. lia.
Qed.

Lemma permuted2_undo n rows o p : shaped n rows -> lists_all n o -> undoes o p -> permuted2 (permuted2 rows o) p = rows.
Proof.
  intros SH HO HU. pose proof (lists_all_length n o HO) as Lo. pose proof (undoes_lists_all _ _ _ HO HU) as HP. destruct HU as [L H].
  apply (blk_ext n); [apply permuted2_shaped; lia|assumption|]. intros k l Hk Hl.
  destruct (nth_error p k) as [zk|] eqn:Ek; [|apply nth_error_None in Ek; lia].
  destruct (nth_error p l) as [zl|] eqn:El; [|apply nth_error_None in El; lia].
  destruct (H k zk Ek) as [A B]. destruct (H l zl El) as [A' B'].
  rewrite (permuted2_blk n (permuted2 rows o) p k l zk zl); try assumption.
  - rewrite (permuted2_blk n rows o _ _ _ _ SH B B') by lia. rewrite !Nat2Z.id. reflexivity.
  - apply permuted2_shaped. assumption.
  - apply nth_error_lt in B. lia.
  - apply nth_error_lt in B'. lia.
Qed.

(** ** Orderings given by spaces *)

Lemma index_of_spec V0 v i : at_pos V0 v i -> index_of v V0 = Ok (Z.of_nat i).
Proof. intros H. unfold index_of. rewrite (first_index_spec V0 v i H). reflexivity. Qed.

Lemma at_pos_nodup V0 v i : NoDup V0 -> nth_error V0 i = Some v -> at_pos V0 v i.
Proof.
  intros ND H. split; [assumption|]. intros k Hk E. rewrite NoDup_nth_error in ND.
  assert (k = i); [|lia]. apply ND; [eapply nth_error_lt; eassumption|congruence].
Qed.

Lemma by_space V0 l : NoDup V0 -> Permutation V0 l ->
  exists o, mapM (fun v => index_of v V0) l = Ok o /\ lists_all (length V0) o /\ permuted1 0 V0 o = l.
Proof.
  intros ND P.
  set (pos := fun v => match first_index v V0 with Ok i => i | Err _ => 0 end).
  assert (HP : forall v, In v V0 -> at_pos V0 v (pos v)).
  { intros v Hv. apply In_nth_error in Hv. destruct Hv as (i & Hi). pose proof (at_pos_nodup V0 v i ND Hi) as A.
    unfold pos. rewrite (first_index_spec V0 v i A). assumption. }
  assert (HL : forall v, In v l -> In v V0) by (intros v Hv; eapply Permutation_in; [apply Permutation_sym; exact P|assumption]).
  exists (map (fun v => Z.of_nat (pos v)) l). split; [|split].
  - apply mapM_map, Forall_forall. intros v Hv. apply index_of_spec, HP, HL, Hv.
  - apply perm_lists_all. apply NoDup_Permutation_bis.
    + assert (NDl : NoDup l) by (eapply Permutation_NoDup; eassumption). clear P. induction l as [|v l IH]; cbn [map]; constructor.
      * inversion NDl as [|? ? NI ND']; subst. rewrite in_map_iff. intros (w & E & Hw). assert (EE : pos w = pos v) by lia.
        destruct (HP w (HL w (or_intror Hw))) as [A _]. destruct (HP v (HL v (or_introl eq_refl))) as [B _]. rewrite EE in A. congruence.
      * inversion NDl; subst. apply IH; [intros w Hw; apply HL; right; assumption|assumption].
    + rewrite zseq_length, map_length. apply Permutation_length in P. lia.
    + intros z Hz. apply in_map_iff in Hz. destruct Hz as (v & <- & Hv). apply zseq_In.
      destruct (HP v (HL v Hv)) as [A _]. apply nth_error_lt in A. lia.
  - unfold permuted1. rewrite map_map. rewrite <- (map_id l) at 2. apply map_ext_in. intros v Hv. rewrite Nat2Z.id.
    destruct (HP v (HL v Hv)) as [A _]. apply nth_error_nth. assumption.
Qed.
