(** Specification vocabulary and proofs for InjectModel.v *)
From Coq Require Import Lia Permutation.
From Verif Require Import Base BaseProofs Mat MatProofs InjectModel.
Local Open Scope nat_scope.

(** The coarse function with coefficients [w] is on cell [c] the sum of its basis
    functions there; this is its degree of freedom [l] on the fine cell [f] *)
Definition dof_of (V : pair_of_spaces) (w : nat -> Qc) (f l c : nat) : Qc :=
  sumn (length (v_dofs_c V c)) (fun k => (w (nth k (v_dofs_c V c) 0%nat) * v_value V f l c k)%Qc).
(** component [i] of the product of the matrix and [w] *)
Definition product (n : nat) (M : nat -> nat -> Qc) (w : nat -> Qc) (i : nat) : Qc := sumn n (fun j => (M i j * w j)%Qc).
(** Degree of freedom [i] is number [l] of fine cell [f], a child of the coarse cell [c] *)
Definition is_dof (V : pair_of_spaces) (parents : list nat) (i f l c : nat) : Prop :=
  nth_error parents f = Some c /\ nth_error (v_dofs V f) l = Some i.

Lemma entry_app t t' i j : entry (t ++ t') i j = (entry t i j + entry t' i j)%Qc.
Proof.
  induction t as [| x t IH]; cbn [app entry fold_right].
  - change (entry t' i j = (q0 + entry t' i j)%Qc). unfold q0. ring.
  - unfold entry in *. rewrite IH. destruct ((fst (fst x) =? i) && (snd (fst x) =? j))%bool; ring.
Qed.
Lemma product_app n t t' w i : product n (entry (t ++ t')) w i = (product n (entry t) w i + product n (entry t') w i)%Qc.
Proof. unfold product. rewrite <- sumn_plus. apply sumn_ext. intros j Hj. rewrite entry_app. ring. Qed.
Lemma product_other n t w i : (forall x, In x t -> fst (fst x) <> i) -> product n (entry t) w i = q0.
Proof.
  intros H. unfold product. apply sumn_zero. intros j Hj. enough (entry t i j = q0) as -> by (unfold q0; ring).
  induction t as [| x t IH]; [reflexivity |]. cbn [entry fold_right]. destruct (Nat.eqb_spec (fst (fst x)) i) as [E | E].
  - exfalso. apply (H x); [left; auto | exact E].
  - cbn [andb]. apply IH. intros y Hy. apply H. right. auto.
Qed.
Lemma product_one n i j x w : j < n -> product n (entry [(i, j, x)]) w i = (w j * x)%Qc.
Proof.
  intros Hj. unfold product. rewrite (sumn_single n j); auto.
  - cbn [entry fold_right fst snd]. rewrite !Nat.eqb_refl. cbn [andb]. unfold q0. ring.
  - intros k Hk Hne. cbn [entry fold_right fst snd]. rewrite Nat.eqb_refl. destruct (Nat.eqb_spec j k) as [E | E]; [congruence |]. cbn [andb]. unfold q0. ring.
Qed.
Lemma combine_map_seq (cd : list nat) (g : nat -> Qc) : combine cd (map g (seq 0 (length cd))) = map (fun k => (nth k cd 0, g k)) (seq 0 (length cd)).
Proof.
  revert g. induction cd as [| c cd IH]; intros g; [reflexivity |]. cbn [length seq map combine nth]. f_equal.
  rewrite <- !seq_shift, !map_map. apply (IH (fun k => g (S k))).
Qed.
Lemma product_row n m i (at_ : nat -> nat) (g : nat -> Qc) w : (forall k, k < m -> at_ k < n) ->
  product n (entry (map (fun k => (i, at_ k, g k)) (seq 0 m))) w i = sumn m (fun k => (w (at_ k) * g k)%Qc).
Proof.
  induction m as [| m IH]; intros H.
  - cbn [seq map sumn]. apply product_other. intros x [].
  - rewrite seq_S, map_app, product_app. cbn [sumn map plus]. rewrite IH by (intros; apply H; lia). rewrite product_one by (apply H; lia). reflexivity.
Qed.
Lemma visit_nth l i k : nth_error (visit l i) k = if (k =? i) && (i <? length l) then Some true else nth_error l k.
Proof.
  revert i k. induction l as [| a l IH]; intros i k.
  - destruct i, k; cbn; rewrite ?andb_false_r; reflexivity.
  - destruct i as [| i], k as [| k]; try reflexivity. cbn [visit nth_error]. rewrite IH. cbn [length]. change (S k =? S i) with (k =? i). change (S i <? S (length l)) with (i <? length l). reflexivity.
Qed.
Lemma visit_length l i : length (visit l i) = length l.
Proof. revert i. induction l as [| a l IH]; intros [| i]; cbn; auto. Qed.

(** What holds of the rows that are there: they belong to some cell; others are empty *)
Definition rows_right (V : pair_of_spaces) (parents : list nat) (st : list bool * list triplet) : Prop :=
  length (fst st) = v_dim V /\
  (forall i, nth_error (fst st) i = Some false -> forall x, In x (snd st) -> fst (fst x) <> i) /\
  (forall i, nth_error (fst st) i = Some true -> exists f l c, is_dof V parents i f l c /\
    forall w, product (v_dim_c V) (entry (snd st)) w i = dof_of V w f l c).

Lemma fill_rows_ok V parents f c dofs l0 st : rows_right V parents st -> nth_error parents f = Some c ->
  (forall l i, nth_error dofs l = Some i -> nth_error (v_dofs V f) (l0 + l) = Some i) ->
  (forall i, In i dofs -> i < v_dim V) -> (forall j, In j (v_dofs_c V c) -> j < v_dim_c V) ->
  exists st', fill_rows V false f c l0 dofs st = Ok st' /\ rows_right V parents st' /\
    (forall i, In i dofs -> nth_error (fst st') i = Some true) /\ (forall i, nth_error (fst st) i = Some true -> nth_error (fst st') i = Some true).
Proof.
  revert l0 st. induction dofs as [| dof dofs IH]; intros l0 st Hst Hf Hl Hd Hc; cbn [fill_rows].
  - exists st. split; [reflexivity |]. split; auto. split; auto. intros i [].
  - destruct Hst as [Hlen [Hno Hyes]]. destruct (nth_error (fst st) dof) as [seen |] eqn:E.
    2:{ exfalso. apply nth_error_None in E. specialize (Hd dof (or_introl eq_refl)). lia. }
    assert (Hl' : forall l i, nth_error dofs l = Some i -> nth_error (v_dofs V f) (S l0 + l) = Some i).
    { intros l i Hi. replace (S l0 + l) with (l0 + S l) by lia. apply Hl. exact Hi. }
    cbn [opt_res bind]. destruct seen.
    + destruct (IH (S l0) st) as [st' [E' [R' [A' B']]]]; auto. { repeat split; auto. } { intros i Hi. apply Hd. right. auto. }
      exists st'. split; auto. split; auto. split; auto. intros i [<- | Hi]; auto.
    + set (new := map (fun jx => (dof, fst jx, snd jx)) (combine (v_dofs_c V c) (map (fun k => v_value V f l0 c k) (seq 0 (length (v_dofs_c V c)))))).
      assert (Enew : new = map (fun k => (dof, nth k (v_dofs_c V c) 0, v_value V f l0 c k)) (seq 0 (length (v_dofs_c V c)))).
      { unfold new. rewrite combine_map_seq, map_map. reflexivity. }
      assert (Hrow : forall x, In x new -> fst (fst x) = dof). { intros x Hx. rewrite Enew in Hx. apply in_map_iff in Hx. destruct Hx as [k [<- _]]. reflexivity. }
      assert (Hlt : dof < length (fst st)) by (apply nth_error_Some; congruence). apply Nat.ltb_lt in Hlt.
      destruct (IH (S l0) (visit (fst st) dof, snd st ++ new)) as [st' [E' [R' [A' B']]]]; auto.
      * unfold rows_right. cbn [fst snd]. rewrite visit_length. split; [exact Hlen |]. split.
        -- intros i Hi x Hx. rewrite visit_nth, Hlt, andb_true_r in Hi. destruct (Nat.eqb_spec i dof) as [Ei | Ei]; [discriminate |].
           apply in_app_or in Hx. destruct Hx as [Hx | Hx]; [apply Hno; auto |]. rewrite (Hrow x Hx). congruence.
        -- intros i Hi. rewrite visit_nth, Hlt, andb_true_r in Hi. destruct (Nat.eqb_spec i dof) as [Ei | Ei].
           ++ subst i. exists f, l0, c. split. { split; auto. specialize (Hl 0 dof eq_refl). rewrite Nat.add_0_r in Hl. exact Hl. }
              intros w. rewrite product_app, (product_other _ (snd st)) by (apply Hno; auto). rewrite Enew, product_row.
              ** unfold dof_of, q0. ring.
              ** intros k Hk. apply Hc, nth_In, Hk.
           ++ destruct (Hyes i Hi) as [f' [l' [c' [H1 H2]]]]. exists f', l', c'. split; auto. intros w. rewrite product_app, (product_other _ new), H2. { unfold q0. ring. }
              intros x Hx. rewrite (Hrow x Hx). congruence.
      * intros i Hi. apply Hd. right. auto.
      * exists st'. split; auto. split; auto. split.
        -- intros i [<- | Hi]; auto. apply B'. cbn [fst]. rewrite visit_nth, Hlt, Nat.eqb_refl. reflexivity.
        -- intros i Hi. apply B'. cbn [fst]. rewrite visit_nth, Hlt, andb_true_r. destruct (i =? dof); auto.
Qed.

Lemma fill_cells_ok V parents cs f0 st : rows_right V parents st ->
  (forall f c, nth_error cs f = Some c -> nth_error parents (f0 + f) = Some c) ->
  (forall f i, f < f0 + length cs -> In i (v_dofs V f) -> i < v_dim V) -> (forall c j, In c cs -> In j (v_dofs_c V c) -> j < v_dim_c V) ->
  exists st', fill_cells V false f0 cs st = Ok st' /\ rows_right V parents st' /\
    (forall f i, f < length cs -> In i (v_dofs V (f0 + f)) -> nth_error (fst st') i = Some true) /\ (forall i, nth_error (fst st) i = Some true -> nth_error (fst st') i = Some true).
Proof.
  revert f0 st. induction cs as [| c cs IH]; intros f0 st Hst Hp Hd Hc; cbn [fill_cells].
  - exists st. split; [reflexivity |]. split; auto. split; auto. intros f i Hf. cbn in Hf. lia.
  - destruct (fill_rows_ok V parents f0 c (v_dofs V f0) 0 st) as [st1 [E1 [R1 [A1 B1]]]]; auto.
    { specialize (Hp 0 c eq_refl). rewrite Nat.add_0_r in Hp. exact Hp. }
    { intros i Hi. apply (Hd f0); auto. cbn. lia. } { intros j Hj. apply (Hc c); auto. left. auto. }
    rewrite E1. cbn [bind]. destruct (IH (S f0) st1) as [st' [E' [R' [A' B']]]]; auto.
    { intros f c' Hf. replace (S f0 + f) with (f0 + S f) by lia. apply Hp. exact Hf. }
    { intros f i Hf. apply Hd. cbn. lia. } { intros c' j Hc' Hj. apply (Hc c'); auto. right. auto. }
    exists st'. split; auto. split; auto. split; auto.
    intros [| f] i Hf Hi. { apply B', A1. rewrite Nat.add_0_r in Hi. exact Hi. } apply (A' f i). { cbn in Hf. lia. } replace (S f0 + f) with (f0 + S f) by lia. exact Hi.
Qed.

(** The order of the dictionary *)
Lemma put_key_perm : forall x l, Permutation (put_key x l) (x :: l).
Proof.
  intros x l. induction l as [| y l IH]; cbn [put_key]; auto. destruct (fst x <=? fst y); auto.
  eapply perm_trans; [apply perm_skip, IH | apply perm_swap].
Qed.
Lemma sort_perm : forall l, Permutation (fold_right put_key [] l) l.
Proof. induction l as [| x l IH]; cbn; auto. eapply perm_trans; [apply put_key_perm | auto]. Qed.
Fixpoint ascending (l : list nat) : Prop := match l with [] => True | x :: r => (forall y, In y r -> x <= y) /\ ascending r end.
Lemma put_key_asc : forall x l, ascending (map fst l) -> ascending (map fst (put_key x l)).
Proof.
  intros x l. induction l as [| y l IH]; intros H; cbn [put_key].
  - cbn. split; [intros y [] | auto].
  - destruct (Nat.leb_spec (fst x) (fst y)) as [Hle | Hlt]; cbn [map ascending] in *; destruct H as [Hy H].
    + split; [| split; auto]. intros z [<- | Hz]; auto. specialize (Hy z Hz). lia.
    + split; [| auto]. intros z Hz. apply in_map_iff in Hz. destruct Hz as [p [<- Hp]]. apply (Permutation_in _ (put_key_perm x l)) in Hp.
      destruct Hp as [<- | Hp]; [lia |]. apply Hy, in_map, Hp.
Qed.
Lemma sort_asc : forall l, ascending (map fst (fold_right put_key [] l)).
Proof. induction l as [| x l IH]; cbn; auto. apply put_key_asc, IH. Qed.
Lemma asc_seq : forall l a, ascending l -> Permutation l (seq a (length l)) -> l = seq a (length l).
Proof.
  induction l as [| x l IH]; intros a Ha Hp; [reflexivity |]. cbn [length seq] in *. destruct Ha as [Hx Ha].
  assert (x = a); [| subst x; f_equal; apply IH; auto; apply Permutation_cons_inv in Hp; exact Hp].
  assert (Hin : In x (a :: seq (S a) (length l))) by (apply (Permutation_in _ Hp); left; auto).
  assert (Hin' : In a (x :: l)) by (apply (Permutation_in _ (Permutation_sym Hp)); left; auto).
  destruct Hin as [Hin | Hin]; auto. apply in_seq in Hin. destruct Hin' as [-> | Hin']; auto. specialize (Hx a Hin'). lia.
Qed.
Lemma combine_seq_nth (keys : list nat) i k : nth_error keys i = Some k -> In (k, i) (combine keys (seq 0 (length keys))).
Proof.
  assert (G : forall a, nth_error keys i = Some k -> In (k, a + i) (combine keys (seq a (length keys)))).
  { revert i. induction keys as [| x keys IH]; intros i a H; [destruct i; discriminate |]. destruct i as [| i]; cbn [length seq combine].
    - injection H as ->. left. f_equal. lia.
    - right. replace (a + S i) with (S a + i) by lia. apply IH. exact H. }
  intros H. exact (G 0 H).
Qed.
(** argsort of a permutation is its inverse *)
Lemma argsort_inverse keys i k : Permutation keys (seq 0 (length keys)) -> nth_error keys i = Some k -> nth_error (argsort keys) k = Some i.
Proof.
  intros Hp Hi. unfold argsort. set (l := combine keys (seq 0 (length keys))). pose proof (sort_perm l) as P.
  assert (Ef : map fst l = keys). { unfold l. clear. generalize 0. induction keys as [| x keys IH]; intros a; cbn; [reflexivity |]. f_equal. apply IH. }
  assert (Ll : length l = length keys) by (rewrite <- (map_length fst l), Ef; reflexivity).
  assert (E : map fst (fold_right put_key [] l) = seq 0 (length keys)).
  { assert (Hl : length (map fst (fold_right put_key [] l)) = length keys) by (rewrite map_length, <- Ll; apply Permutation_length, P).
    rewrite <- Hl. apply asc_seq; [apply sort_asc |]. rewrite Hl. eapply perm_trans; [apply Permutation_map, P |]. rewrite Ef. exact Hp. }
  assert (Hin : In (k, i) (fold_right put_key [] l)) by (apply (Permutation_in _ (Permutation_sym P)), combine_seq_nth, Hi).
  apply In_nth_error in Hin. destruct Hin as [m Hm].
  assert (Em : nth_error (map fst (fold_right put_key [] l)) m = Some k) by (rewrite nth_error_map, Hm; reflexivity).
  assert (Hlt : m < length keys). { rewrite <- (seq_length (length keys) 0), <- E. apply nth_error_Some. congruence. }
  rewrite E in Em. assert (k = m).
  { rewrite (nth_error_nth' _ 0) in Em by (rewrite seq_length; auto). rewrite seq_nth in Em by auto. injection Em as <-. reflexivity. }
  subst m. rewrite nth_error_map, Hm. reflexivity.
Qed.
Lemma argsort_length keys : length (argsort keys) = length keys.
Proof. unfold argsort. rewrite map_length, (Permutation_length (sort_perm _)), combine_length, seq_length. lia. Qed.
Lemma write_nth l i x k : nth_error (write l i x) k = if (k =? i) && (i <? length l) then Some x else nth_error l k.
Proof.
  revert i k. induction l as [| a l IH]; intros i k.
  - destruct i, k; cbn; rewrite ?andb_false_r; reflexivity.
  - destruct i as [| i], k as [| k]; try reflexivity. cbn [write nth_error]. rewrite IH. cbn [length]. change (S k =? S i) with (k =? i). change (S i <? S (length l)) with (i <? length l). reflexivity.
Qed.
Lemma write_length l i x : length (write l i x) = length l.
Proof. revert i. induction l as [| a l IH]; intros [| i]; cbn; auto. Qed.
Lemma write_all_length idx xs l : length (write_all l idx xs) = length l.
Proof. revert l xs. induction idx as [| i idx IH]; intros l [| x xs]; cbn; auto. rewrite IH. apply write_length. Qed.
Lemma write_all_other idx xs l k : ~ In k idx -> nth_error (write_all l idx xs) k = nth_error l k.
Proof.
  revert l xs. induction idx as [| i idx IH]; intros l [| x xs] H; cbn [write_all]; auto. rewrite IH by (intros E; apply H; right; auto).
  rewrite write_nth. destruct (Nat.eqb_spec k i) as [E | E]; [exfalso; apply H; left; auto | reflexivity].
Qed.
Lemma write_all_nth idx xs l m i x : NoDup idx -> nth_error idx m = Some i -> nth_error xs m = Some x -> i < length l -> nth_error (write_all l idx xs) i = Some x.
Proof.
  revert l xs m. induction idx as [| i0 idx IH]; intros l xs m Hn Hi Hx Hl; [destruct m; discriminate |]. inversion Hn as [| a b Hni Hn' Eab]; subst.
  destruct xs as [| x0 xs]; [destruct m; discriminate |]. cbn [write_all]. destruct m as [| m].
  - injection Hi as ->. injection Hx as ->. rewrite write_all_other by auto. apply Nat.ltb_lt in Hl. rewrite write_nth, Nat.eqb_refl, Hl. reflexivity.
  - apply (IH _ _ m); auto. rewrite write_length. exact Hl.
Qed.
Lemma argsort_nodup keys : NoDup (argsort keys).
Proof.
  unfold argsort. apply (Permutation_NoDup (l := map snd (combine keys (seq 0 (length keys))))).
  - apply Permutation_sym, Permutation_map, sort_perm.
  - replace (map snd (combine keys (seq 0 (length keys)))) with (seq 0 (length keys)). { apply seq_NoDup. }
    generalize 0. induction keys as [| x keys IH]; intros a; cbn; [reflexivity |]. f_equal. apply IH.
Qed.
(** What line 46 does: the value of the key that is [k]-th goes where the inverse order has [k] *)
Lemma fine_to_coarse_nth items : items <> [] -> Permutation (map fst items) (seq 0 (length items)) ->
  exists r, fine_to_coarse items = Ok r /\ length r = length items /\
    forall i k c, nth_error (map fst items) i = Some k -> nth_error (map snd items) k = Some c -> nth_error r i = Some c.
Proof.
  intros Hne Hp. destruct items as [| it items]; [congruence |]. set (its := it :: items) in *.
  exists (write_all (map snd its) (argsort (map fst its)) (map snd its)). split; [reflexivity |]. split. { rewrite write_all_length. apply map_length. }
  intros i k c Hi Hc. apply (write_all_nth _ _ _ k); auto. { apply argsort_nodup. }
  - apply argsort_inverse; auto. rewrite map_length. exact Hp.
  - rewrite map_length. apply nth_error_Some. intros E. apply nth_error_None in E. assert (i < length (map fst its)) by (apply nth_error_Some; congruence). rewrite map_length in *. lia.
Qed.
Lemma lists_equal {A} (l l' : list A) : (forall i, nth_error l i = nth_error l' i) -> l = l'.
Proof.
  revert l'. induction l as [| a l IH]; intros [| b l'] H; auto; try (specialize (H 0); discriminate).
  pose proof (H 0) as H0. injection H0 as ->. f_equal. apply IH. intros i. exact (H (S i)).
Qed.
Lemma fine_to_coarse_in_order cs : cs <> [] -> fine_to_coarse (combine (seq 0 (length cs)) cs) = Ok cs.
Proof.
  intros Hne. assert (Hf : forall a, map fst (combine (seq a (length cs)) cs) = seq a (length cs)).
  { clear. induction cs as [| c cs IH]; intros a; cbn; [reflexivity |]. f_equal. apply IH. }
  assert (Hs : forall a, map snd (combine (seq a (length cs)) cs) = cs). { clear. induction cs as [| c cs IH]; intros a; cbn; [reflexivity |]. f_equal. apply IH. }
  assert (Hl : length (combine (seq 0 (length cs)) cs) = length cs) by (rewrite combine_length, seq_length; lia).
  destruct (fine_to_coarse_nth (combine (seq 0 (length cs)) cs)) as [r [E [Lr Hr]]].
  { intros E. apply (f_equal (@length _)) in E. rewrite Hl in E. destruct cs; [congruence | discriminate]. }
  { rewrite Hf, Hl. auto. }
  rewrite E. f_equal. apply lists_equal. intros i. rewrite Hf, Hs in Hr. destruct (Nat.lt_ge_cases i (length cs)) as [Hi | Hi].
  - destruct (nth_error cs i) as [c |] eqn:Ec; [| apply nth_error_None in Ec; lia]. apply (Hr i i c); auto.
    rewrite (nth_error_nth' _ 0) by (rewrite seq_length; auto). rewrite seq_nth; auto.
  - rewrite (proj2 (nth_error_None r i)) by lia. rewrite (proj2 (nth_error_None cs i)) by lia. reflexivity.
Qed.

(** ** Each entry is set once *)
Lemma NoDup_app_disjoint {A} (l l' : list A) : NoDup l -> NoDup l' -> (forall x, In x l -> In x l' -> False) -> NoDup (l ++ l').
Proof.
  induction l as [| a l IH]; intros H H' D; cbn; auto. inversion H as [| ? ? Ha Hl]; subst. constructor.
  - intros C. apply in_app_or in C. destruct C as [C | C]; [auto | apply (D a); [left; reflexivity | exact C]].
  - apply IH; auto. intros x Hx. apply D. right. exact Hx.
Qed.
Definition set_once (st : list bool * list triplet) : Prop :=
  NoDup (map fst (snd st)) /\ forall x, In x (snd st) -> nth_error (fst st) (fst (fst x)) = Some true.
Lemma fill_rows_once V f c dofs : NoDup (v_dofs_c V c) -> forall l0 st st', set_once st -> fill_rows V false f c l0 dofs st = Ok st' -> set_once st'.
Proof.
  intros Hc. induction dofs as [| dof dofs IH]; intros l0 st st' Hst E; cbn [fill_rows] in E; [injection E as <-; exact Hst |].
  destruct (nth_error (fst st) dof) as [seen |] eqn:En; cbn [opt_res bind] in E; [| discriminate]. destruct seen; [apply (IH _ _ _ Hst E) |].
  refine (IH _ _ _ _ E). rewrite combine_map_seq, map_map. destruct Hst as [N1 N2]. cbn [fst snd].
  assert (Hlt : dof < length (fst st)) by (apply nth_error_Some; congruence). apply Nat.ltb_lt in Hlt.
  split; cbn [fst snd].
  - rewrite map_app, map_map. cbn [fst snd].
    assert (Q : forall m, m <= length (v_dofs_c V c) -> NoDup (map (fun k => (dof, nth k (v_dofs_c V c) 0)) (seq 0 m))).
    { intros m Hm. induction m as [| m IHm]; [constructor |]. rewrite seq_S, map_app. cbn [map plus]. apply NoDup_app_disjoint; [apply IHm; lia | repeat constructor; auto |].
      intros x C [<- | []]. apply in_map_iff in C. destruct C as (k & Ek & Hk). apply in_seq in Hk. injection Ek as Ek. apply (NoDup_nth (v_dofs_c V c) 0) in Ek; auto; lia. }
    apply NoDup_app_disjoint; auto. intros x Hx Hx'. apply in_map_iff in Hx. destruct Hx as (y & <- & Hy). apply in_map_iff in Hx'. destruct Hx' as (k & Ek & _).
    specialize (N2 y Hy). rewrite <- Ek in N2. cbn [fst] in N2. congruence.
  - intros x Hx. rewrite visit_nth, Hlt, andb_true_r. apply in_app_or in Hx. destruct Hx as [Hx | Hx].
    + rewrite (N2 x Hx). destruct (_ =? _); reflexivity.
    + apply in_map_iff in Hx. destruct Hx as (k & <- & _). cbn [fst]. rewrite Nat.eqb_refl. reflexivity.
Qed.
Lemma fill_cells_once V cs : (forall c, In c cs -> NoDup (v_dofs_c V c)) -> forall f0 st st', set_once st -> fill_cells V false f0 cs st = Ok st' -> set_once st'.
Proof.
  induction cs as [| c cs IH]; intros Hc f0 st st' Hst E; cbn [fill_cells] in E; [injection E as <-; exact Hst |].
  destruct (fill_rows V false f0 c 0 (v_dofs V f0) st) as [st1 |] eqn:E1; cbn [bind] in E; [| discriminate].
  apply (IH (fun c' H => Hc c' (or_intror H)) _ _ _ (fill_rows_once V f0 c _ (Hc c (or_introl eq_refl)) _ _ _ Hst E1) E).
Qed.
Lemma inserted_entry t i j : NoDup (map fst t) -> inserted t i j = entry t i j.
Proof.
  unfold inserted. enough (G : forall s, NoDup (map fst t) -> (In (i, j) (map fst t) -> s = q0) ->
    fold_left (fun s x => if ((fst (fst x) =? i) && (snd (fst x) =? j))%bool then snd x else s) t s = (s + entry t i j)%Qc).
  { intros H. rewrite G; auto. unfold q0. ring. }
  induction t as [| x t IH]; intros s Hn Hs; cbn [fold_left].
  - cbn [entry fold_right]. unfold q0. ring.
  - inversion Hn as [| ? ? Hx Hn']; subst. unfold entry. cbn [fold_right]. fold (entry t i j).
    destruct (Nat.eqb_spec (fst (fst x)) i) as [E1 | E1]; cbn [andb]; [destruct (Nat.eqb_spec (snd (fst x)) j) as [E2 | E2] |].
    + assert (Ex : fst x = (i, j)) by (destruct x as [[a b] v]; cbn in *; congruence). rewrite IH; auto.
      * rewrite (Hs (or_introl Ex)). unfold q0. ring.
      * intros C. exfalso. apply Hx. rewrite Ex. exact C.
    + apply IH; auto. intros C. apply Hs. right. exact C.
    + apply IH; auto. intros C. apply Hs. right. exact C.
Qed.
