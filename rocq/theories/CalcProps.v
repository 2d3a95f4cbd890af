(** C102: Grad, Div and asExpr of sandbox/calculus.py *)
From Verif Require Import Base BaseProofs CalcModel CalcProofs.
From Coq Require Import Reals Qreals Lra.
Local Open Scope nat_scope.

(** The gradient of a scalar: its two partial derivatives *)
Theorem C102_scalar : forall zk e x y more, exists dx dy,
  Grad zk (Scalar e) (x :: y :: more) = Ok (SMat 2 1 [dx; dy]) /\ partial e x dx /\ partial e y dy.
Proof. intros zk e x y more. exists (diff e x), (diff e y). split; [reflexivity |]. split; apply diff_partial. Qed.
Print Assumptions C102_scalar.

(** The gradient of a vector, none of whose components is known to be zero: the partial derivatives of its components *)
Theorem C102_grad_partial : forall zk M X, (rows M = 1 \/ cols M = 1) -> length (entries M) = rows M * cols M -> entries M <> [] -> (forall e, In e (entries M) -> zk e = false) ->
  exists G, Grad zk (Matrix M) X = Ok G /\ rows G = length (entries M) /\ cols G = length X /\
    forall i j e s, nth_error (entries M) i = Some e -> nth_error X j = Some s -> exists d, entry G i j = Some d /\ partial e s d.
Proof.
  intros zk M X V L NE NZ. unfold Grad. replace (is_vector M) with true by (symmetry; unfold is_vector; apply orb_true_iff; rewrite !Nat.eqb_eq; exact V). cbn [py_assert bind].
  unfold values. rewrite filter_all by (intros e He; rewrite (NZ e He); reflexivity). eexists. split; [reflexivity |].
  assert (E : forall l : list expr, l <> [] -> of_rows (length X) (map (fun fi => map (fun xj => diff fi xj) X) l) = SMat (length l) (length X) (concat (map (fun fi => map (fun xj => diff fi xj) X) l))).
  { intros [| a l] N; [contradiction |]. unfold of_rows. rewrite map_length. reflexivity. }
  rewrite (E _ NE). cbn [rows cols]. split; [reflexivity |]. split; [reflexivity |]. intros i j e s Hi Hj. exists (diff e s). split; [| apply diff_partial].
  assert (J : j < length X) by (apply nth_error_Some; congruence). unfold entry. cbn [cols entries]. apply Nat.ltb_lt in J as J'. rewrite J'.
  rewrite nth_concat; [| intros r Hr; apply in_map_iff in Hr; destruct Hr as [a [<- _]]; apply map_length | exact J].
  rewrite (map_nth_error (fun fi => map (fun xj => diff fi xj) X) i _ Hi). apply (map_nth_error (fun xj => diff e xj) j _ Hj).
Qed.
Print Assumptions C102_grad_partial.

Lemma fewer_values (zk : expr -> bool) l e : In e l -> zk e = true -> length (filter (fun e => negb (zk e)) l) < length l.
Proof.
  intros He Hz. assert (LE : forall l, length (filter (fun e => negb (zk e)) l) <= length l) by (clear; induction l as [| a l IH]; cbn [filter length]; [lia | destruct (negb (zk a)); cbn [length]; lia]).
  induction l as [| a l IH]; [destruct He |]. destruct He as [-> | H]; cbn [filter length]; [rewrite Hz; cbn [negb]; specialize (LE l); lia |]. specialize (IH H). destruct (negb (zk a)); cbn [length]; lia.
Qed.
(** Components known to be zero have no row: the gradient has fewer rows than the vector has components *)
Theorem C102_grad_refuted : forall zk M X e, (rows M = 1 \/ cols M = 1) -> In e (entries M) -> zk e = true ->
  exists G, Grad zk (Matrix M) X = Ok G /\ rows G < length (entries M).
Proof.
  intros zk M X e V He Hz. unfold Grad. replace (is_vector M) with true by (symmetry; unfold is_vector; apply orb_true_iff; rewrite !Nat.eqb_eq; exact V). cbn [py_assert bind]. eexists. split; [reflexivity |].
  pose proof (fewer_values zk (entries M) e He Hz) as S. unfold values. destruct (filter _ (entries M)) as [| a l]; [cbn; cbn in S; lia |]. cbn [map of_rows rows length] in *. rewrite map_length. lia.
Qed.
Print Assumptions C102_grad_refuted.

(** The divergence of a vector with as many components as symbols, none known to be zero *)
Theorem C102_div_partial : forall zk M X, (rows M = 1 \/ cols M = 1) -> (forall e, In e (entries M) -> zk e = false) -> length (entries M) = length X ->
  exists d ds, Div zk (Matrix M) X = Ok (Scalar d) /\ Forall2 (fun p g => partial (fst p) (snd p) g) (combine (entries M) X) ds /\
    forall x, eval x d = fold_right (fun g t => (eval x g + t)%R) 0%R ds.
Proof.
  intros zk M X V NZ L. unfold Div. replace (is_vector M) with true by (symmetry; unfold is_vector; apply orb_true_iff; rewrite !Nat.eqb_eq; exact V). unfold div_vector, values.
  rewrite filter_all by (intros e He; rewrite (NZ e He); reflexivity). eexists. exists (map (fun p => diff (fst p) (snd p)) (combine (entries M) X)). split; [reflexivity |]. split.
  - induction (combine (entries M) X) as [| p l IH]; cbn [map]; constructor; [apply diff_partial | exact IH].
  - intros x. rewrite fold_plus. cbn [eval]. replace (Q2R 0) with 0%R by (unfold Q2R; cbn; field). rewrite Rplus_0_l.
    induction (combine (entries M) X) as [| p l IH]; cbn [map fold_right]; [reflexivity |]. rewrite IH. reflexivity.
Qed.
Print Assumptions C102_div_partial.

(** After a zero component the others are differentiated by the wrong symbols: the divergence of (0, y) comes out as 0 *)
Theorem C102_div_refuted : forall zk x y, honest zk -> x <> y ->
  exists M d g, entries M = [Num 0; Sym y] /\ cols M = 1 /\ rows M = 2 /\ Div zk (Matrix M) [x; y] = Ok (Scalar d) /\ (forall p, eval p d = 0%R) /\
    partial (Sym y) y g /\ forall p, eval p g = 1%R.
Proof.
  intros zk x y [Z0 HZ] N. exists (SMat 2 1 [Num 0; Sym y]). eexists. exists (Num 1). split; [reflexivity |]. split; [reflexivity |]. split; [reflexivity |].
  split; [reflexivity |]. assert (E0 : Q2R 0 = 0%R) by (unfold Q2R; cbn; field). assert (E1 : Q2R 1 = 1%R) by (unfold Q2R; cbn; field). split; [| split].
  - intros p. unfold div_vector, values. cbn [entries filter]. rewrite Z0. cbn [negb]. destruct (zk (Sym y)) eqn:Y.
    + exfalso. specialize (HZ _ Y (fun _ => 1%R)). cbn in HZ. lra.
    + cbn [negb combine fold_left fst snd]. cbn [eval diff]. destruct (Nat.eqb_spec y x) as [-> | _]; [contradiction |]. cbn [eval]. rewrite E0. ring.
  - replace (Num 1) with (diff (Sym y) y) by (cbn [diff]; rewrite Nat.eqb_refl; reflexivity). apply diff_partial.
  - intros p. exact E1.
Qed.
Print Assumptions C102_div_refuted.

(** Tensors with the default symbols: row by row the divergence, under the same assumption *)
Theorem C102_tensor_partial : forall zk M X, rows M <> 1 -> rows M <> 0 -> cols M = 2 -> length (entries M) = rows M * 2 -> (forall e, In e (entries M) -> zk e = false) ->
  exists D, Div zk (Matrix M) X = Ok (Matrix D) /\ rows D = rows M /\ cols D = 1 /\
    forall i a b, entry M i 0 = Some a -> entry M i 1 = Some b -> exists d da db, entry D i 0 = Some d /\ partial a 0 da /\ partial b 1 db /\ forall x, eval x d = (eval x da + eval x db)%R.
Proof.
  intros zk M X R1 R0 C2 L NZ. unfold Div. replace (is_vector M) with false by (symmetry; unfold is_vector; apply orb_false_iff; rewrite !Nat.eqb_neq; split; [exact R1 | lia]).
  replace (is_2tensor M) with true by (symmetry; unfold is_2tensor; apply negb_true_iff, orb_false_iff; rewrite !Nat.eqb_neq; split; [exact R1 | lia]). cbn [py_assert bind].
  eexists. split; [reflexivity |].
  assert (E : column (map (fun i => div_vector zk (row M i) default) (seq 0 (rows M))) = SMat (rows M) 1 (map (fun i => div_vector zk (row M i) default) (seq 0 (rows M)))).
  { unfold column. destruct (map _ _) as [| a l] eqn:E; [apply map_eq_nil in E; destruct (rows M); [contradiction | discriminate] |]. rewrite <- E, map_length, seq_length. reflexivity. }
  rewrite E. cbn [rows cols]. split; [reflexivity |]. split; [reflexivity |]. intros i a b Ha Hb. unfold entry in Ha, Hb. rewrite C2 in Ha, Hb. cbn in Ha, Hb.
  assert (Hi : i < rows M) by (assert (i * 2 + 1 < length (entries M)) by (apply nth_error_Some; congruence); lia).
  exists (div_vector zk (row M i) default), (diff a 0), (diff b 1). split; [| split; [apply diff_partial | split; [apply diff_partial |]]].
  - unfold entry. cbn [cols entries]. change (0 <? 1) with true. cbn iota. replace (i * 1 + 0) with i by lia. rewrite (map_nth_error (fun i => div_vector zk (row M i) default) i (seq 0 (rows M)) (d := i)); [reflexivity |].
    rewrite nth_error_nth' with (d := 0) by (rewrite seq_length; exact Hi). rewrite seq_nth by exact Hi. reflexivity.
  - intros x. assert (ER : entries (row M i) = [a; b]).
    { unfold row. cbn [entries]. rewrite C2. replace (i * 2 + 0) with (i * 2) in Ha by lia. clear - Ha Hb. revert Ha Hb. generalize (entries M) as l, (i * 2) as k. intros l k. revert l. induction k as [| k IH]; intros l Ha Hb.
      - destruct l as [| u [| v l]]; cbn in *; congruence.
      - destruct l as [| u l]; [discriminate |]. cbn [skipn]. apply IH; assumption. }
    assert (IN : forall e, In e [a; b] -> zk e = false) by (intros e [<- | [<- | []]]; apply NZ; eapply nth_error_In; eassumption).
    unfold div_vector, values. rewrite ER, filter_all by (intros e He; rewrite (IN e He); reflexivity). cbn [default combine fold_left fst snd eval]. replace (Q2R 0) with 0%R by (unfold Q2R; cbn; field). ring.
Qed.
Print Assumptions C102_tensor_partial.

(** Other symbols are not passed on: whatever X, the divergence of a tensor without the default symbols is zero *)
Theorem C102_symbols_refuted : forall zk X Y, exists M D, entries M = [Sym 2; Num 0; Num 0; Sym 3] /\ rows M = 2 /\ cols M = 2 /\
  Div zk (Matrix M) X = Ok (Matrix D) /\ Div zk (Matrix M) Y = Ok (Matrix D) /\ forall d x, In d (entries D) -> eval x d = 0%R.
Proof.
  intros zk X Y. exists (SMat 2 2 [Sym 2; Num 0; Num 0; Sym 3]). eexists. split; [reflexivity |]. split; [reflexivity |]. split; [reflexivity |]. split; [reflexivity |]. split; [reflexivity |].
  assert (E0 : Q2R 0 = 0%R) by (unfold Q2R; cbn; field). intros d x H. cbn in H.
  destruct H as [<- | [<- | []]]; unfold div_vector, values; cbn [row cols entries firstn skipn Nat.mul Nat.add filter]; destruct (zk (Num 0)), (zk (Sym 2)), (zk (Sym 3)); cbn [negb combine default fold_left fst snd eval diff Nat.eqb]; rewrite ?E0; ring.
Qed.
Print Assumptions C102_symbols_refuted.

(** The first check of the script: the gradient of the symbol x by the default symbols is not (1, 0) *)
Theorem C102_script_refuted : forall zk s, ~ In s default -> exists a b, Grad zk (Scalar (Sym s)) default = Ok (SMat 2 1 [a; b]) /\ forall x, eval x a = 0%R /\ eval x b = 0%R.
Proof.
  intros zk s N. exists (Num 0), (Num 0). split.
  - unfold Grad, default. cbn [nth_error opt_res bind diff column length]. destruct s as [| [| s]]; [exfalso; apply N; left; reflexivity | exfalso; apply N; right; left; reflexivity | reflexivity].
  - intros x. cbn [eval]. split; unfold Q2R; cbn; field.
Qed.
Print Assumptions C102_script_refuted.

(** asExpr: the entries, if none is known to be zero; otherwise an error *)
Theorem C102_expression_partial : forall zk M, length (entries M) = rows M * cols M -> 0 < rows M -> 0 < cols M -> (forall e, In e (entries M) -> zk e = false) ->
  ((rows M = 1 \/ cols M = 1) -> asExpr zk (Matrix M) = Ok (EVector (entries M))) /\
  (rows M <> 1 -> cols M <> 1 -> exists l, asExpr zk (Matrix M) = Ok (ETensor l) /\ length l = rows M /\ forall i j, i < rows M -> j < cols M -> exists r, nth_error l i = Some r /\ length r = cols M /\ nth_error r j = entry M i j).
Proof.
  intros zk M L PR PC NZ. unfold asExpr, values. rewrite filter_all by (intros e He; rewrite (NZ e He); reflexivity). split.
  - intros V. replace (is_vector M) with true by (symmetry; unfold is_vector; apply orb_true_iff; rewrite !Nat.eqb_eq; exact V).
    replace (length (entries M) =? Nat.max (rows M) (cols M)) with true; [reflexivity |]. symmetry. apply Nat.eqb_eq. destruct V as [V | V]; rewrite V in *; lia.
  - intros R1 C1. replace (is_vector M) with false by (symmetry; unfold is_vector; apply orb_false_iff; rewrite !Nat.eqb_neq; split; assumption).
    rewrite <- L, Nat.eqb_refl. eexists. split; [reflexivity |]. unfold entry. generalize (entries M) as l, L. clear - PC. generalize (rows M) as m. induction m as [| m IH]; intros l L; [split; [reflexivity | intros; lia] |].
    cbn [chunks length]. destruct (IH (skipn (cols M) l)) as [IL IE]; [rewrite skipn_length; lia |]. split; [congruence |]. intros i j Hi Hj. destruct i as [| i]; cbn [nth_error].
    + eexists. split; [reflexivity |]. split; [rewrite firstn_length; lia |]. apply Nat.ltb_lt in Hj as J. rewrite J. cbn [Nat.mul Nat.add].
      rewrite <- (firstn_skipn (cols M) l) at 2. symmetry. apply nth_error_app1. rewrite firstn_length. lia.
    + destruct (IE i j) as [r [E1 [E2 E3]]]; [lia | exact Hj |]. exists r. split; [exact E1 |]. split; [exact E2 |]. rewrite E3. destruct (j <? cols M); [| reflexivity].
      rewrite <- (firstn_skipn (cols M) l) at 2. rewrite nth_error_app2 by (rewrite firstn_length; nia). f_equal. rewrite firstn_length. nia.
Qed.
Print Assumptions C102_expression_partial.
Theorem C102_expression_refuted : forall zk M e, length (entries M) = rows M * cols M -> In e (entries M) -> zk e = true -> asExpr zk (Matrix M) = Err ValueError.
Proof.
  intros zk M e L He Hz. pose proof (fewer_values zk (entries M) e He Hz) as S. unfold asExpr, values. set (n := length (filter _ _)) in *. destruct (is_vector M) eqn:V.
  - replace (n =? Nat.max (rows M) (cols M)) with false; [reflexivity |]. symmetry. apply Nat.eqb_neq. unfold is_vector in V. apply orb_true_iff in V. rewrite !Nat.eqb_eq in V. destruct V as [V | V]; rewrite V in *; lia.
  - replace (n =? rows M * cols M) with false; [reflexivity |]. symmetry. apply Nat.eqb_neq. lia.
Qed.
Print Assumptions C102_expression_refuted.

(** A case: the vector (x y, sin y) and what SymPy knows about numbers *)
Definition knows (e : expr) : bool := match e with Num q => Qeq_bool q 0 | _ => false end.
Example C102_honest : honest knows.
Proof.
  split; [reflexivity |]. intros [q | s | a b | a b | a n | a | a | a] H x; try discriminate. cbn in H. apply Qeq_bool_iff, Qeq_eqR in H. cbn [eval]. rewrite H. unfold Q2R. cbn. field.
Qed.
Example C102_ex : let M := SMat 2 1 [Times (Sym 0) (Sym 1); Sin (Sym 1)] in (rows M = 1 \/ cols M = 1) /\ length (entries M) = rows M * cols M /\ (forall e, In e (entries M) -> knows e = false) /\
  exists d, Div knows (Matrix M) default = Ok (Scalar d) /\ forall x, eval x d = (x 1%nat + cos (x 1%nat))%R.
Proof.
  cbv zeta. split; [right; reflexivity |]. split; [reflexivity |]. split; [intros e [<- | [<- | []]]; reflexivity |]. eexists. split; [reflexivity |].
  intros x. cbn [div_vector values entries filter knows negb combine default fold_left fst snd diff Nat.eqb eval]. unfold Q2R. cbn. field.
Qed.
Example C102_tensor_ex : let M := SMat 2 2 [Sym 0; Sym 1; Exp (Sym 0); Cos (Sym 1)] in rows M <> 1 /\ rows M <> 0 /\ cols M = 2 /\ length (entries M) = rows M * 2 /\ forall e, In e (entries M) -> knows e = false.
Proof. cbv zeta. repeat split; try discriminate. intros e [<- | [<- | [<- | [<- | []]]]]; reflexivity. Qed.
