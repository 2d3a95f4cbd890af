(** Specification vocabulary and proofs for RestrictModel.v. *)
From Verif Require Import Base BaseProofs Mat MatProofs FillModel FillProofs EntityModel EntityProofs RestrictModel.
Local Open Scope nat_scope.
Local Close Scope Q_scope.
Local Close Scope Qc_scope.
Local Arguments Nat.ltb : simpl never.
Local Arguments Nat.leb : simpl never.
Local Arguments Nat.eqb : simpl never.

(** ** Specification vocabulary *)

(** The component in direction [n] of the vector from [p] to [x]: the height of [x]
    over the plane with normal [n] through [p] *)
Definition height (gdim : nat) (n p x : vec) : Qc := sumn gdim (fun k => ((vnth x k - vnth p k) * vnth n k)%Qc).
(** Sum over the local basis functions: coefficient times value *)
Definition local_value (u : vec) (dofs : list nat) (value : nat -> Qc) : Qc := sumn (length dofs) (fun l => (vnth u (nth l dofs 0%nat) * value l)%Qc).
(** [t] is the first of the cells with the dof [i], which is its [k]-th. *)
Definition first_with (dofs : nat -> list nat) (cells : list nat) (t k i : nat) : Prop :=
  exists pre post, cells = pre ++ t :: post /\ nth_error (dofs t) k = Some i /\ forall t', In t' pre -> ~ In i (dofs t').
(** Dofs in range and without repetition *)
Definition dofs_ok (n : nat) (dofs : nat -> list nat) (cells : list nat) : Prop := forall c, In c cells -> NoDup (dofs c) /\ forall j, In j (dofs c) -> j < n.
(** Positions in the list with a common dof are the same. *)
Definition dofs_apart (dofs : nat -> list nat) (cells : list nat) : Prop :=
  forall a b ta tb i, nth_error cells a = Some ta -> nth_error cells b = Some tb -> In i (dofs ta) -> In i (dofs tb) -> a = b.
(** The midpoint of vertices *)
Definition midpoint_of (gdim : nat) (vs : list vec) (p : vec) : Prop := forall k, k < gdim -> (vnth p k * qz (Z.of_nat (length vs)) = qplus_list (map (fun v => vnth v k) vs))%Qc.

(** ** Sides *)

Lemma inner_height gdim a b n : inner gdim (vminus gdim a b) n = height gdim n b a.
Proof. unfold inner, height. apply sumn_ext. intros k Hk. unfold vminus. rewrite vnth_vtab by exact Hk. reflexivity. Qed.
Lemma height_opp gdim n p x : height gdim n p x = (- height gdim n x p)%Qc.
Proof.
  unfold height. transitivity (sumn gdim (fun k => ((- 1%Qc) * ((vnth p k - vnth x k) * vnth n k))%Qc)); [apply sumn_ext; intros; ring|]. rewrite sumn_scal. ring.
Qed.
Lemma qc_opp_lt (x : Qc) : (0 < - x)%Qc <-> (x < 0)%Qc.
Proof.
  split; intros H.
  - apply Qclt_minus_iff in H. apply Qclt_minus_iff. replace (0 + - x)%Qc with (- x + - 0)%Qc by ring. exact H.
  - apply Qclt_minus_iff in H. apply Qclt_minus_iff. replace (- x + - 0)%Qc with (0 + - x)%Qc by ring. exact H.
Qed.

Section Side.
Variable gdim : nat.
Variables cell_mid trace_mid normal : nat -> vec.
Lemma plus_sign_spec t c : plus_sign gdim cell_mid trace_mid normal t c = true <-> (height gdim (normal t) (trace_mid t) (cell_mid c) < 0)%Qc.
Proof. unfold plus_sign. rewrite qltb_lt, inner_height, height_opp. apply qc_opp_lt. Qed.
Lemma pick_cell_spec plus t cells c : pick_cell gdim cell_mid trace_mid normal plus t cells = Ok c ->
  In c cells /\ (plus = true <-> (height gdim (normal t) (trace_mid t) (cell_mid c) < 0)%Qc).
Proof.
  unfold pick_cell. destruct (find _ cells) as [c'|] eqn:F; cbn [opt_res]; [|discriminate]. intros E. injection E as ->. apply find_some in F. destruct F as [I E]. split; [exact I|].
  apply Bool.eqb_prop in E. rewrite <- E. apply plus_sign_spec.
Qed.
Lemma pick_cell_err plus t cells e : pick_cell gdim cell_mid trace_mid normal plus t cells = Err e ->
  e = ValueError /\ forall c, In c cells -> (plus = true <-> ~ (height gdim (normal t) (trace_mid t) (cell_mid c) < 0)%Qc).
Proof.
  unfold pick_cell. destruct (find _ cells) as [c'|] eqn:F; cbn [opt_res]; [discriminate|]. intros E. injection E as <-. split; [reflexivity|]. intros c I. pose proof (find_none _ _ F c I) as X. cbn beta in X.
  rewrite <- plus_sign_spec. destruct (plus_sign gdim cell_mid trace_mid normal t c), plus; cbn in X; split; intros; congruence.
Qed.
Lemma pick_cell_find plus t cells c : In c cells -> (plus = true <-> (height gdim (normal t) (trace_mid t) (cell_mid c) < 0)%Qc) -> exists c', pick_cell gdim cell_mid trace_mid normal plus t cells = Ok c'.
Proof.
  intros I H. destruct (pick_cell gdim cell_mid trace_mid normal plus t cells) as [c'|e] eqn:P; [eauto|]. apply pick_cell_err in P. destruct P as [_ P]. specialize (P c I). exfalso. tauto.
Qed.
End Side.

Lemma qz_sum a b : qz (a + b) = (qz a + qz b)%Qc.
Proof. apply Qc_is_canon. unfold qz, Qcplus. cbn [this Q2Qc]. rewrite !Qred_correct, inject_Z_plus. reflexivity. Qed.
Lemma qsum_const {A} (a : Qc) (l : list A) : qsum (map (fun _ => a) l) = (a * qz (Z.of_nat (length l)))%Qc.
Proof.
  induction l as [|x l IH]; cbn [map qsum length]; [unfold qz; change (Z.of_nat 0) with 0%Z; change (Q2Qc (inject_Z 0)) with q0; unfold q0; ring|]. rewrite IH. rewrite Nat2Z.inj_succ.
  unfold Z.succ. rewrite qz_sum. change (qz 1) with 1%Qc. ring.
Qed.
(** The height of a midpoint is the mean of the heights. *)
Lemma height_midpoint gdim n p vs x : midpoint_of gdim vs x -> (height gdim n p x * qz (Z.of_nat (length vs)) = qsum (map (height gdim n p) vs))%Qc.
Proof.
  intros M. unfold height. rewrite <- sumn_scal_r. rewrite <- (sumn_qsum gdim (fun k v => ((vnth v k - vnth p k) * vnth n k)%Qc)). apply sumn_ext. intros k Hk. specialize (M k Hk). rewrite qplus_qsum in M.
  transitivity ((vnth x k * qz (Z.of_nat (length vs)) - vnth p k * qz (Z.of_nat (length vs))) * vnth n k)%Qc; [ring|]. rewrite M. rewrite <- qsum_const.
  clear. induction vs as [|v vs IH]; cbn [map qsum]; [unfold q0; ring|]. rewrite <- IH. ring.
Qed.
Lemma qz_pos k : (0 < qz (Z.of_nat (S k)))%Qc.
Proof. unfold Qclt. change (this 0%Qc) with 0%Q. unfold qz. cbn [this Q2Qc]. rewrite Qred_correct. unfold Qlt, inject_Z. cbn [Qnum Qden]. lia. Qed.
Lemma qc_sign_scale (a b : Qc) : (0 < b)%Qc -> ((a * b < 0)%Qc <-> (a < 0)%Qc).
Proof.
  intros B. unfold Qclt in *. split; intros H.
  - destruct (Qlt_le_dec a 0) as [L|L]; [exact L|]. exfalso. assert (X : (0 <= this a * this b)%Q) by (apply Qmult_le_0_compat; [exact L|apply Qlt_le_weak; exact B]).
    change (this (a * b)%Qc) with (Qred (this a * this b)) in H. rewrite Qred_correct in H. apply (Qlt_irrefl 0). apply Qle_lt_trans with (this a * this b)%Q; assumption.
  - change (this (a * b)%Qc) with (Qred (this a * this b)). rewrite Qred_correct. change (this 0%Qc) with 0%Q in *. setoid_replace 0%Q with (0 * this b)%Q by ring. apply Qmult_lt_compat_r; assumption.
Qed.
(** A cell lies on the side of its vertex that is not in the facet. *)
Lemma simplex_side gdim n fv o t c : fv <> [] -> midpoint_of gdim fv t -> midpoint_of gdim (o :: fv) c -> (forall v w, In v fv -> In w fv -> height gdim n v w = 0%Qc) ->
  forall v, In v fv -> ((height gdim n t c < 0)%Qc <-> (height gdim n v o < 0)%Qc) /\ ((0 < height gdim n t c)%Qc <-> (0 < height gdim n v o)%Qc).
Proof.
  intros NE MT MC OR v Hv.
  assert (ZT : forall w, In w fv -> height gdim n w t = 0%Qc).
  { intros w Hw. pose proof (height_midpoint gdim n w fv t MT) as E. rewrite (qsum_zero (height gdim n w)) in E by (intros; apply OR; assumption). destruct fv as [|a fv]; [congruence|].
    cbn [length] in E. apply Qcmult_integral in E. destruct E as [E|E]; [exact E|]. pose proof (qz_pos (length fv)) as P. rewrite E in P. exfalso. exact (Qclt_not_eq _ _ P eq_refl). }
  assert (ADD : forall x, height gdim n t x = height gdim n v x).
  { intros x. transitivity (height gdim n v x - height gdim n v t)%Qc; [|rewrite ZT by exact Hv; ring]. unfold height. rewrite <- sumn_minus. apply sumn_ext. intros. ring. }
  pose proof (height_midpoint gdim n v (o :: fv) c MC) as E. cbn [map qsum length] in E. rewrite (qsum_zero (height gdim n v)) in E by (intros; apply OR; assumption).
  replace (height gdim n v o + q0)%Qc with (height gdim n v o) in E by (unfold q0; ring). rewrite ADD. split.
  - rewrite <- E. symmetry. apply qc_sign_scale, qz_pos.
  - assert (O : forall x : Qc, (0 < x)%Qc <-> (- x < 0)%Qc). { intros x. rewrite <- qc_opp_lt. replace (- - x)%Qc with x by ring. tauto. } rewrite !O. rewrite <- E.
    replace (- (height gdim n v c * qz (Z.of_nat (S (length fv)))))%Qc with (- height gdim n v c * qz (Z.of_nat (S (length fv))))%Qc by ring. symmetry. apply qc_sign_scale, qz_pos.
Qed.

(** ** Rows *)
Section Rows.
Variable gdim : nat.
Variables cell_mid trace_mid normal : nat -> vec.
Variable facet_cells : nat -> list nat.
Variables T_dofs V_dofs : nat -> list nat.
Variable dof_value : nat -> nat -> nat -> nat -> Qc.

Lemma local_value_qsum u dofs (v : nat -> Qc) : qsum (map (fun l => (v l * vnth u (nth l dofs 0%nat))%Qc) (seq 0 (length dofs))) = local_value u dofs v.
Proof.
  unfold local_value. generalize (length dofs). intros n. induction n as [|n IH]; [reflexivity|]. rewrite seq_S, map_app, qsum_app, IH. cbn. unfold q0. ring.
Qed.

Lemma local_value_ext u dofs (v w : nat -> Qc) : (forall l, v l = w l) -> local_value u dofs v = local_value u dofs w.
Proof. intros H. unfold local_value. apply sumn_ext. intros. rewrite H. reflexivity. Qed.
(** The matrices built from a choice of a cell for every trace cell *)
Lemma chosen_rows m n dg (choose : nat -> res fcell) (pick : nat -> nat) cells A :
  (forall t f, In t cells -> choose t = Ok f -> f = FCell (T_dofs t) (V_dofs (pick t)) (fun l k => dof_value t k (pick t) l)) ->
  dofs_ok m T_dofs cells -> dofs_ok n V_dofs (map pick cells) -> (dg = true -> dofs_apart T_dofs cells) ->
  (do fs <- mapM choose cells; Ok (if dg then trace_dg m n fs else trace_cg m n fs)) = Ok A ->
  (forall t k i u, first_with T_dofs cells t k i -> vnth (mv A u) i = local_value u (V_dofs (pick t)) (dof_value t k (pick t))) /\
  (forall i u, i < m -> (forall t, In t cells -> ~ In i (T_dofs t)) -> vnth (mv A u) i = q0).
Proof.
  intros CH TO VO AP E. destruct (mapM choose cells) as [fs|] eqn:MC; cbn [bind] in E; [|discriminate]. injection E as E. apply mapM_ok_forall in MC.
  set (cell := fun t => FCell (T_dofs t) (V_dofs (pick t)) (fun l k => dof_value t k (pick t) l)).
  assert (FE : fs = map cell cells). { clear -MC CH. induction MC as [|t f cells fs H MC IH]; [reflexivity|]. cbn. f_equal; [apply CH; [left; reflexivity|exact H]|]. apply IH. intros. apply CH; [right|]; assumption. }
  assert (OK' : Forall (dofmap_ok m n) fs). { rewrite FE. apply Forall_forall. intros f Hf. apply in_map_iff in Hf. destruct Hf as (t & <- & Ht). destruct (TO t Ht). destruct (VO (pick t)); [apply in_map, Ht|]. repeat split; assumption. }
  assert (FR : first_cell_rows m fs A). { rewrite <- E. destruct dg; [|apply trace_cg_first, OK']. apply trace_dg_first; [exact OK'|]. rewrite FE. intros a b ca cb i Ha Hb Ia Ib. rewrite nth_error_map in Ha, Hb.
    destruct (nth_error cells a) as [ta|] eqn:Ea; [|discriminate]. destruct (nth_error cells b) as [tb|] eqn:Eb; [|discriminate]. cbn in Ha, Hb. injection Ha as <-. injection Hb as <-. exact (AP eq_refl a b ta tb i Ea Eb Ia Ib). }
  assert (NR : nr A = m) by (rewrite <- E; destruct dg; reflexivity). assert (NC : nc A = n) by (rewrite <- E; destruct dg; reflexivity). destruct FR as [F1 F2]. split.
  - intros t k i u (pre & post & EC & Hk & NP).
    assert (It : In t cells) by (rewrite EC; apply in_elt). assert (Ii : In i (T_dofs t)) by (eapply nth_error_In; exact Hk).
    assert (R : computes_row (cell t) i (ent A i)). { apply (F1 (map cell pre) (cell t) (map cell post) i); [rewrite FE, EC, map_app; reflexivity|exact Ii|]. intros c' Hc'. apply in_map_iff in Hc'. destruct Hc' as (t' & <- & Ht'). exact (NP t' Ht'). }
    rewrite (computes_row_apply m n (cell t) i A u k); [apply (local_value_qsum u (V_dofs (pick t)) (dof_value t k (pick t)))| | | | |].
    + rewrite Forall_forall in OK'. apply OK'. rewrite FE. apply in_map, It.
    + rewrite NR. apply (TO t It), Ii.
    + exact NC.
    + exact Hk.
    + exact R.
  - intros i u Hi NI. rewrite vnth_mv by lia. apply sumn_zero. intros j _. rewrite F2; [unfold q0; ring|]. intros c Hc. rewrite FE in Hc. apply in_map_iff in Hc. destruct Hc as (t & <- & Ht). apply NI, Ht.
Qed.

(** ** Two sides *)
Lemma add_row_other E i cols vals i' j : i' <> i -> add_row E i cols vals i' j = E i' j.
Proof.
  intros N. unfold add_row. generalize (combine cols vals). intros l. revert E. induction l as [|p l IH]; intros E; [reflexivity|]. cbn [fold_left].
  rewrite IH. unfold set_ent. apply Nat.eqb_neq in N. rewrite N. reflexivity.
Qed.
Lemma add_row_at E i cols vals j : add_row E i cols vals i j = (E i j + qsum (map (fun p => if fst p =? j then snd p else q0) (combine cols vals)))%Qc.
Proof.
  unfold add_row. generalize (combine cols vals). intros l. revert E. induction l as [|p l IH]; intros E; cbn [fold_left map qsum]; [unfold q0; ring|].
  rewrite IH. unfold set_ent at 1. rewrite Nat.eqb_refl. cbn [andb]. rewrite (Nat.eqb_sym j). destruct (fst p =? j) eqn:P; [apply Nat.eqb_eq in P; subst; ring|unfold q0; ring].
Qed.
Lemma set_row_at E i cols vals j : NoDup cols -> length vals = length cols -> E i j = q0 -> set_row E i cols vals i j = qsum (map (fun p => if fst p =? j then snd p else q0) (combine cols vals)).
Proof.
  intros ND L Z. destruct (in_dec Nat.eq_dec j cols) as [H|H].
  - destruct (In_nth_error _ _ H) as [k Hk]. destruct (nth_error vals k) as [v|] eqn:Hv; [|apply nth_error_None in Hv; assert (k < length cols) by (apply nth_error_Some; congruence); lia].
    rewrite (set_row_nth E i cols vals k j v ND Hk Hv). rewrite (qsum_single _ _ k (j, v)); [cbn; rewrite Nat.eqb_refl; reflexivity|rewrite nth_error_combine, Hk, Hv; reflexivity|].
    intros k' y Hy N. destruct (fst y =? j) eqn:P; [|reflexivity]. apply Nat.eqb_eq in P. exfalso. apply N. rewrite nth_error_combine in Hy. destruct (nth_error cols k') as [c|] eqn:Hc; [|discriminate]. destruct (nth_error vals k'); [|discriminate]. injection Hy as <-. cbn in P. subst c.
    apply (proj1 (NoDup_nth_error cols) ND); [apply nth_error_Some; congruence|congruence].
  - rewrite set_row_notin by exact H. rewrite Z. symmetry. apply qsum_zero. intros p Hp. destruct (fst p =? j) eqn:P; [|reflexivity]. apply Nat.eqb_eq in P. exfalso. apply H. rewrite <- P. destruct p as [a b]. apply in_combine_l in Hp. exact Hp.
Qed.
(** A row times a vector *)
Lemma spread_row n cols vals u : (forall j, In j cols -> j < n) -> sumn n (fun j => (qsum (map (fun p => if fst p =? j then snd p else q0) (combine cols vals)) * vnth u j)%Qc) = qsum (map (fun p => (snd p * vnth u (fst p))%Qc) (combine cols vals)).
Proof.
  intros LT. transitivity (sumn n (fun j => qsum (map (fun p => (if fst p =? j then snd p * vnth u (fst p) else q0)%Qc) (combine cols vals)))).
  - apply sumn_ext. intros j _. generalize (combine cols vals). intros l. induction l as [|p l IH]; cbn [map qsum]; [unfold q0; ring|]. rewrite <- IH. destruct (fst p =? j) eqn:P; [apply Nat.eqb_eq in P; subst; ring|unfold q0; ring].
  - rewrite sumn_qsum. apply qsum_ext. intros [a b] Hp. cbn [fst snd]. rewrite (sumn_single n a); [rewrite Nat.eqb_refl; reflexivity|apply LT; apply in_combine_l in Hp; exact Hp|]. intros i _ N. destruct (Nat.eqb_spec a i); [congruence|reflexivity].
Qed.
Lemma values_row t k (mc : (Qc -> Qc) * nat) u : qsum (map (fun p => (snd p * vnth u (fst p))%Qc) (combine (V_dofs (snd mc)) (values_on V_dofs dof_value t k mc))) = local_value u (V_dofs (snd mc)) (fun l => fst mc (dof_value t k (snd mc) l)).
Proof.
  rewrite <- local_value_qsum. unfold values_on. set (v := fun l => fst mc (dof_value t k (snd mc) l)). f_equal. set (ds := V_dofs (snd mc)). clearbody ds.
  assert (X : forall a pre, pre ++ ds = pre ++ ds -> length pre = a -> map (fun p => (snd p * vnth u (fst p))%Qc) (combine ds (map v (seq a (length ds)))) = map (fun l => (v l * vnth u (nth l (pre ++ ds) 0%nat))%Qc) (seq a (length ds))).
  { induction ds as [|d ds IH]; intros a pre _ L; [reflexivity|]. cbn [length seq map combine fst snd]. f_equal.
    - rewrite app_nth2 by lia. rewrite L, Nat.sub_diag. reflexivity.
    - rewrite (IH (S a) (pre ++ [d])); [rewrite <- app_assoc; reflexivity|reflexivity|rewrite app_length; cbn; lia]. }
  exact (X 0 [] eq_refl eq_refl).
Qed.
Definition row_value (mcs : list ((Qc -> Qc) * nat)) (t k : nat) (u : vec) : Qc :=
  qsum (map (fun mc => local_value u (V_dofs (snd mc)) (fun l => fst mc (dof_value t k (snd mc) l))) mcs).
Lemma sweep_row n t k d mcs E u : (forall j, E d j = q0) -> (forall mc, In mc mcs -> NoDup (V_dofs (snd mc)) /\ forall j, In j (V_dofs (snd mc)) -> j < n) ->
  sumn n (fun j => (sweep V_dofs dof_value t k d mcs E d j * vnth u j)%Qc) = row_value mcs t k u.
Proof.
  intros Z OKM. unfold row_value. destruct mcs as [|mc mcs]; cbn [sweep map qsum]; [apply sumn_zero; intros; rewrite Z; unfold q0; ring|].
  assert (F : forall l E, (forall mc, In mc l -> forall j, In j (V_dofs (snd mc)) -> j < n) -> sumn n (fun j => (fold_left (fun E' mc' => add_row E' d (V_dofs (snd mc')) (values_on V_dofs dof_value t k mc')) l E d j * vnth u j)%Qc) =
    (sumn n (fun j => (E d j * vnth u j)%Qc) + qsum (map (fun mc => local_value u (V_dofs (snd mc)) (fun l => fst mc (dof_value t k (snd mc) l))) l))%Qc).
  { induction l as [|a l IH]; intros E' OK'; cbn [fold_left map qsum]; [unfold q0; ring|]. rewrite IH by (intros; eapply OK'; [right|]; eassumption).
    rewrite (sumn_ext n _ (fun j => (E' d j * vnth u j + qsum (map (fun p => if fst p =? j then snd p else q0) (combine (V_dofs (snd a)) (values_on V_dofs dof_value t k a))) * vnth u j)%Qc)) by (intros j _; rewrite add_row_at; ring).
    rewrite sumn_plus, spread_row by (apply OK'; left; reflexivity). rewrite values_row. ring. }
  rewrite F by (intros mc' Hmc'; apply OKM; right; exact Hmc'). f_equal. destruct (OKM mc (or_introl eq_refl)) as [ND LT].
  rewrite (sumn_ext n _ (fun j => (qsum (map (fun p => if fst p =? j then snd p else q0) (combine (V_dofs (snd mc)) (values_on V_dofs dof_value t k mc))) * vnth u j)%Qc)).
  - rewrite spread_row by exact LT. apply values_row.
  - intros j _. rewrite set_row_at; [reflexivity|exact ND| |apply Z]. unfold values_on. rewrite map_length, seq_length. reflexivity.
Qed.
Lemma sweep_other t k d mcs E i j : i <> d -> sweep V_dofs dof_value t k d mcs E i j = E i j.
Proof.
  intros N. destruct mcs as [|mc mcs]; [reflexivity|]. cbn [sweep]. transitivity (set_row E d (V_dofs (snd mc)) (values_on V_dofs dof_value t k mc) i j); [|apply set_row_other, N].
  generalize (set_row E d (V_dofs (snd mc)) (values_on V_dofs dof_value t k mc)). induction mcs as [|a mcs IH]; intros E'; [reflexivity|]. cbn [fold_left]. rewrite IH. apply add_row_other, N.
Qed.

Lemma two_dofs_done t mcs ds : forall k s i, nth i (fst s) true = true -> (forall j, snd (two_dofs V_dofs dof_value t k mcs ds s) i j = snd s i j) /\ nth i (fst (two_dofs V_dofs dof_value t k mcs ds s)) true = true.
Proof.
  induction ds as [|d ds IH]; intros k s i H; [auto|]. cbn [two_dofs]. destruct (nth d (fst s) true) eqn:E; [apply IH; assumption|].
  destruct (IH (S k) (set_nth (fst s) d true, sweep V_dofs dof_value t k d mcs (snd s)) i) as [A B].
  - cbn [fst]. rewrite nth_set_nth. destruct (_ && _); [reflexivity|assumption].
  - split; [|assumption]. intros j. rewrite A. cbn [snd]. apply sweep_other. intros ->. congruence.
Qed.
Lemma two_dofs_other t mcs ds : forall k s i, ~ In i ds -> (forall j, snd (two_dofs V_dofs dof_value t k mcs ds s) i j = snd s i j) /\ nth i (fst (two_dofs V_dofs dof_value t k mcs ds s)) true = nth i (fst s) true.
Proof.
  induction ds as [|d ds IH]; intros k s i H; [auto|]. cbn [two_dofs]. assert (N : i <> d) by (intros ->; apply H; left; reflexivity).
  assert (H' : ~ In i ds) by (intros X; apply H; right; assumption). destruct (nth d (fst s) true) eqn:E; [apply IH; assumption|].
  destruct (IH (S k) (set_nth (fst s) d true, sweep V_dofs dof_value t k d mcs (snd s)) i H') as [A B]. split.
  - intros j. rewrite A. cbn [snd]. apply sweep_other. assumption.
  - rewrite B. cbn [fst]. rewrite nth_set_nth. apply Nat.eqb_neq in N. rewrite N. reflexivity.
Qed.
Lemma two_dofs_length t mcs ds : forall k s, length (fst (two_dofs V_dofs dof_value t k mcs ds s)) = length (fst s).
Proof. induction ds as [|d ds IH]; intros k s; [reflexivity|]. cbn [two_dofs]. destruct (nth d (fst s) true); rewrite IH; [reflexivity|]. cbn [fst]. apply set_nth_length. Qed.
Lemma two_dofs_hit n t mcs ds u : (forall mc, In mc mcs -> NoDup (V_dofs (snd mc)) /\ forall j, In j (V_dofs (snd mc)) -> j < n) -> NoDup ds ->
  forall k s p i, i < length (fst s) -> nth i (fst s) true = false -> (forall j, snd s i j = q0) -> nth_error ds p = Some i ->
  sumn n (fun j => (snd (two_dofs V_dofs dof_value t k mcs ds s) i j * vnth u j)%Qc) = row_value mcs t (k + p) u /\ nth i (fst (two_dofs V_dofs dof_value t k mcs ds s)) true = true.
Proof.
  intros OKM. induction ds as [|d ds IH]; intros ND k s p i Li Hv Z Hp; [destruct p; discriminate|]. inversion ND as [|? ? N1 N2]; subst. cbn [two_dofs]. destruct p as [|p].
  - cbn in Hp. injection Hp as ->. rewrite Hv. set (s1 := (set_nth (fst s) i true, sweep V_dofs dof_value t k i mcs (snd s))). destruct (two_dofs_done t mcs ds (S k) s1 i) as [A B].
    { unfold s1. cbn [fst]. rewrite nth_set_nth, Nat.eqb_refl. apply Nat.ltb_lt in Li. rewrite Li. reflexivity. }
    split; [|exact B]. rewrite (sumn_ext n _ (fun j => (sweep V_dofs dof_value t k i mcs (snd s) i j * vnth u j)%Qc)) by (intros j _; rewrite A; reflexivity). rewrite Nat.add_0_r. apply sweep_row; assumption.
  - cbn in Hp. assert (N : i <> d) by (intros ->; apply N1; eapply nth_error_In; eassumption). replace (k + S p) with (S k + p) by lia.
    destruct (nth d (fst s) true); [apply IH; assumption|]. apply IH; try assumption.
    + cbn [fst]. rewrite set_nth_length. assumption.
    + cbn [fst]. rewrite nth_set_nth. apply Nat.eqb_neq in N. rewrite N. assumption.
    + intros j. cbn [snd]. rewrite sweep_other by exact N. apply Z.
Qed.

Lemma two_loop_done ps mapping cells : forall s s' i, two_loop gdim cell_mid trace_mid normal facet_cells T_dofs V_dofs dof_value ps mapping cells s = Ok s' -> nth i (fst s) true = true -> forall j, snd s' i j = snd s i j.
Proof.
  induction cells as [|t cells IH]; intros s s' i E H j; cbn [two_loop] in E; [injection E as <-; reflexivity|]. destruct (opt_res KeyError (lookup t mapping)) as [f|]; cbn [bind] in E; [|discriminate].
  destruct (two_cells gdim cell_mid trace_mid normal ps t (facet_cells f)) as [mcs|]; cbn [bind] in E; [|discriminate]. destruct (two_dofs_done t mcs (T_dofs t) 0 s i H) as [A B]. rewrite (IH _ _ _ E B). apply A.
Qed.
Lemma two_loop_rows m n ps mapping u : forall cells s s', length (fst s) = m ->
  dofs_ok m T_dofs cells ->
  (forall t f mcs, In t cells -> lookup t mapping = Some f -> two_cells gdim cell_mid trace_mid normal ps t (facet_cells f) = Ok mcs -> forall mc, In mc mcs -> NoDup (V_dofs (snd mc)) /\ forall j, In j (V_dofs (snd mc)) -> j < n) ->
  two_loop gdim cell_mid trace_mid normal facet_cells T_dofs V_dofs dof_value ps mapping cells s = Ok s' ->
  (forall t k i, first_with T_dofs cells t k i -> nth i (fst s) true = false -> (forall j, snd s i j = q0) ->
    exists f mcs, lookup t mapping = Some f /\ two_cells gdim cell_mid trace_mid normal ps t (facet_cells f) = Ok mcs /\ sumn n (fun j => (snd s' i j * vnth u j)%Qc) = row_value mcs t k u) /\
  (forall i, (forall t, In t cells -> ~ In i (T_dofs t)) -> forall j, snd s' i j = snd s i j).
Proof.
  induction cells as [|t0 cells IH]; intros s s' LS TO VO E; cbn [two_loop] in E.
  - injection E as <-. split; [|reflexivity]. intros t k i ([|] & post & H & _); discriminate H.
  - destruct (lookup t0 mapping) as [f|] eqn:LF; cbn [opt_res bind] in E; [|discriminate]. destruct (two_cells gdim cell_mid trace_mid normal ps t0 (facet_cells f)) as [mcs|] eqn:TC; cbn [bind] in E; [|discriminate].
    destruct (TO t0 (or_introl eq_refl)) as [ND LT]. pose proof (VO t0 f mcs (or_introl eq_refl) LF TC) as VM.
    set (s1 := two_dofs V_dofs dof_value t0 0 mcs (T_dofs t0) s) in *. assert (L1 : length (fst s1) = m) by (unfold s1; rewrite two_dofs_length; exact LS).
    destruct (IH s1 s' L1) as [A B]; [intros c Hc; apply TO; right; exact Hc|intros t f' mcs' Ht; apply VO; right; exact Ht|exact E|]. split.
    + intros t k i (pre & post & EC & Hk & NP) Hv Z. destruct pre as [|t1 pre]; cbn in EC; injection EC as <- EC.
      * exists f, mcs. split; [exact LF|]. split; [exact TC|]. assert (Ii : In i (T_dofs t0)) by (eapply nth_error_In; exact Hk).
        destruct (two_dofs_hit n t0 mcs (T_dofs t0) u VM ND 0 s k i) as [R D]; try assumption; [rewrite LS; apply LT, Ii|]. cbn [Nat.add] in R. rewrite <- R. apply sumn_ext. intros j _. f_equal. exact (two_loop_done _ _ _ _ _ _ E D j).
      * assert (NI : ~ In i (T_dofs t0)) by (apply NP; left; reflexivity). destruct (two_dofs_other t0 mcs (T_dofs t0) 0 s i NI) as [C D]. fold s1 in C, D. apply A.
        -- exists pre, post. split; [exact EC|]. split; [exact Hk|]. intros t' Ht'. apply NP. right. exact Ht'.
        -- rewrite D. exact Hv.
        -- intros j. rewrite C. apply Z.
    + intros i NI j. rewrite B by (intros t Ht; apply NI; right; exact Ht). apply (two_dofs_other t0 mcs (T_dofs t0) 0 s i). apply NI. left. reflexivity.
Qed.
End Rows.

(** ** Injection of facet dofs *)
Definition component_of (comps : list ((nat -> list nat) * (nat -> nat))) (mapping : list (nat * nat)) (cells : list nat) (d col : nat) : Prop :=
  exists c t f, In c comps /\ In t cells /\ fst c t = [d] /\ lookup t mapping = Some f /\ col = snd c f.
Lemma dlt_cells_spec td fd mapping cells : forall E E', dlt_cells td fd mapping cells E = Ok E' ->
  (forall t, In t cells -> exists d f, td t = [d] /\ lookup t mapping = Some f) /\
  forall i j, (component_of [(td, fd)] mapping cells i j /\ E' i j = q1) \/ (~ component_of [(td, fd)] mapping cells i j /\ E' i j = E i j).
Proof.
  induction cells as [|t cells IH]; intros E E' H; cbn [dlt_cells] in H.
  - injection H as <-. split; [intros t []|]. intros i j. right. split; [|reflexivity]. intros (c & t & f & _ & [] & _).
  - destruct (td t) as [|d [|]] eqn:T; try discriminate. destruct (lookup t mapping) as [f|] eqn:L; cbn [opt_res bind] in H; [|discriminate]. destruct (IH _ _ H) as [A B]. split.
    + intros t' [<- |Ht]; [eauto|apply A, Ht].
    + intros i j. destruct (B i j) as [[(c & t' & f' & C1 & C2 & C3) Q]|[N Q]].
      * left. split; [|exact Q]. exists c, t', f'. split; [exact C1|]. split; [right; exact C2|exact C3].
      * unfold set_ent in Q. destruct ((i =? d) && (j =? fd f)) eqn:X.
        -- apply andb_prop in X. destruct X as [X1 X2]. apply Nat.eqb_eq in X1, X2. subst. left. split; [|exact Q]. exists (td, fd), t, f. cbn. auto 6.
        -- right. split; [|exact Q]. intros (c & t' & f' & [<- |[]] & [<- |C2] & C3 & C4 & C5); cbn in C3, C5.
           ++ assert (f' = f) by congruence. assert (i = d) by congruence. subst. rewrite !Nat.eqb_refl in X. discriminate.
           ++ apply N. exists (td, fd), t', f'. cbn. auto 6.
Qed.
Lemma dlt_components_spec comps mapping cells : forall E E', dlt_components comps mapping cells E = Ok E' ->
  (forall c t, In c comps -> In t cells -> exists d f, fst c t = [d] /\ lookup t mapping = Some f) /\
  forall i j, (component_of comps mapping cells i j /\ E' i j = q1) \/ (~ component_of comps mapping cells i j /\ E' i j = E i j).
Proof.
  induction comps as [|[td fd] comps IH]; intros E E' H; cbn [dlt_components] in H.
  - injection H as <-. split; [intros c t []|]. intros i j. right. split; [|reflexivity]. intros (c & t & f & [] & _).
  - destruct (dlt_cells td fd mapping cells E) as [E1|] eqn:D; cbn [fst snd] in H; rewrite D in H; cbn [bind] in H; [|discriminate]. destruct (dlt_cells_spec _ _ _ _ _ _ D) as [A1 B1]. destruct (IH _ _ H) as [A B]. split.
    + intros c t [<- |Hc] Ht; [apply A1, Ht|apply A; assumption].
    + intros i j. destruct (B i j) as [[(c & t' & f' & C1 & C2) Q]|[N Q]].
      * left. split; [|exact Q]. exists c, t', f'. split; [right; exact C1|exact C2].
      * rewrite Q. destruct (B1 i j) as [[(c & t' & f' & C1 & C2) Q1]|[N1 Q1]].
        -- left. split; [|exact Q1]. exists c, t', f'. split; [destruct C1 as [<- |[]]; left; reflexivity|exact C2].
        -- right. split; [|exact Q1]. intros (c & t' & f' & [<- |C1] & C2); [apply N1|apply N]; exists c || exists (td, fd); exists t', f'; (split; [|exact C2]); [left; reflexivity|exact C1].
Qed.
