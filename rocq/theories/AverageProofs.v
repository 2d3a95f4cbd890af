(** Specification vocabulary and proofs for the averages in FillModel.v. *)
From Verif Require Import Base BaseProofs Mat MatProofs FillModel FillProofs.
Local Open Scope nat_scope.
Local Close Scope Q_scope.
Local Close Scope Qc_scope.

(** ** Specification vocabulary *)
Section Spec.
Context {X N : Type}.
Variable collision : X -> nat.
Variable limit : nat.
Variable basis : nat -> X -> list Qc.
Variable V_dofs : nat -> list nat.
Variable quadrature : X -> N -> list X * list Qc.
Variable size : nat.

(** Value of component [k] at [x] of the function with coefficients [u]: on the
    cell that contains [x], the [l]-th local basis function has [size]
    consecutive values. *)
Definition fe_value (u : vec) (k : nat) (x : X) : Qc :=
  let c := collision x in
  sumn (length (V_dofs c)) (fun l => (vnth u (nth l (V_dofs c) 0%nat) * nth (l * size + k)%nat (basis c x) q0)%Qc).
Definition inside (x : X) : bool := collision x <? limit.
(** The quadrature sum over the points inside the mesh, divided by the sum of all weights. *)
Definition shape_average (u : vec) (k : nat) (x : X) (n : N) : Qc :=
  let (pts, w) := quadrature x n in
  (sumn (length pts) (fun q => if inside (nth q pts x) then (vnth w q * fe_value u k (nth q pts x))%Qc else q0) / sumn (length w) (vnth w))%Qc.
Definition full_average (u : vec) (k : nat) (x : X) (n : N) : Qc :=
  let (pts, w) := quadrature x n in
  (sumn (length pts) (fun q => (vnth w q * fe_value u k (nth q pts x))%Qc) / sumn (length w) (vnth w))%Qc.
Definition all_inside (x : X) (n : N) : Prop := forall p, In p (fst (quadrature x n)) -> collision p < limit.
(** dolfin's data: as many basis values as dofs, dofs in range and distinct; as
    many weights as points. *)
Definition space_ok (n : nat) : Prop := forall c, c < limit ->
  NoDup (V_dofs c) /\ (forall j, In j (V_dofs c) -> j < n) /\ forall x, length (basis c x) = length (V_dofs c) * size.
Definition quadrature_ok : Prop := forall x n, length (fst (quadrature x n)) = length (snd (quadrature x n)).
End Spec.

(** ** Proofs *)

Lemma NoDup_app_remove_l {A} (a b : list A) : NoDup (a ++ b) -> NoDup b.
Proof. induction a as [|x a IH]; [auto|]. intros H. inversion H; auto. Qed.
Lemma NoDup_app_remove_r {A} (a b : list A) : NoDup (a ++ b) -> NoDup a.
Proof.
  induction a as [|x a IH]; intros H; [constructor|]. inversion H as [|? ? N1 N2]; subst. constructor; [|auto]. intros Hx. apply N1, in_or_app. auto.
Qed.

Lemma qsum_sumn l : qsum l = sumn (length l) (vnth l).
Proof. induction l as [|x l IH]; [reflexivity|]. cbn [length qsum]. rewrite sumn_first, IH. reflexivity. Qed.
Lemma qsum_map_sumn {A} (f : A -> Qc) l d : qsum (map f l) = sumn (length l) (fun i => f (nth i l d)).
Proof.
  induction l as [|x l IH]; [reflexivity|]. cbn [length map qsum]. rewrite sumn_first, IH. reflexivity.
Qed.
Lemma combine_sumn {A B} (f : A -> B -> Qc) (a : list A) (b : list B) da db : length a = length b ->
  qsum (map (fun p => f (fst p) (snd p)) (combine a b)) = sumn (length a) (fun i => f (nth i a da) (nth i b db)).
Proof.
  revert b. induction a as [|x a IH]; intros [|y b] L; try discriminate; [reflexivity|]. cbn [combine map qsum length fst snd]. rewrite sumn_first. cbn [nth]. rewrite (IH b) by (cbn in L; lia). reflexivity.
Qed.

(** *** Scalars *)
Definition dval (d : list (nat * Qc)) (u : vec) : Qc := qsum (map (fun cv => (snd cv * vnth u (fst cv))%Qc) d).
Lemma dval_add d c v u : dval (dict_add d c v) u = (dval d u + v * vnth u c)%Qc.
Proof.
  unfold dval. induction d as [|[c' w] d IH]; cbn [dict_add]; [cbn [map qsum fst snd]; unfold q0; ring|].
  destruct (Nat.eqb_spec c' c) as [->|]; cbn [map qsum fst snd].
  - ring.
  - rewrite IH. ring.
Qed.
Lemma dict_add_cols d c v j : In j (map fst (dict_add d c v)) -> j = c \/ In j (map fst d).
Proof.
  induction d as [|[c' w] d IH]; cbn [dict_add map fst In]; [intros [<-|[]]; auto|].
  destruct (c' =? c); cbn [map fst In]; [tauto|]. intros [<-|H]; [auto|]. destruct (IH H); auto.
Qed.

Section Scalar.
Context {X N : Type}.
Variable collision : X -> nat.
Variable limit : nat.
Variable basis : nat -> X -> list Qc.
Variable V_dofs : nat -> list nat.
Variable quadrature : X -> N -> list X * list Qc.

Lemma dval_fold (g : Qc -> Qc) l d u : dval (fold_left (fun d' cv => dict_add d' (fst cv) (g (snd cv))) l d) u = (dval d u + qsum (map (fun cv => (g (snd cv) * vnth u (fst cv))%Qc) l))%Qc.
Proof.
  revert d. induction l as [|[c v] l IH]; intros d; cbn [fold_left map qsum fst snd]; [unfold q0; ring|]. rewrite IH, dval_add. ring.
Qed.
Lemma dval_point measure d p u : space_ok limit basis V_dofs 1 (length u) ->
  dval (avg_point collision limit basis V_dofs measure d p) u =
  (dval d u + if inside collision limit (fst p) then snd p * fe_value collision basis V_dofs 1 u 0 (fst p) / measure else q0)%Qc.
Proof.
  intros SO. unfold avg_point, inside. destruct (Nat.leb_spec limit (collision (fst p))) as [H|H].
  - replace (collision (fst p) <? limit) with false by (symmetry; apply Nat.ltb_ge; assumption). unfold q0. ring.
  - replace (collision (fst p) <? limit) with true by (symmetry; apply Nat.ltb_lt; assumption).
    rewrite (dval_fold (fun v => (v * snd p / measure)%Qc)). f_equal. destruct (SO _ H) as (_ & _ & L). specialize (L (fst p)). rewrite Nat.mul_1_r in L.
    rewrite (combine_sumn (fun c v => (v * snd p / measure * vnth u c)%Qc) _ _ 0 q0) by (symmetry; assumption). unfold fe_value.
    unfold Qcdiv. rewrite (Qcmult_comm (snd p)), <- Qcmult_assoc, <- sumn_scal_r. apply sumn_ext. intros l _. rewrite Nat.mul_1_r, Nat.add_0_r. ring.
Qed.
Lemma dval_points measure l d u : space_ok limit basis V_dofs 1 (length u) ->
  dval (fold_left (avg_point collision limit basis V_dofs measure) l d) u =
  (dval d u + qsum (map (fun p => if inside collision limit (fst p) then snd p * fe_value collision basis V_dofs 1 u 0 (fst p) / measure else q0) l))%Qc.
Proof.
  intros SO. revert d. induction l as [|p l IH]; intros d; cbn [fold_left map qsum]; [unfold q0; ring|]. rewrite IH, dval_point by assumption. ring.
Qed.
Lemma dval_row x n u : space_ok limit basis V_dofs 1 (length u) -> quadrature_ok quadrature ->
  dval (avg_row collision limit basis V_dofs quadrature x n) u = shape_average collision limit basis V_dofs quadrature 1 u 0 x n.
Proof.
  intros SO QO. unfold avg_row, shape_average. specialize (QO x n). destruct (quadrature x n) as [pts w]. cbn [fst snd] in QO.
  rewrite dval_points by assumption. unfold dval at 1. cbn [map qsum]. rewrite (qplus_qsum w), (qsum_sumn w).
  rewrite (combine_sumn (fun y v => if inside collision limit y then v * fe_value collision basis V_dofs 1 u 0 y / sumn (length w) (vnth w) else q0)%Qc _ _ x q0) by assumption.
  unfold Qcdiv. rewrite <- sumn_scal_r. unfold q0 at 1. rewrite Qcplus_0_l. apply sumn_ext. intros q _. unfold vnth at 1 3. destruct (inside _ _ _); [reflexivity|]. unfold q0. ring.
Qed.
Lemma avg_row_cols x n m : (forall c, c < limit -> forall j, In j (V_dofs c) -> j < m) ->
  forall cv, In cv (avg_row collision limit basis V_dofs quadrature x n) -> fst cv < m.
Proof.
  intros H cv Hin. apply (in_map fst) in Hin. revert Hin. generalize (fst cv). clear cv. intros j.
  unfold avg_row. destruct (quadrature x n) as [pts w]. generalize (qplus_list w). intros ms.
  assert (G : forall l d, (forall j, In j (map fst d) -> j < m) -> forall j, In j (map fst (fold_left (avg_point collision limit basis V_dofs ms) l d)) -> j < m).
  { induction l as [|p l IH]; intros d Hd j' Hj; [auto|]. cbn [fold_left] in Hj. revert Hj. apply IH. clear j'. intros j'. unfold avg_point.
    destruct (Nat.leb_spec limit (collision (fst p))) as [L|L]; [auto|].
    assert (G : forall l d, (forall j, In j (map fst d) -> j < m) -> (forall c, In c (map fst l) -> c < m) -> forall j, In j (map fst (fold_left (fun d' cv => dict_add d' (fst cv) (snd cv * snd p / ms)%Qc) l d)) -> j < m).
    { clear. induction l as [|[c v] l IH]; intros d Hd Hl j Hj; [auto|]. cbn [fold_left] in Hj. revert Hj. apply IH.
      - intros j' Hj'. apply dict_add_cols in Hj'. destruct Hj' as [->|Hj']; [apply Hl; left; reflexivity|auto].
      - intros; apply Hl; right; assumption. }
    apply G; [assumption|]. intros c Hc. apply in_map_iff in Hc. destruct Hc as ([c' v] & <- & Hc). apply in_combine_l in Hc. eapply H; eassumption. }
  apply G. intros ? [].
Qed.

Lemma scalar_average_apply m u cells r y n : space_ok limit basis V_dofs 1 (length u) -> quadrature_ok quadrature ->
  NoDup (flat_map (fun lc => map fst (snd lc)) cells) -> In n (map fst cells) -> r < m ->
  (exists dofs, In (n, dofs) cells /\ In (r, y) dofs) ->
  vnth (mv (scalar_average collision limit basis V_dofs quadrature m (length u) cells) u) r = shape_average collision limit basis V_dofs quadrature 1 u 0 y n.
Proof.
  intros SO QO ND _ Hr (dofs & Hc & Hd). unfold scalar_average. rewrite coo_apply; [|assumption|].
  2:{ intros t Ht. apply in_flat_map in Ht. destruct Ht as (lc & _ & Ht). apply in_flat_map in Ht. destruct Ht as (rx & _ & Ht).
      apply in_map_iff in Ht. destruct Ht as (cv & <- & Ht). cbn [fst snd]. eapply avg_row_cols; [|exact Ht]. intros c Lc. apply (SO c Lc). }
  rewrite qsum_flat_map. rewrite <- dval_row by assumption.
  assert (G : forall rx (nn : N), qsum (map (fun t : triple => if fst (fst t) =? r then snd t * vnth u (snd (fst t)) else q0)%Qc (map (fun cv : nat * Qc => (fst rx, fst cv, snd cv)) (avg_row collision limit basis V_dofs quadrature (snd rx) nn))) =
             if fst rx =? r then dval (avg_row collision limit basis V_dofs quadrature (snd rx) nn) u else q0).
  { intros rx nn. rewrite map_map. cbn [fst snd]. destruct (fst rx =? r); [reflexivity|]. apply qsum_zero. reflexivity. }
  assert (Z : forall (l : list (nat * X)) (nn : N), ~ In r (map fst l) -> qsum (map (fun t : triple => if fst (fst t) =? r then snd t * vnth u (snd (fst t)) else q0)%Qc
     (flat_map (fun rx => map (fun cv : nat * Qc => (fst rx, fst cv, snd cv)) (avg_row collision limit basis V_dofs quadrature (snd rx) nn)) l)) = q0).
  { intros l nn H. rewrite qsum_flat_map. apply qsum_zero. intros rx Hrx. rewrite G. destruct (Nat.eqb_spec (fst rx) r) as [<-|]; [|reflexivity]. exfalso. apply H, in_map, Hrx. }
  assert (H1 : forall (l : list (nat * X)), NoDup (map fst l) -> In (r, y) l -> qsum (map (fun t : triple => if fst (fst t) =? r then snd t * vnth u (snd (fst t)) else q0)%Qc
     (flat_map (fun rx => map (fun cv : nat * Qc => (fst rx, fst cv, snd cv)) (avg_row collision limit basis V_dofs quadrature (snd rx) n)) l)) = dval (avg_row collision limit basis V_dofs quadrature y n) u).
  { intros l NDl Hl. induction l as [|rx l IH]; [destruct Hl|]. cbn [map] in NDl. inversion NDl as [|? ? N1 N2]; subst. cbn [flat_map]. rewrite map_app, qsum_app, G. destruct Hl as [->|Hl].
    - cbn [fst snd]. rewrite Nat.eqb_refl. rewrite Z by assumption. unfold q0. ring.
    - rewrite (IH N2 Hl). destruct (Nat.eqb_spec (fst rx) r) as [E|]; [|unfold q0; ring]. exfalso. apply N1. rewrite E. apply (in_map fst _ _ Hl). }
  induction cells as [|lc cells IH]; [destruct Hc|]. cbn [flat_map] in ND. cbn [map qsum].
  assert (ND1 : NoDup (map fst (snd lc))) by (eapply NoDup_app_remove_r; exact ND).
  assert (ND2 : NoDup (flat_map (fun lc => map fst (snd lc)) cells)) by (eapply NoDup_app_remove_l; exact ND).
  assert (DJ : forall q, In q (map fst (snd lc)) -> In q (flat_map (fun lc => map fst (snd lc)) cells) -> False).
  { clear - ND. revert ND. induction (map fst (snd lc)) as [|a l IHl]; intros ND q H1 H2; [destruct H1|]. inversion ND as [|? ? N1 N2]; subst. destruct H1 as [->|H1]; [apply N1, in_or_app; auto|eauto]. }
  destruct Hc as [->|Hc].
  - cbn [fst snd] in *. rewrite H1 by assumption. rewrite qsum_zero; [unfold q0; ring|]. intros lc' H'. apply Z. intros H''. apply (DJ r); [apply (in_map fst _ _ Hd)|]. apply in_flat_map. eauto.
  - rewrite (IH ND2 Hc). rewrite Z; [unfold q0; ring|]. intros H''. apply (DJ r H''). apply in_flat_map. exists (n, dofs). split; [assumption|]. apply (in_map fst _ _ Hd).
Qed.
End Scalar.

(** *** Vectors *)
Section Vector.
Context {X N : Type}.
Variable collision : X -> nat.
Variable limit : nat.
Variable basis : nat -> X -> list Qc.
Variable V_dofs : nat -> list nat.
Variable quadrature : X -> N -> list X * list Qc.
Variable size : nat.

Definition vdval (d : list (nat * vec)) (u : vec) (k : nat) : Qc := qsum (map (fun cv => (vnth (snd cv) k * vnth u (fst cv))%Qc) d).
Lemma vdval_add d c v u k : k < size -> vdval (dict_vadd size d c v) u k = (vdval d u k + vnth v k * vnth u c)%Qc.
Proof.
  intros Hk. unfold vdval. induction d as [|[c' w] d IH]; cbn [dict_vadd]; [cbn [map qsum fst snd]; unfold q0; ring|].
  destruct (Nat.eqb_spec c' c) as [->|]; cbn [map qsum fst snd].
  - rewrite vnth_vtab by assumption. ring.
  - rewrite IH. ring.
Qed.
Lemma dict_vadd_cols d c v j : In j (map fst (dict_vadd size d c v)) <-> j = c \/ In j (map fst d).
Proof.
  induction d as [|[c' w] d IH]; cbn [dict_vadd map fst In]; [intuition congruence|].
  destruct (Nat.eqb_spec c' c) as [->|]; cbn [map fst In]; [intuition congruence|]. rewrite IH. tauto.
Qed.
Lemma dict_vadd_NoDup d c v : NoDup (map fst d) -> NoDup (map fst (dict_vadd size d c v)).
Proof.
  induction d as [|[c' w] d IH]; cbn [dict_vadd map fst]; intros H; [constructor; [intros []|constructor]|].
  destruct (Nat.eqb_spec c' c) as [->|NE]; cbn [map fst]; [assumption|]. inversion H as [|? ? N1 N2]; subst. constructor; [|auto].
  rewrite dict_vadd_cols. intros [E|H']; [congruence|contradiction].
Qed.

Lemma reshape_length count l : length (reshape size count l) = count.
Proof. revert l. induction count as [|c IH]; intros l; cbn; auto. Qed.
Lemma nth_skipn {A} n (l : list A) i d : nth i (skipn n l) d = nth (n + i) l d.
Proof. revert l. induction n as [|n IH]; intros [|x l]; cbn; try reflexivity; [destruct i; reflexivity|apply IH]. Qed.
Lemma nth_firstn {A} n (l : list A) i d : i < n -> nth i (firstn n l) d = nth i l d.
Proof. revert l i. induction n as [|n IH]; intros [|x l] [|i] H; cbn; try lia; try reflexivity. apply IH. lia. Qed.
Lemma reshape_nth count l i k : i < count -> k < size -> nth k (nth i (reshape size count l) []) q0 = nth (i * size + k) l q0.
Proof.
  revert l i. induction count as [|c IH]; intros l i Hi Hk; [lia|]. cbn [reshape]. destruct i as [|i]; cbn [nth].
  - rewrite nth_firstn by assumption. reflexivity.
  - rewrite IH by lia. rewrite nth_skipn. f_equal. lia.
Qed.

Definition good (m : nat) (d : list (nat * vec)) : Prop := NoDup (map fst d) /\ forall j, In j (map fst d) -> j < m.
Lemma vfold_good m (g : vec -> vec) l d : good m d -> (forall c, In c (map fst l) -> c < m) -> good m (fold_left (fun d' cv => dict_vadd size d' (fst cv) (g (snd cv))) l d).
Proof.
  revert d. induction l as [|[c v] l IH]; intros d Hd Hl; [assumption|]. cbn [fold_left fst snd]. apply IH; [|intros; apply Hl; right; assumption].
  destruct Hd as [A B]. split; [apply dict_vadd_NoDup; assumption|]. intros j Hj. apply dict_vadd_cols in Hj. destruct Hj as [->|Hj]; [apply Hl; left; reflexivity|auto].
Qed.
Lemma vpoint_good m measure d p : (forall c, c < limit -> forall j, In j (V_dofs c) -> j < m) -> good m d -> good m (vavg_point collision limit basis V_dofs size measure d p).
Proof.
  intros H Hd. unfold vavg_point. destruct (Nat.leb_spec limit (collision (fst p))) as [L|L]; [assumption|].
  apply (vfold_good m (fun v => vtab size (fun k => (vnth v k * snd p / measure)%Qc))); [assumption|].
  intros c Hc. apply in_map_iff in Hc. destruct Hc as ([c' v] & <- & Hc). apply in_combine_l in Hc. eapply H; eassumption.
Qed.
Lemma vrow_good m x n : (forall c, c < limit -> forall j, In j (V_dofs c) -> j < m) -> good m (vavg_row collision limit basis V_dofs quadrature size x n).
Proof.
  intros H. unfold vavg_row. destruct (quadrature x n) as [pts w]. generalize (qplus_list w). intros ms.
  assert (G : forall l d, good m d -> good m (fold_left (vavg_point collision limit basis V_dofs size ms) l d)).
  { induction l as [|p l IH]; intros d Hd; [assumption|]. cbn [fold_left]. apply IH, vpoint_good; assumption. }
  apply G. split; [constructor|intros ? []].
Qed.

Lemma vdval_fold (g : vec -> vec) l d u k : k < size -> vdval (fold_left (fun d' cv => dict_vadd size d' (fst cv) (g (snd cv))) l d) u k = (vdval d u k + qsum (map (fun cv => (vnth (g (snd cv)) k * vnth u (fst cv))%Qc) l))%Qc.
Proof.
  intros Hk. revert d. induction l as [|[c v] l IH]; intros d; cbn [fold_left map qsum fst snd]; [unfold q0; ring|]. rewrite IH, vdval_add by assumption. ring.
Qed.
Lemma vdval_point measure d p u k : k < size -> space_ok limit basis V_dofs size (length u) ->
  vdval (vavg_point collision limit basis V_dofs size measure d p) u k =
  (vdval d u k + if inside collision limit (fst p) then snd p * fe_value collision basis V_dofs size u k (fst p) / measure else q0)%Qc.
Proof.
  intros Hk SO. unfold vavg_point, inside. destruct (Nat.leb_spec limit (collision (fst p))) as [H|H].
  - replace (collision (fst p) <? limit) with false by (symmetry; apply Nat.ltb_ge; assumption). unfold q0. ring.
  - replace (collision (fst p) <? limit) with true by (symmetry; apply Nat.ltb_lt; assumption).
    rewrite (vdval_fold (fun v => vtab size (fun k => (vnth v k * snd p / measure)%Qc))) by assumption. f_equal.
    rewrite (combine_sumn (fun c v => (vnth (vtab size (fun k => (vnth v k * snd p / measure)%Qc)) k * vnth u c)%Qc) _ _ 0 []) by (symmetry; apply reshape_length). unfold fe_value.
    unfold Qcdiv. rewrite (Qcmult_comm (snd p)), <- Qcmult_assoc, <- sumn_scal_r. apply sumn_ext. intros l Hl. rewrite vnth_vtab by assumption.
    unfold vnth at 1. rewrite reshape_nth by assumption. ring.
Qed.
Lemma vdval_points measure l d u k : k < size -> space_ok limit basis V_dofs size (length u) ->
  vdval (fold_left (vavg_point collision limit basis V_dofs size measure) l d) u k =
  (vdval d u k + qsum (map (fun p => if inside collision limit (fst p) then snd p * fe_value collision basis V_dofs size u k (fst p) / measure else q0) l))%Qc.
Proof.
  intros Hk SO. revert d. induction l as [|p l IH]; intros d; cbn [fold_left map qsum]; [unfold q0; ring|]. rewrite IH, vdval_point by assumption. ring.
Qed.
Lemma vdval_row x n u k : k < size -> space_ok limit basis V_dofs size (length u) -> quadrature_ok quadrature ->
  vdval (vavg_row collision limit basis V_dofs quadrature size x n) u k = shape_average collision limit basis V_dofs quadrature size u k x n.
Proof.
  intros Hk SO QO. unfold vavg_row, shape_average. specialize (QO x n). destruct (quadrature x n) as [pts w]. cbn [fst snd] in QO.
  rewrite vdval_points by assumption. unfold vdval at 1. cbn [map qsum]. rewrite (qplus_qsum w), (qsum_sumn w).
  rewrite (combine_sumn (fun y v => if inside collision limit y then v * fe_value collision basis V_dofs size u k y / sumn (length w) (vnth w) else q0)%Qc _ _ x q0) by assumption.
  unfold Qcdiv. rewrite <- sumn_scal_r. unfold q0 at 1. rewrite Qcplus_0_l. apply sumn_ext. intros q _. unfold vnth at 1 3. destruct (inside _ _ _); [reflexivity|]. unfold q0. ring.
Qed.

(** The row of component [shift] of one dof. *)
Definition rowE (d : list (nat * vec)) (k : nat) (j : nat) : Qc := qsum (map (fun cv => if fst cv =? j then vnth (snd cv) k else q0) d).
Lemma set_row_dict E r d k j : NoDup (map fst d) -> (forall j, E r j = q0) -> set_row E r (map fst d) (map (fun cv => vnth (snd cv) k) d) r j = rowE d k j.
Proof.
  intros ND Z. destruct (in_dec Nat.eq_dec j (map fst d)) as [H|H].
  - destruct (In_nth_error _ _ H) as [l Hl]. rewrite nth_error_map in Hl. destruct (nth_error d l) as [[c v]|] eqn:E1; [|discriminate]. cbn in Hl. injection Hl as ->.
    rewrite (set_row_nth _ _ _ _ l j (vnth v k)); [|assumption|rewrite nth_error_map, E1; reflexivity|rewrite nth_error_map, E1; reflexivity].
    unfold rowE. rewrite (qsum_single _ _ l (j, v)); [cbn; rewrite Nat.eqb_refl; reflexivity|assumption|].
    intros l' [c' v'] H' NE. cbn. destruct (Nat.eqb_spec c' j) as [->|]; [|reflexivity]. exfalso. apply NE.
    apply (proj1 (NoDup_nth_error (map fst d)) ND); [rewrite map_length; apply nth_error_Some; congruence|]. rewrite !nth_error_map, H', E1. reflexivity.
  - rewrite set_row_notin by assumption. rewrite Z. symmetry. apply qsum_zero. intros [c v] Hin. cbn. destruct (Nat.eqb_spec c j) as [->|]; [|reflexivity]. exfalso. apply H. apply (in_map fst _ _ Hin).
Qed.
Lemma rowE_apply m d k u : good m d -> sumn m (fun j => (rowE d k j * vnth u j)%Qc) = vdval d u k.
Proof.
  intros [_ LT]. unfold rowE, vdval.
  transitivity (sumn m (fun j => qsum (map (fun cv => ((if fst cv =? j then vnth (snd cv) k else q0) * vnth u j)%Qc) d))).
  - apply sumn_ext. intros j _. rewrite Qcmult_comm, <- qsum_scal. apply qsum_ext. intros. ring.
  - rewrite sumn_qsum. apply qsum_ext. intros [c v] H. cbn [fst snd]. rewrite (sumn_single m c).
    + rewrite Nat.eqb_refl. reflexivity.
    + apply LT. apply (in_map fst _ _ H).
    + intros j _ NE. replace (c =? j) with false; [unfold q0; ring|]. symmetry. apply Nat.eqb_neq. congruence.
Qed.

Lemma vavg_shifts E r d k s n j : NoDup (map fst d) -> (forall j, E (r + k) j = q0) ->
  fold_left (fun E' shift => set_row E' (r + shift) (map fst d) (map (fun cv => vnth (snd cv) shift) d)) (seq s n) E (r + k) j =
  if (s <=? k) && (k <? s + n) then rowE d k j else q0.
Proof.
  intros ND. revert E s. induction n as [|n IH]; intros E s Z.
  - cbn [seq fold_left]. rewrite Z. destruct (Nat.leb_spec s k), (Nat.ltb_spec k (s + 0)); cbn [andb]; try reflexivity. lia.
  - cbn [seq fold_left]. destruct (Nat.eq_dec k s) as [->|NE].
    + assert (G : forall n' s' E', s < s' -> fold_left (fun E' shift => set_row E' (r + shift) (map fst d) (map (fun cv => vnth (snd cv) shift) d)) (seq s' n') E' (r + s) j = E' (r + s) j).
      { clear. induction n' as [|n' IH]; intros s' E' L; [reflexivity|]. cbn [seq fold_left]. rewrite IH by lia. apply set_row_other. lia. }
      rewrite G by lia. rewrite set_row_dict by assumption. replace (s <=? s) with true by (symmetry; apply Nat.leb_le; lia). replace (s <? s + S n) with true by (symmetry; apply Nat.ltb_lt; lia). reflexivity.
    + rewrite IH.
      * destruct (Nat.leb_spec (S s) k), (Nat.leb_spec s k), (Nat.ltb_spec k (S s + n)), (Nat.ltb_spec k (s + S n)); cbn [andb]; try reflexivity; lia.
      * intros j'. rewrite set_row_other by lia. apply Z.
Qed.
Lemma vavg_dof_other n E rx i j : ~ In i (map (Nat.add (fst rx)) (seq 0 size)) -> vavg_dof collision limit basis V_dofs quadrature size n E rx i j = E i j.
Proof.
  unfold vavg_dof. generalize (vavg_row collision limit basis V_dofs quadrature size (snd rx) n). intros d. generalize (seq 0 size) as l. intros l. revert E. induction l as [|s l IH]; intros E H; [reflexivity|].
  cbn [fold_left map In] in *. rewrite IH by tauto. apply set_row_other. intros ->. tauto.
Qed.

Definition dof_rows (rx : nat * X) : list nat := map (Nat.add (fst rx)) (seq 0 size).
Definition cell_rows (lc : N * list (nat * X)) : list nat := flat_map dof_rows (snd lc).
Lemma vavg_dofs_other n l E i j : ~ In i (flat_map dof_rows l) -> fold_left (vavg_dof collision limit basis V_dofs quadrature size n) l E i j = E i j.
Proof.
  revert E. induction l as [|rx l IH]; intros E H; [reflexivity|]. cbn [fold_left flat_map] in *. rewrite IH by (intros H'; apply H, in_or_app; auto).
  apply vavg_dof_other. intros H'. apply H, in_or_app. left. exact H'.
Qed.
Lemma vavg_cells_other cells E i j : ~ In i (flat_map cell_rows cells) -> fold_left (fun E lc => fold_left (vavg_dof collision limit basis V_dofs quadrature size (fst lc)) (snd lc) E) cells E i j = E i j.
Proof.
  revert E. induction cells as [|lc cells IH]; intros E H; [reflexivity|]. cbn [fold_left flat_map] in *. rewrite IH by (intros H'; apply H, in_or_app; auto).
  apply vavg_dofs_other. intros H'. apply H, in_or_app. left. exact H'.
Qed.
Lemma NoDup_app_disjoint {A} (a b : list A) x : NoDup (a ++ b) -> In x a -> In x b -> False.
Proof. induction a as [|y a IH]; intros H Ha Hb; [destruct Ha|]. inversion H as [|? ? N1 N2]; subst. destruct Ha as [->|Ha]; [apply N1, in_or_app; auto|auto]. Qed.
Lemma In_dof_rows r y k : k < size -> In (r + k) (dof_rows (r, y)).
Proof. intros H. apply in_map_iff. exists k. split; [reflexivity|]. apply in_seq. lia. Qed.

Lemma vector_average_ent m n cells nn dofs r y k : NoDup (flat_map cell_rows cells) -> (forall c, c < limit -> forall j, In j (V_dofs c) -> j < n) ->
  In (nn, dofs) cells -> In (r, y) dofs -> k < size ->
  forall j, ent (vector_average collision limit basis V_dofs quadrature size m n cells) (r + k) j = rowE (vavg_row collision limit basis V_dofs quadrature size y nn) k j.
Proof.
  intros ND HD Hc Hd Hk j. unfold vector_average. cbn [ent].
  destruct (in_split _ _ Hc) as (pre & post & ->). destruct (in_split _ _ Hd) as (l1 & l2 & ->).
  rewrite flat_map_app in ND. cbn [flat_map] in ND. unfold cell_rows at 2 in ND. cbn [snd] in ND. rewrite flat_map_app in ND. cbn [flat_map] in ND.
  rewrite fold_left_app. cbn [fold_left fst snd]. rewrite fold_left_app. cbn [fold_left].
  assert (I0 : In (r + k) (dof_rows (r, y))) by (apply In_dof_rows; assumption).
  rewrite vavg_cells_other.
  2:{ intros H. apply NoDup_app_remove_l in ND. apply (NoDup_app_disjoint _ _ (r + k) ND); [|assumption]. apply in_or_app. right. apply in_or_app. left. assumption. }
  rewrite vavg_dofs_other.
  2:{ intros H. apply NoDup_app_remove_l in ND. apply NoDup_app_remove_r in ND. apply NoDup_app_remove_l in ND. apply (NoDup_app_disjoint _ _ (r + k) ND); assumption. }
  unfold vavg_dof at 1. cbn [fst snd]. rewrite vavg_shifts.
  - cbn [Nat.leb andb]. replace (k <? 0 + size) with true; [reflexivity|]. symmetry. apply Nat.ltb_lt. lia.
  - apply (vrow_good n y nn HD).
  - intros j'. rewrite vavg_dofs_other.
    + rewrite vavg_cells_other; [reflexivity|]. intros H. apply (NoDup_app_disjoint _ _ (r + k) ND); [assumption|]. apply in_or_app. left. apply in_or_app. right. apply in_or_app. left. assumption.
    + intros H. apply NoDup_app_remove_l in ND. apply NoDup_app_remove_r in ND. apply (NoDup_app_disjoint _ _ (r + k) ND); [assumption|]. apply in_or_app. left. assumption.
Qed.
Lemma vector_average_apply m u cells nn dofs r y k : space_ok limit basis V_dofs size (length u) -> quadrature_ok quadrature ->
  NoDup (flat_map cell_rows cells) -> In (nn, dofs) cells -> In (r, y) dofs -> k < size -> r + k < m ->
  vnth (mv (vector_average collision limit basis V_dofs quadrature size m (length u) cells) u) (r + k) = shape_average collision limit basis V_dofs quadrature size u k y nn.
Proof.
  intros SO QO ND Hc Hd Hk Hr. assert (HD : forall c, c < limit -> forall j, In j (V_dofs c) -> j < length u) by (intros c Lc; apply (SO c Lc)).
  rewrite vnth_mv by exact Hr. change (nc (vector_average collision limit basis V_dofs quadrature size m (length u) cells)) with (length u).
  rewrite <- vdval_row by assumption. rewrite <- (rowE_apply (length u)) by (apply vrow_good; assumption).
  apply sumn_ext. intros j _. f_equal. eapply vector_average_ent; eassumption.
Qed.
End Vector.

Lemma shape_full {X N} collision limit basis V_dofs (quadrature : X -> N -> list X * list Qc) size u k x n :
  all_inside collision limit quadrature x n -> shape_average collision limit basis V_dofs quadrature size u k x n = full_average collision basis V_dofs quadrature size u k x n.
Proof.
  unfold all_inside, shape_average, full_average. destruct (quadrature x n) as [pts w]. cbn [fst]. intros H. f_equal. apply sumn_ext. intros q Hq.
  unfold inside. replace (collision (nth q pts x) <? limit) with true; [reflexivity|]. symmetry. apply Nat.ltb_lt. apply H, nth_In, Hq.
Qed.
