(** Property C92: operators and preconditioners as PETSc sees them *)
From Coq Require Import Lia.
From Verif Require Import Base BaseProofs Mat MatProofs ContextModel.
Local Open Scope nat_scope.

(** Vocabulary: a call y = M x whatever y held, with nothing else touched *)
Definition overwrites (method : memory -> pvec -> pvec -> res memory) (h : memory) (x y : list nat) (wrap : list nat -> pvec) (value : list vec) : Prop :=
  exists h', method h (wrap x) (wrap y) = Ok h' /\ map h' y = value /\ forall a, ~ In a y -> h' a = h a.
Definition single (l : list nat) : pvec := match l with [a] => Flat a | _ => Nest l end.

Lemma write_same h a v : write h a v a = v.
Proof. unfold write. rewrite Nat.eqb_refl. reflexivity. Qed.
Lemma write_other h a v b : b <> a -> write h a v b = h b.
Proof. intros N. unfold write. destruct (Nat.eqb_spec b a); [contradiction | reflexivity]. Qed.
Lemma set_zero_spec l : forall h, NoDup l ->
  let h1 := fold_left (fun h a => write h a (map (fun _ => q0) (h a))) l h in
  (forall a, In a l -> h1 a = map (fun _ => q0) (h a)) /\ forall a, ~ In a l -> h1 a = h a.
Proof.
  induction l as [| b l IH]; intros h ND; cbn [fold_left]; [split; [intros a [] | reflexivity] |].
  inversion ND as [| b' l' NI ND']; subst. destruct (IH (write h b (map (fun _ => q0) (h b))) ND') as [H1 H2]. split.
  - intros a [<- | Ha]; [rewrite H2 by assumption; apply write_same |]. rewrite H1 by assumption. rewrite write_other; [reflexivity |]. intros ->. contradiction.
  - intros a Ha. rewrite H2 by (intros X; apply Ha; right; exact X). apply write_other. intros ->. apply Ha. left. reflexivity.
Qed.
Lemma vplus_zero (v w : vec) : length v = length w -> vplus (map (fun _ => q0) v) w = w.
Proof.
  intros L. unfold vplus. rewrite map_length. apply vec_ext; [rewrite vtab_length; exact L |]. intros i. rewrite vtab_length. intros Hi. rewrite vnth_vtab by assumption.
  assert (Z : vnth (map (fun _ => q0) v) i = q0). { unfold vnth. exact (map_nth (fun _ : Qc => q0) v q0 i). }
  rewrite Z. unfold q0. ring.
Qed.
Lemma axpy_spec l : forall h vs, NoDup l -> Forall2 (fun a v => exists w : vec, h a = map (fun _ => q0) w /\ length w = length v) l vs ->
  exists h', axpy h l vs = Ok h' /\ map h' l = vs /\ forall a, ~ In a l -> h' a = h a.
Proof.
  induction l as [| b l IH]; intros h vs ND F; inversion F as [| b' v l' vs' Hb F']; subst; [exists h; repeat split |].
  inversion ND as [| b' l' NI ND']; subst. destruct Hb as [w [Hw Lw]]. cbn [axpy]. rewrite Hw, map_length, Lw, Nat.eqb_refl, vplus_zero by assumption.
  destruct (IH (write h b v) vs' ND') as [h' [E [M N]]].
  - clear - F' NI. revert NI. induction F' as [| a u l vs Ha F' IH]; intros NI; constructor; [| apply IH; intros X; apply NI; right; exact X].
    destruct Ha as [w' [H1 H2]]. exists w'. split; [| exact H2]. rewrite write_other; [exact H1 |]. intros ->. apply NI. left. reflexivity.
  - exists h'. split; [exact E |]. split.
    + cbn [map]. rewrite M, N by assumption. rewrite write_same. reflexivity.
    + intros a Ha. rewrite N by (intros X; apply Ha; right; exact X). apply write_other. intros ->. apply Ha. left. reflexivity.
Qed.

Lemma method_spec block mul h x y ys : block = true \/ (exists a, x = [a]) /\ (exists a, y = [a]) ->
  NoDup y -> (forall a, In a x -> ~ In a y) -> mul (map h x) = Ok ys -> Forall2 (fun a v => length (h a) = length v) y ys ->
  overwrites (context_method block mul) h x y (if block then Nest else single) ys.
Proof.
  intros Hb ND Dj Hm HF. unfold overwrites, context_method, set_zero.
  assert (W : addresses ((if block then Nest else single) y) = y).
  { destruct block; [reflexivity |]. destruct Hb as [B | [_ [a ->]]]; [discriminate | reflexivity]. }
  rewrite W. destruct (set_zero_spec y h ND) as [H1 H2]. set (h1 := fold_left (fun (h : memory) (a : nat) => write h a (map (fun _ : Qc => q0) (h a))) y h) in *.
  assert (Rd : read block h1 ((if block then Nest else single) x) = Ok (map h x)).
  { assert (E : map h1 x = map h x) by (apply map_ext_in; intros a Ha; apply H2; apply Dj; exact Ha).
    destruct block; cbn [read]; [rewrite E; reflexivity |]. destruct Hb as [B | [[a ->] _]]; [discriminate |]. cbn [single read]. cbn [map] in E |- *. rewrite E. reflexivity. }
  rewrite Rd. cbn [bind]. rewrite Hm. cbn [bind].
  destruct (axpy_spec y h1 ys ND) as [h' [E [M N]]].
  - clear - HF H1. assert (K : forall l (vs : list vec), Forall2 (fun a v => length (h a) = length v) l vs -> (forall a, In a l -> h1 a = map (fun _ => q0) (h a)) ->
      Forall2 (fun a v => exists w : vec, h1 a = map (fun _ => q0) w /\ length w = length v) l vs).
    { intros l vs F. induction F as [| a v l vs Ha F IH]; intros H; constructor; [exists (h a); split; [apply H; left; reflexivity | exact Ha] | apply IH; intros b Hb; apply H; right; exact Hb]. }
    apply K; assumption.
  - exists h'. split; [exact E |]. split; [exact M |]. intros a Ha. rewrite N by assumption. apply H2. exact Ha.
Qed.

(** mult and multTranspose of the matrix: for vectors x and y that share no memory y becomes A x
    (A^T x) whatever it held, and no other vector changes; the sizes are the sums of those of the blocks *)
Theorem C92_operator : forall A ns x y h, exists M, ii_PETScOperator A (Some ns) = Ok M /\
  p_rows M = list_sum (row_blocks A) /\ p_cols M = list_sum (col_blocks A) /\
  (is_blocked A = true \/ (exists a, x = [a]) /\ (exists a, y = [a]) -> NoDup y -> (forall a, In a x -> ~ In a y) ->
   (forall ys : list vec, times A (map h x) = Ok ys -> Forall2 (fun a v => length (h a) = length v) y ys ->
      overwrites (p_mult M) h x y (if is_blocked A then Nest else single) ys) /\
   (forall ys : list vec, transpose_times A (map h x) = Ok ys -> Forall2 (fun a v => length (h a) = length v) y ys ->
      overwrites (p_multTranspose M) h x y (if is_blocked A then Nest else single) ys)).
Proof.
  intros A ns x y h. eexists. split; [reflexivity |]. cbn [p_rows p_cols p_mult p_multTranspose]. split; [reflexivity |]. split; [reflexivity |].
  intros Hb ND Dj. split; intros ys Hm HF; apply method_spec; assumption.
Qed.
(** The disjointness is needed: in place, x = y, the operator acts on zero *)
Theorem C92_in_place_refuted : exists A h h', times A [h 0] = Ok [[q1]] /\
  (forall M, ii_PETScOperator A (Some None) = Ok M -> p_mult M h (Flat 0) (Flat 0) = Ok h') /\ h' 0 = [q0].
Proof.
  exists (Operator false [1] [1] (fun xs => Ok xs) (fun xs => Ok xs)), (fun _ => [q1]).
  eexists. split; [reflexivity |]. split; [intros M E; injection E as <-; reflexivity |]. reflexivity.
Qed.
(** All callers pass the operator only, which is refused *)
Example case_callers : forall A, ii_PETScOperator A None = Err TypeError.
Proof. reflexivity. Qed.
(** The given null space is not the one that is removed: a residual orthogonal to the kernel changes *)
Theorem C92_nullspace_refuted : exists A z v M, times A [z] = Ok [[q0; q0]] /\ dot z z = q1 /\ dot v z = q0 /\
  ii_PETScOperator A (Some (Some [z])) = Ok M /\ match p_nullspace M with Some ns => remove ns v <> v | None => False end.
Proof.
  set (D := of_rows 2 2 [[q0; q0]; [q0; q1]]).
  exists (Operator false [2] [2] (fun xs => mapM (fun x => Ok (mv D x)) xs) (fun xs => Ok xs)), [q1; q0], [q0; q1]. eexists.
  split; [reflexivity |].
  split; [apply Qc_is_canon; vm_compute; reflexivity |]. split; [apply Qc_is_canon; vm_compute; reflexivity |].
  split; [reflexivity |]. cbn [p_nullspace option_map]. intros H. apply (f_equal (fun l => Qc_eq_bool (vnth l 1) q1)) in H. vm_compute in H. discriminate H.
Qed.
(** What is removed instead: z and, with it, the constants.  If the kernel is spanned by the unit vector z of
    mean zero, then whatever is left over is orthogonal to z and has mean zero, and exactly the residuals that are both stay *)
Definition total (n : nat) (v : vec) : Qc := sumn n (vnth v).
Definition inner (n : nat) (v w : vec) : Qc := sumn n (fun i => vnth v i * vnth w i)%Qc.
Lemma sum_const n a : sumn n (fun _ => a) = (qz (Z.of_nat n) * a)%Qc.
Proof.
  induction n as [| n IH]; cbn [sumn]; [unfold qz; cbn; unfold q0; apply Qc_is_canon; reflexivity |]. rewrite IH.
  replace (qz (Z.of_nat (S n))) with (qz (Z.of_nat n) + q1)%Qc; [unfold q1; ring |]. unfold qz, q1. apply Qc_is_canon. unfold Qcplus, Q2Qc, this. rewrite !Qred_correct. rewrite Nat2Z.inj_succ. unfold Z.succ. rewrite inject_Z_plus. reflexivity.
Qed.
Lemma qz_pos n : n <> 0 -> qz (Z.of_nat n) <> q0.
Proof. intros N E. apply (f_equal this) in E. unfold qz, q0, Q2Qc, this in E. assert (X : (inject_Z (Z.of_nat n) == 0)%Q) by (rewrite <- (Qred_correct (inject_Z (Z.of_nat n))), E; reflexivity). unfold Qeq in X. cbn in X. lia. Qed.
Theorem C92_nullspace_partial : forall A z n M ns, length z = n -> n <> 0 -> inner n z z = q1 -> total n z = q0 ->
  ii_PETScOperator A (Some (Some [z])) = Ok M -> p_nullspace M = Some ns -> forall v, length v = n ->
  length (remove ns v) = n /\ inner n (remove ns v) z = q0 /\ total n (remove ns v) = q0 /\ (inner n v z = q0 /\ total n v = q0 <-> remove ns v = v).
Proof.
  intros A z n M ns Lz N Hz Tz HM Hns v Lv. injection HM as <-. cbn [p_nullspace option_map] in Hns. injection Hns as <-.
  cbn [remove fst snd fold_left]. set (c := remove_constant v). assert (Lc : length c = n) by (unfold c, remove_constant; rewrite vtab_length; exact Lv).
  assert (Ec : forall i, i < n -> vnth c i = (vnth v i - mean v)%Qc) by (intros i Hi; unfold c, remove_constant; apply vnth_vtab; lia).
  assert (Er : forall i, i < n -> vnth (remove_vector c z) i = (vnth c i - inner n c z * vnth z i)%Qc) by (intros i Hi; unfold remove_vector, dot; rewrite Lc, vnth_vtab by exact Hi; reflexivity).
  assert (Mv : mean v = (total n v / qz (Z.of_nat n))%Qc) by (unfold mean, total; rewrite Lv; reflexivity).
  assert (Q : qz (Z.of_nat n) <> q0) by (apply qz_pos; exact N).
  assert (Tc : total n c = q0).
  { unfold total. rewrite (sumn_ext n _ (fun i => vnth v i - mean v)%Qc Ec), sumn_minus, sum_const, Mv. fold (total n v). unfold q0 in *. field. exact Q. }
  assert (Ic : inner n c z = inner n v z).
  { unfold inner. rewrite (sumn_ext n _ (fun i => vnth v i * vnth z i - mean v * vnth z i)%Qc) by (intros i Hi; rewrite Ec by exact Hi; ring). rewrite sumn_minus, sumn_scal. fold (total n z). rewrite Tz. unfold q0. ring. }
  split; [unfold remove_vector; rewrite vtab_length; exact Lc |]. split; [| split].
  - unfold inner. rewrite (sumn_ext n _ (fun i => vnth c i * vnth z i - inner n c z * (vnth z i * vnth z i))%Qc) by (intros i Hi; rewrite Er by exact Hi; ring). rewrite sumn_minus, sumn_scal. fold (inner n c z). fold (inner n z z). rewrite Hz. unfold q0, q1. ring.
  - unfold total. rewrite (sumn_ext n _ (fun i => vnth c i - inner n c z * vnth z i)%Qc Er), sumn_minus, sumn_scal. fold (total n c). fold (total n z). rewrite Tc, Tz. unfold q0. ring.
  - split.
    + intros [H1 H2]. apply vec_ext; [unfold remove_vector; rewrite vtab_length; congruence |]. intros i. unfold remove_vector at 1. rewrite vtab_length, Lc. intros Hi. rewrite Er, Ec, Ic, H1, Mv, H2 by exact Hi. unfold q0 in *. field. exact Q.
    + intros E. assert (T : total n (remove_vector c z) = q0 /\ inner n (remove_vector c z) z = q0).
      { split.
        - unfold total. rewrite (sumn_ext n _ (fun i => vnth c i - inner n c z * vnth z i)%Qc Er), sumn_minus, sumn_scal. fold (total n c). fold (total n z). rewrite Tc, Tz. unfold q0. ring.
        - unfold inner. rewrite (sumn_ext n _ (fun i => vnth c i * vnth z i - inner n c z * (vnth z i * vnth z i))%Qc) by (intros i Hi; rewrite Er by exact Hi; ring). rewrite sumn_minus, sumn_scal. fold (inner n c z). fold (inner n z z). rewrite Hz. unfold q0, q1. ring. }
      rewrite E in T. tauto.
Qed.
(** A unit vector of mean zero *)
Example case_nullspace : let z := [qz 1 / qz 2; qz 1 / qz 2; - (qz 1 / qz 2); - (qz 1 / qz 2)]%Qc in inner 4 z z = q1 /\ total 4 z = q0.
Proof. split; apply Qc_is_canon; vm_compute; reflexivity. Qed.
(** The preconditioner of one block, and of several where block_vec is a block_base: as the operator *)
Theorem C92_preconditioner_partial : forall base B x y h, is_blocked B = true /\ base = true \/ is_blocked B = false /\ (exists a, x = [a]) /\ (exists a, y = [a]) ->
  NoDup y -> (forall a, In a x -> ~ In a y) ->
  (forall ys : list vec, times B (map h x) = Ok ys -> Forall2 (fun a v => length (h a) = length v) y ys ->
     overwrites (pc_apply (ii_PETScPreconditioner base B)) h x y (if is_blocked B then Nest else single) ys) /\
  (forall ys : list vec, transpose_times B (map h x) = Ok ys -> Forall2 (fun a v => length (h a) = length v) y ys ->
     overwrites (pc_applyTranspose (ii_PETScPreconditioner base B)) h x y (if is_blocked B then Nest else single) ys).
Proof.
  intros base B x y h Hb ND Dj. unfold ii_PETScPreconditioner.
  destruct Hb as [[Eb Ebase] | [Eb [Hx Hy]]]; rewrite Eb.
  - rewrite Ebase. cbn [andb pc_apply pc_applyTranspose]. split; intros ys Hm HF; apply (method_spec true); auto.
  - cbn [andb pc_apply pc_applyTranspose]. split; intros ys Hm HF; apply (method_spec false); auto; unfold one_block; rewrite Eb; exact Hm.
Qed.
(** Where it is not (line 122 asks for the wrong class), every application of a block operator fails *)
Theorem C92_preconditioner_refuted : forall B h x y, is_blocked B = true ->
  (exists e, pc_apply (ii_PETScPreconditioner false B) h x y = Err e) /\ exists e, pc_applyTranspose (ii_PETScPreconditioner false B) h x y = Err e.
Proof.
  intros B h x y Eb. unfold ii_PETScPreconditioner. rewrite Eb. cbn [andb pc_apply pc_applyTranspose]. unfold context_method, one_block. rewrite Eb.
  destruct x as [a | l]; cbn [read bind]; eauto.
Qed.
(** Back again: BlockPC of the preconditioner of B is B, in the vector of the pool whatever it held *)
Theorem C92_back : forall base B h x y ys, is_blocked B = false -> x <> y -> times B [h x] = Ok [ys] -> length (h y) = length ys ->
  exists h', BlockPC_matvec (ii_PETScPreconditioner base B) h x y = Ok (h', y) /\ h' y = ys /\ forall a, a <> y -> h' a = h a.
Proof.
  intros base B h x y ys Eb N Hm HL.
  destruct (C92_preconditioner_partial base B [x] [y] h) as [H _].
  - right. split; [exact Eb |]. split; eauto.
  - constructor; [intros [] | constructor].
  - intros a [<- | []] [E | []]. apply N. symmetry. exact E.
  - destruct (H [ys] Hm) as [h' [E [M F]]]; [constructor; [exact HL | constructor] |]. rewrite Eb in E. cbn [single] in E.
    exists h'. unfold BlockPC_matvec. rewrite E. cbn [bind]. split; [reflexivity |]. cbn [map] in M. split; [congruence |].
    intros a Na. apply F. intros [X | []]. apply Na. symmetry. exact X.
Qed.

(** A block operator that exchanges two blocks, applied to vectors of a memory that holds rubbish *)
Definition swap_op : operator := Operator true [1; 2] [2; 1]
  (fun xs => match xs with [a; b] => Ok [b; a] | _ => Err TypeError end) (fun xs => match xs with [a; b] => Ok [b; a] | _ => Err TypeError end).
Definition rubbish : memory := fun a => match a with 0 => [qz 3; qz 4] | 1 => [qz 5] | 2 => [qz 9] | _ => [qz 8; qz 8] end.
Example case_swap : times swap_op (map rubbish [0; 1]) = Ok [[qz 5]; [qz 3; qz 4]] /\
  Forall2 (fun a v => length (rubbish a) = length v) [2; 3] [[qz 5]; [qz 3; qz 4]] /\ NoDup [2; 3] /\ forall a, In a [0; 1] -> ~ In a [2; 3].
Proof. split; [reflexivity |]. split; [repeat constructor |]. split; [repeat constructor; cbn; intuition discriminate |]. cbn. intros a [<- | [<- | []]]; intuition discriminate. Qed.
Example case_sizes : exists M, ii_PETScOperator swap_op (Some None) = Ok M /\ p_rows M = 3 /\ p_cols M = 3 /\ p_nullspace M = None.
Proof. eexists. repeat split. Qed.

Print Assumptions C92_operator.
Print Assumptions C92_in_place_refuted.
Print Assumptions C92_nullspace_refuted.
Print Assumptions C92_nullspace_partial.
Print Assumptions C92_preconditioner_partial.
Print Assumptions C92_preconditioner_refuted.
Print Assumptions C92_back.
