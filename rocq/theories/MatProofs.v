(** Lemmas about Mat.v. *)
From Verif Require Import Base Mat.
From Coq Require Import Setoid Morphisms Field.

Lemma sumn_ext n f g : (forall i, i < n -> f i = g i) -> sumn n f = sumn n g.
Proof.
  induction n as [|n IH]; intros H; [reflexivity|].
  cbn. rewrite (H n) by lia. rewrite IH by (intros; apply H; lia). reflexivity.
Qed.

Lemma sumn_zero n f : (forall i, i < n -> f i = q0) -> sumn n f = q0.
Proof.
  induction n as [|n IH]; intros H; [reflexivity|].
  cbn. rewrite (H n) by lia. rewrite IH by (intros; apply H; lia). unfold q0; ring.
Qed.

Lemma sumn_plus n f g : sumn n (fun i => (f i + g i)%Qc) = (sumn n f + sumn n g)%Qc.
Proof. induction n as [|n IH]; cbn; [unfold q0; ring|]. rewrite IH. ring. Qed.

Lemma sumn_minus n f g : sumn n (fun i => (f i - g i)%Qc) = (sumn n f - sumn n g)%Qc.
Proof. induction n as [|n IH]; cbn; [unfold q0; ring|]. rewrite IH. ring. Qed.

Lemma sumn_scal n a f : sumn n (fun i => (a * f i)%Qc) = (a * sumn n f)%Qc.
Proof. induction n as [|n IH]; cbn; [unfold q0; ring|]. rewrite IH. ring. Qed.

Lemma sumn_scal_r n a f : sumn n (fun i => (f i * a)%Qc) = (sumn n f * a)%Qc.
Proof. induction n as [|n IH]; cbn; [unfold q0; ring|]. rewrite IH. ring. Qed.

Lemma sumn_swap m n (f : nat -> nat -> Qc) :
  sumn m (fun i => sumn n (fun j => f i j)) = sumn n (fun j => sumn m (fun i => f i j)).
Proof.
  induction m as [|m IH]; cbn.
  - symmetry. apply sumn_zero. reflexivity.
  - rewrite IH, <- sumn_plus. reflexivity.
Qed.

Lemma sumn_app m n f : sumn (m + n) f = (sumn m f + sumn n (fun i => f (m + i)%nat))%Qc.
Proof.
  induction n as [|n IH].
  - rewrite Nat.add_0_r. cbn. unfold q0; ring.
  - rewrite Nat.add_succ_r. cbn. rewrite IH. ring.
Qed.

Lemma sumn_first n f : sumn (S n) f = (f 0%nat + sumn n (fun i => f (S i)))%Qc.
Proof. change (S n) with (1 + n)%nat. rewrite (sumn_app 1 n f). cbn. unfold q0; ring. Qed.

(** One surviving term. *)
Lemma sumn_single n k f :
  k < n -> (forall i, i < n -> i <> k -> f i = q0) -> sumn n f = f k.
Proof.
  induction n as [|n IH]; intros Hk H; [lia|].
  cbn. destruct (Nat.eq_dec k n) as [->|Hne].
  - rewrite sumn_zero by (intros; apply H; lia). unfold q0; ring.
  - rewrite IH by (try lia; intros; apply H; lia). rewrite (H n) by lia. unfold q0; ring.
Qed.

Lemma meq_refl A : meq A A.
Proof. repeat split. Qed.
Lemma meq_sym A B : meq A B -> meq B A.
Proof. intros (H1 & H2 & H3). repeat split; auto. intros; symmetry; apply H3; lia. Qed.
Lemma meq_trans A B C : meq A B -> meq B C -> meq A C.
Proof.
  intros (H1 & H2 & H3) (K1 & K2 & K3). repeat split; try congruence.
  intros i j Hi Hj. rewrite H3 by assumption. apply K3; lia.
Qed.

Lemma madd_meq A A' B B' : meq A A' -> meq B B' -> nr A = nr B -> nc A = nc B -> meq (madd A B) (madd A' B').
Proof.
  intros (H1 & H2 & H3) (K1 & K2 & K3) E1 E2. repeat split; cbn; auto.
  intros. rewrite H3, K3 by lia. reflexivity.
Qed.
Lemma msub_meq A A' B B' : meq A A' -> meq B B' -> nr A = nr B -> nc A = nc B -> meq (msub A B) (msub A' B').
Proof.
  intros (H1 & H2 & H3) (K1 & K2 & K3) E1 E2. repeat split; cbn; auto.
  intros. rewrite H3, K3 by lia. reflexivity.
Qed.
Lemma mscale_meq a A A' : meq A A' -> meq (mscale a A) (mscale a A').
Proof. intros (H1 & H2 & H3). repeat split; cbn; auto. intros; rewrite H3 by lia; reflexivity. Qed.
Lemma mtr_meq A A' : meq A A' -> meq (mtr A) (mtr A').
Proof. intros (H1 & H2 & H3). repeat split; cbn; auto. Qed.
Lemma mmul_meq A A' B B' : meq A A' -> meq B B' -> nc A = nr B -> meq (mmul A B) (mmul A' B').
Proof.
  intros (H1 & H2 & H3) (K1 & K2 & K3) E. repeat split; cbn; auto.
  intros i j Hi Hj. rewrite <- H2. apply sumn_ext. intros k Hk.
  rewrite H3, K3 by lia. reflexivity.
Qed.

Lemma mmul_assoc A B C : nc A = nr B -> nc B = nr C -> meq (mmul (mmul A B) C) (mmul A (mmul B C)).
Proof.
  intros E1 E2. repeat split; cbn. intros i j Hi Hj.
  transitivity (sumn (nc B) (fun k => sumn (nc A) (fun l => (ent A i l * ent B l k * ent C k j)%Qc))).
  - apply sumn_ext. intros k Hk. rewrite <- sumn_scal_r. reflexivity.
  - rewrite sumn_swap. apply sumn_ext. intros l Hl. rewrite <- sumn_scal.
    apply sumn_ext. intros. ring.
Qed.

Lemma mscale_mmul_l a A B : meq (mmul (mscale a A) B) (mscale a (mmul A B)).
Proof.
  repeat split; cbn. intros. rewrite <- sumn_scal. apply sumn_ext. intros; ring.
Qed.
Lemma mscale_mmul_r a A B : meq (mmul A (mscale a B)) (mscale a (mmul A B)).
Proof.
  repeat split; cbn. intros. rewrite <- sumn_scal. apply sumn_ext. intros; ring.
Qed.
Lemma mscale_mscale a b A : meq (mscale a (mscale b A)) (mscale (a * b) A).
Proof. repeat split; cbn. intros; ring. Qed.

Lemma vtab_length n f : length (vtab n f) = n.
Proof. unfold vtab. rewrite map_length, seq_length. reflexivity. Qed.
Lemma vnth_vtab n f i : i < n -> vnth (vtab n f) i = f i.
Proof.
  intros H. unfold vnth, vtab. rewrite (nth_indep _ q0 (f 0)) by (rewrite map_length, seq_length; lia).
  rewrite map_nth, seq_nth by lia. reflexivity.
Qed.
Lemma vec_ext x y : length x = length y -> (forall i, i < length x -> vnth x i = vnth y i) -> x = y.
Proof. intros. apply (nth_ext x y q0 q0); assumption. Qed.
Lemma mv_length A x : length (mv A x) = nr A.
Proof. apply vtab_length. Qed.
Lemma vnth_mv A x i : i < nr A -> vnth (mv A x) i = sumn (nc A) (fun j => (ent A i j * vnth x j)%Qc).
Proof. apply vnth_vtab. Qed.
Lemma mv_meq A B x : meq A B -> mv A x = mv B x.
Proof.
  intros (H1 & H2 & H3). apply vec_ext.
  - rewrite !mv_length. assumption.
  - rewrite mv_length. intros i Hi. rewrite !vnth_mv by lia. rewrite <- H2.
    apply sumn_ext. intros j Hj. rewrite H3 by assumption. reflexivity.
Qed.
Lemma mv_mmul A B x : nc A = nr B -> mv (mmul A B) x = mv A (mv B x).
Proof.
  intros E. apply vec_ext.
  - rewrite !mv_length. reflexivity.
  - rewrite mv_length. intros i Hi. cbn in Hi. rewrite !vnth_mv by assumption. cbn.
    transitivity (sumn (nc B) (fun j => sumn (nc A) (fun k => (ent A i k * ent B k j * vnth x j)%Qc))).
    + apply sumn_ext. intros. rewrite <- sumn_scal_r. reflexivity.
    + rewrite sumn_swap. apply sumn_ext. intros k Hk. rewrite vnth_mv by lia.
      rewrite <- sumn_scal. apply sumn_ext. intros; ring.
Qed.
Lemma mv_mid n x : length x = n -> mv (mid n) x = x.
Proof.
  intros H. apply vec_ext; [rewrite mv_length; cbn; lia|].
  rewrite mv_length. intros i Hi. rewrite vnth_mv by assumption. cbn in *.
  rewrite (sumn_single n i) by (first [lia | intros j Hj Hne; destruct (Nat.eqb_spec i j); [lia|unfold q0; ring]]).
  rewrite Nat.eqb_refl. unfold q1; ring.
Qed.

Lemma vnth_app_l x y i : i < length x -> vnth (x ++ y) i = vnth x i.
Proof. intros. unfold vnth. apply app_nth1. assumption. Qed.
Lemma vnth_app_r x y i : vnth (x ++ y) (length x + i) = vnth y i.
Proof. unfold vnth. rewrite app_nth2 by lia. f_equal. lia. Qed.

(** Comparison. *)
Lemma qleb_le a b : qleb a b = true <-> (a <= b)%Qc.
Proof. unfold qleb, Qcle. apply Qle_bool_iff. Qed.
Lemma qltb_lt a b : qltb a b = true <-> (a < b)%Qc.
Proof.
  unfold qltb. rewrite negb_true_iff. split.
  - intros H. apply Qcnot_le_lt. intros C. apply qleb_le in C. congruence.
  - intros H. destruct (qleb b a) eqn:E; [|reflexivity].
    apply qleb_le in E. exfalso. apply (Qclt_not_le _ _ H E).
Qed.
Lemma qeqb_eq a b : qeqb a b = true <-> a = b.
Proof. unfold qeqb. destruct (Qc_eq_dec a b); split; congruence. Qed.
Lemma qeqb_refl a : qeqb a a = true.
Proof. apply qeqb_eq; reflexivity. Qed.
