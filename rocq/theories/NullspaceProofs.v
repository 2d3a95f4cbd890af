(** Specification vocabulary and proofs for NullspaceModel.v. *)
From Verif Require Import RLin BaseProofs NullspaceModel.
Open Scope R_scope.

(** ** Specification vocabulary *)

(** Equal on the entries that exist. *)
Definition agree (sizes : list nat) (u v : bvec) : Prop :=
  forall b i, (b < length sizes)%nat -> (i < nth b sizes O)%nat -> u b i = v b i.

(** Standard inner product of block vectors, as a sum over all entries. *)
Definition ip (sizes : list nat) (u v : bvec) : R :=
  rsum (length sizes) (fun b => rsum (nth b sizes O) (fun i => u b i * v b i)).

Definition zth (Z : list bvec) (k : nat) : bvec := nth k Z (fun _ _ => 0).

Definition orthonormal (sizes : list nat) (Z : list bvec) : Prop :=
  forall i j, (i < length Z)%nat -> (j < length Z)%nat ->
    ip sizes (zth Z i) (zth Z j) = if (i =? j)%nat then 1 else 0.

(** The linear span. *)
Inductive span (sizes : list nat) (Y : bvec -> Prop) : bvec -> Prop :=
| span_in y : Y y -> span sizes Y y
| span_zero : span sizes Y (fun _ _ => 0)
| span_add u v a : span sizes Y u -> span sizes Y v -> span sizes Y (fun b i => u b i + a * v b i)
| span_agree u v : agree sizes u v -> span sizes Y u -> span sizes Y v.

(** ** Inner product *)

Lemma inner_ip sizes u v : inner sizes u v = ip sizes u v.
Proof. reflexivity. Qed.

Lemma ip_sym sizes u v : ip sizes u v = ip sizes v u.
Proof. unfold ip. apply rsum_ext. intros b _. apply rsum_ext. intros; ring. Qed.

Lemma ip_lin sizes u v a w : ip sizes (fun b i => u b i + a * v b i) w = ip sizes u w + a * ip sizes v w.
Proof.
  unfold ip. rewrite <- rsum_scal, <- rsum_plus. apply rsum_ext. intros b _.
  rewrite <- rsum_scal, <- rsum_plus. apply rsum_ext. intros; ring.
Qed.

Lemma ip_agree sizes u u' w : agree sizes u u' -> ip sizes u w = ip sizes u' w.
Proof. intros H. unfold ip. apply rsum_ext. intros b Hb. apply rsum_ext. intros i Hi. rewrite (H b i Hb Hi). reflexivity. Qed.

Lemma ip_zero sizes w : ip sizes (fun _ _ => 0) w = 0.
Proof. unfold ip. apply rsum_zero. intros. apply rsum_zero. intros. ring. Qed.

Lemma ip_nonneg sizes u : 0 <= ip sizes u u.
Proof. unfold ip. apply rsum_nonneg. intros. apply rsum_nonneg. intros. apply Rle_0_sqr. Qed.

Lemma ip_definite sizes u : ip sizes u u = 0 -> agree sizes u (fun _ _ => 0).
Proof.
  intros H b i Hb Hi. unfold ip in H.
  assert (H1 := rsum_zero_inv _ _ (fun b _ => rsum_nonneg (nth b sizes O) (fun i => u b i * u b i) (fun i _ => Rle_0_sqr (u b i))) H b Hb).
  cbn beta in H1.
  assert (H2 := rsum_zero_inv _ _ (fun i _ => Rle_0_sqr (u b i)) H1 i Hi). cbn beta in H2.
  apply Rsqr_0_uniq. exact H2.
Qed.

Lemma norm_sqr sizes u : norm sizes u * norm sizes u = ip sizes u u.
Proof. unfold norm. apply sqrt_sqrt. apply ip_nonneg. Qed.

Lemma norm_zero sizes u : ip sizes u u = 0 -> norm sizes u = 0.
Proof. intros H. unfold norm. rewrite inner_ip, H. apply sqrt_0. Qed.

(** ** The loop *)

(** Removing multiples one after the other. *)
Definition remove (l : list (bvec * R)) (v : bvec) : bvec := fold_left (fun v ba => bsub v (snd ba) (fst ba)) l v.

Lemma remove_ip sizes l : forall v w,
  ip sizes (remove l v) w =
  ip sizes v w - rsum (length l) (fun k => snd (nth k l (fun _ _ => 0, 0)) * ip sizes (fst (nth k l (fun _ _ => 0, 0))) w).
Proof.
  induction l as [|[b a] l IH]; intros v w; [cbn; lra|].
  cbn [length]. rewrite rsum_first. cbn [nth fst snd]. unfold remove in *. cbn [fold_left fst snd]. rewrite IH.
  rewrite (ip_agree sizes (bsub v a b) (fun b' i => v b' i + (-a) * b b' i)) by (intros b' i _ _; unfold bsub; ring).
  rewrite ip_lin. lra.
Qed.

Lemma combine_nth_angle sizes Z v k : (k < length Z)%nat ->
  nth k (combine Z (angles sizes Z v)) (fun _ _ => 0, 0) = (zth Z k, ip sizes v (zth Z k)).
Proof.
  intros H. unfold angles. rewrite combine_nth by (rewrite map_length; reflexivity). f_equal.
  rewrite (nth_indep _ 0 (inner sizes v (fun _ _ => 0))) by (rewrite map_length; assumption).
  rewrite map_nth. reflexivity.
Qed.

Lemma length_combine_angles sizes Z v : length (combine Z (angles sizes Z v)) = length Z.
Proof. unfold angles. rewrite combine_length, map_length. lia. Qed.

Lemma residual_orth sizes Z v j : orthonormal sizes Z -> (j < length Z)%nat ->
  ip sizes (remove (combine Z (angles sizes Z v)) v) (zth Z j) = 0.
Proof.
  intros H Hj. rewrite remove_ip, length_combine_angles.
  rewrite (rsum_single (length Z) j).
  - rewrite combine_nth_angle by assumption. cbn [fst snd]. rewrite H by assumption. rewrite Nat.eqb_refl. lra.
  - assumption.
  - intros i Hi N. rewrite combine_nth_angle by assumption. cbn [fst snd]. rewrite H by assumption.
    destruct (Nat.eqb_spec i j); [contradiction|]. lra.
Qed.

Lemma remove_span sizes Y l : forall v, (forall b a, In (b, a) l -> span sizes Y b) ->
  span sizes Y (fun b i => v b i + -1 * remove l v b i).
Proof.
  induction l as [|[b a] l IH]; intros v H.
  - eapply span_agree; [|apply span_zero]. intros ? ? _ _. cbn. lra.
  - unfold remove in *. cbn [fold_left fst snd].
    eapply span_agree; [|apply (span_add sizes Y (fun b' i => bsub v a b b' i + -1 * fold_left (fun v ba => bsub v (snd ba) (fst ba)) l (bsub v a b) b' i) b a)].
    + intros b' i _ _. unfold bsub at 1. lra.
    + apply (IH (bsub v a b)). intros; eapply H; right; eassumption.
    + eapply H. left. reflexivity.
Qed.

Lemma span_mono sizes (Y Y' : bvec -> Prop) v :
  (forall y, Y y -> span sizes Y' y) -> span sizes Y v -> span sizes Y' v.
Proof.
  intros H S. induction S as [y Hy| |u v a Su IHu Sv IHv|u v A Su IHu].
  - apply H; assumption.
  - apply span_zero.
  - apply span_add; assumption.
  - eapply span_agree; eassumption.
Qed.

Lemma zth_in Z k : (k < length Z)%nat -> In (zth Z k) Z.
Proof. intros. apply nth_In. assumption. Qed.

Lemma in_combine_span sizes Z (l : list R) b a : In (b, a) (combine Z l) -> span sizes (fun y => In y Z) b.
Proof. intros H. apply span_in. eapply in_combine_l. exact H. Qed.

(** Orthogonal to all of Z implies orthogonal to the span. *)
Lemma orth_span sizes (Y : bvec -> Prop) u w : (forall y, Y y -> ip sizes y u = 0) -> span sizes Y w -> ip sizes w u = 0.
Proof.
  intros H S. induction S as [y Hy| |a b c Sa IHa Sb IHb|a b A Sa IHa].
  - apply H; assumption.
  - apply ip_zero.
  - rewrite ip_lin, IHa, IHb. lra.
  - rewrite <- (ip_agree sizes a b u A). assumption.
Qed.

(** The residual of a vector of the span is zero. *)
Lemma residual_span sizes Z v : orthonormal sizes Z -> span sizes (fun y => In y Z) v ->
  agree sizes (remove (combine Z (angles sizes Z v)) v) (fun _ _ => 0).
Proof.
  intros H S. set (r := remove (combine Z (angles sizes Z v)) v). apply ip_definite.
  apply (orth_span sizes (fun y => In y Z) r r).
  - intros y Hy. apply (In_nth _ _ (fun _ _ => 0)) in Hy. destruct Hy as (k & Hk & <-).
    rewrite ip_sym. apply residual_orth; assumption.
  - eapply span_agree; [|apply (span_add sizes (fun y => In y Z) v (fun b i => v b i + -1 * r b i) (-1))].
    + intros b i _ _. lra.
    + exact S.
    + apply remove_span. intros. eapply in_combine_span. eassumption.
Qed.

(** ** orthogonalize *)

Lemma orthogonalize_orth sizes Z v k : orthonormal sizes Z -> (k < length Z)%nat ->
  ip sizes (orthogonalize sizes Z v) (zth Z k) = 0.
Proof. intros H Hk. apply (residual_orth sizes Z v k H Hk). Qed.

Lemma orthogonalize_span sizes Z v :
  span sizes (fun y => In y Z) (fun b i => v b i + -1 * orthogonalize sizes Z v b i).
Proof. apply remove_span. intros. eapply in_combine_span. eassumption. Qed.

(** Vectors orthogonal to the basis are left alone. *)
Lemma orthogonalize_fix sizes Z v : (forall k, (k < length Z)%nat -> ip sizes v (zth Z k) = 0) ->
  orthogonalize sizes Z v = v \/ agree sizes (orthogonalize sizes Z v) v.
Proof.
  intros H. right. unfold orthogonalize.
  assert (G : forall l w, (forall b a, In (b, a) l -> a = 0) -> agree sizes (remove l w) w).
  { induction l as [|[b a] l IH]; intros w Hl; [intros ? ? _ _; reflexivity|].
    unfold remove in *. cbn [fold_left fst snd]. intros b' i Hb Hi.
    rewrite (IH (bsub w a b)) by (try assumption; intros; eapply Hl; right; eassumption).
    unfold bsub. rewrite (Hl b a) by (left; reflexivity). ring. }
  apply G. intros b a Hin. apply (In_nth _ _ (fun _ _ => 0, 0)) in Hin. destruct Hin as (k & Hk & E).
  rewrite length_combine_angles in Hk. rewrite combine_nth_angle in E by assumption. inversion E; subst. apply H. assumption.
Qed.

Lemma orthogonalize_idem sizes Z v : orthonormal sizes Z ->
  agree sizes (orthogonalize sizes Z (orthogonalize sizes Z v)) (orthogonalize sizes Z v).
Proof.
  intros H. destruct (orthogonalize_fix sizes Z (orthogonalize sizes Z v)) as [E|E].
  - intros. apply orthogonalize_orth; assumption.
  - rewrite E. intros ? ? _ _. reflexivity.
  - exact E.
Qed.

(** ** add_vector *)

Lemma add_loop_value sizes l : forall v w, add_loop sizes l v = Ok w -> w = remove l v.
Proof.
  induction l as [|[b a] l IH]; intros v w H; cbn [add_loop] in H; [inversion H; reflexivity|].
  destruct (Req_EM_T _ 0); [discriminate|]. destruct (Rgt_dec _ _); [|discriminate].
  apply IH in H. exact H.
Qed.

Lemma add_loop_err sizes l : forall v e, add_loop sizes l v = Err e -> e = ZeroDivisionError \/ e = AssertionError.
Proof.
  induction l as [|[b a] l IH]; intros v e H; cbn [add_loop] in H; [discriminate|].
  destruct (Req_EM_T _ 0); [inversion H; auto|]. destruct (Rgt_dec _ _); [|inversion H; auto].
  apply IH in H. exact H.
Qed.

(** The vector meant by a list of Vectors. *)
Definition vector_of (vec : list bentry) : bvec :=
  fun b i => match nth b vec (EVector (fun _ => 0)) with EVector v => v i | _ => 0 end.
Definition all_vectors (vec : list bentry) : Prop := forall e, In e vec -> exists v, e = EVector v.

Lemma substitute_ok vec : forall l, substitute vec = Ok l -> all_vectors vec /\ forall b i, as_bvec l b i = vector_of vec b i.
Proof.
  induction vec as [|e vec IH]; intros l H; cbn [substitute] in H.
  - inversion H. split; [intros e []|]. intros b i. destruct b; reflexivity.
  - destruct e; try discriminate. destruct (substitute vec) as [l'|] eqn:E; cbn [bind] in H; [|discriminate].
    inversion H; subst. destruct (IH l' eq_refl) as [H1 H2]. split.
    + intros e [<-|He]; [eauto|apply H1; assumption].
    + intros b i. destruct b; [reflexivity|]. apply (H2 b i).
Qed.

Lemma substitute_total vec : all_vectors vec -> exists l, substitute vec = Ok l.
Proof.
  induction vec as [|e vec IH]; intros H; [eexists; reflexivity|].
  destruct (H e (or_introl eq_refl)) as [v ->]. destruct IH as [l E]; [intros e He; apply H; right; assumption|].
  cbn [substitute]. rewrite E. eexists; reflexivity.
Qed.

Lemma substitute_err vec : ~ all_vectors vec -> substitute vec = Err NameError.
Proof.
  induction vec as [|e vec IH]; intros H; [elim H; intros e []|].
  destruct e; try reflexivity. cbn [substitute]. rewrite IH; [reflexivity|].
  intros G. apply H. intros e [<-|He]; [eauto|apply G; assumption].
Qed.

Lemma add_vector_inv sizes Z vec Z' : add_vector sizes Z vec = Ok Z' ->
  exists w r, all_vectors vec /\ agree sizes w (vector_of vec) /\
    r = remove (combine Z (angles sizes Z w)) w /\ norm sizes r <> 0 /\ Z' = Z ++ [bscale (1 / norm sizes r) r].
Proof.
  unfold add_vector. destruct (substitute vec) as [l|] eqn:E; cbn [bind]; [|discriminate].
  destruct (substitute_ok vec l E) as [HA HV].
  destruct (add_loop sizes (combine Z (angles sizes Z (as_bvec l))) (as_bvec l)) as [w|] eqn:EL; cbn [bind]; [|discriminate].
  destruct (Req_EM_T (norm sizes w) 0); [discriminate|]. intros H. inversion H; subst.
  apply add_loop_value in EL.
  exists (as_bvec l), w. split; [assumption|]. split; [intros b i _ _; apply HV|]. split; [assumption|]. split; [assumption|reflexivity].
Qed.

Lemma zth_app Z z k : zth (Z ++ [z]) k = if (k =? length Z)%nat then z else zth Z k.
Proof.
  unfold zth. destruct (Nat.eqb_spec k (length Z)) as [->|N].
  - rewrite app_nth2 by lia. rewrite Nat.sub_diag. reflexivity.
  - destruct (Nat.lt_ge_cases k (length Z)); [rewrite app_nth1 by assumption; reflexivity|].
    rewrite !nth_overflow by (rewrite ?app_length; cbn; lia). reflexivity.
Qed.

Lemma ip_scale_l sizes a u w : ip sizes (bscale a u) w = a * ip sizes u w.
Proof.
  rewrite (ip_agree sizes (bscale a u) (fun b i => 0 + a * u b i)) by (intros ? ? _ _; unfold bscale; ring).
  rewrite ip_lin, ip_zero. lra.
Qed.

Lemma add_vector_orthonormal sizes Z vec Z' : orthonormal sizes Z -> add_vector sizes Z vec = Ok Z' -> orthonormal sizes Z'.
Proof.
  intros HO HA. destruct (add_vector_inv _ _ _ _ HA) as (w & r & _ & _ & Hr & Hn & ->).
  assert (O : forall k, (k < length Z)%nat -> ip sizes r (zth Z k) = 0) by (intros k Hk; subst r; apply residual_orth; assumption).
  intros i j Hi Hj. rewrite app_length in Hi, Hj. cbn in Hi, Hj. rewrite !zth_app.
  destruct (Nat.eqb_spec i (length Z)) as [->|Ni]; destruct (Nat.eqb_spec j (length Z)) as [->|Nj].
  - rewrite ip_scale_l, ip_sym, ip_scale_l, <- norm_sqr, Nat.eqb_refl. field. assumption.
  - rewrite ip_scale_l, O by lia. destruct (Nat.eqb_spec (length Z) j); [lia|]. lra.
  - rewrite ip_sym, ip_scale_l, O by lia. destruct (Nat.eqb_spec i (length Z)); [lia|]. lra.
  - apply HO; lia.
Qed.

Lemma add_vector_span sizes Z vec Z' : add_vector sizes Z vec = Ok Z' ->
  (forall z, In z Z -> In z Z') /\
  span sizes (fun y => In y Z') (vector_of vec) /\
  (forall z, In z Z' -> span sizes (fun y => In y Z \/ y = vector_of vec) z).
Proof.
  intros HA. destruct (add_vector_inv _ _ _ _ HA) as (w & r & _ & Hw & Hr & Hn & ->).
  assert (SZ : span sizes (fun y => In y Z) (fun b i => w b i + -1 * r b i)).
  { subst r. apply remove_span. intros. eapply in_combine_span. eassumption. }
  split; [intros; apply in_or_app; left; assumption|]. split.
  - eapply span_agree; [exact Hw|].
    eapply span_agree; [|apply (span_add sizes _ (fun b i => w b i + -1 * r b i) (bscale (1 / norm sizes r) r) (norm sizes r))].
    + intros b i _ _. unfold bscale. field. assumption.
    + eapply span_mono; [|exact SZ]. intros y Hy. apply span_in. apply in_or_app. left. assumption.
    + apply span_in. apply in_or_app. right. left. reflexivity.
  - intros z Hz. apply in_app_or in Hz. destruct Hz as [Hz|[<-|[]]]; [apply span_in; left; assumption|].
    eapply span_agree; [|apply (span_add sizes _ (fun _ _ => 0) (fun b i => vector_of vec b i + -1 * (w b i + -1 * r b i)) (1 / norm sizes r))].
    + intros b i Hb Hi. unfold bscale. rewrite (Hw b i Hb Hi). ring.
    + apply span_zero.
    + apply span_add; [apply span_in; right; reflexivity|].
      eapply span_mono; [|exact SZ]. intros y Hy. apply span_in. left. assumption.
Qed.

Lemma add_vectors_correct sizes vecs : forall Z Z' (Y : bvec -> Prop), orthonormal sizes Z ->
  (forall z, In z Z -> span sizes Y z) -> (forall y, Y y -> span sizes (fun z => In z Z) y) ->
  add_vectors sizes Z vecs = Ok Z' ->
  orthonormal sizes Z' /\ length Z' = (length Z + length vecs)%nat /\
  (forall z, In z Z' -> span sizes (fun y => Y y \/ exists v, In v vecs /\ y = vector_of v) z) /\
  (forall y, (Y y \/ exists v, In v vecs /\ y = vector_of v) -> span sizes (fun z => In z Z') y).
Proof.
  induction vecs as [|v vecs IH]; intros Z Z' Y HO H1 H2 H; cbn [add_vectors] in H.
  - inversion H; subst. split; [assumption|]. split; [cbn; lia|]. split.
    + intros z Hz. eapply span_mono; [|apply H1; exact Hz]. intros. apply span_in. left. assumption.
    + intros y [Hy|(v & [] & _)]. apply H2. assumption.
  - destruct (add_vector sizes Z v) as [Z1|] eqn:E; cbn [bind] in H; [|discriminate].
    destruct (add_vector_span _ _ _ _ E) as (S1 & S2 & S3).
    destruct (add_vector_inv _ _ _ _ E) as (w & r & _ & _ & _ & _ & EZ).
    specialize (IH Z1 Z' (fun y => Y y \/ y = vector_of v) (add_vector_orthonormal _ _ _ _ HO E)).
    destruct IH as (A & B & C & D).
    + intros z Hz. eapply span_mono; [|apply S3; exact Hz]. intros y [Hy|Hy].
      * eapply span_mono; [|apply H1; exact Hy]. intros. apply span_in. left. assumption.
      * apply span_in. right. assumption.
    + intros y [Hy|Hy].
      * eapply span_mono; [|apply H2; exact Hy]. intros. apply span_in. apply S1. assumption.
      * subst. exact S2.
    + exact H.
    + split; [exact A|]. split; [rewrite B, EZ, app_length; cbn; lia|]. split.
      * intros z Hz. eapply span_mono; [|apply C; exact Hz]. intros y [[Hy|Hy]|(v' & Hv & Hy)]; apply span_in.
        -- left; assumption.
        -- right. exists v. split; [left; reflexivity|assumption].
        -- right. exists v'. split; [right; assumption|assumption].
      * intros y [Hy|(v' & [->|Hv] & Hy)]; apply D.
        -- left. left. assumption.
        -- left. right. assumption.
        -- right. exists v'. split; assumption.
Qed.

Lemma orthonormal_nil sizes : orthonormal sizes [].
Proof. intros i j Hi. cbn in Hi. lia. Qed.

Lemma block_nullspace_correct sizes vecs Z : block_nullspace sizes vecs = Ok Z ->
  orthonormal sizes Z /\ length Z = length vecs /\
  (forall z, In z Z -> span sizes (fun y => exists v, In v vecs /\ y = vector_of v) z) /\
  (forall v, In v vecs -> span sizes (fun z => In z Z) (vector_of v)).
Proof.
  intros H. destruct (add_vectors_correct sizes vecs [] Z (fun _ => False) (orthonormal_nil sizes)) as (A & B & C & D).
  - intros z [].
  - intros y [].
  - exact H.
  - split; [exact A|]. split; [exact B|]. split.
    + intros z Hz. eapply span_mono; [|apply C; exact Hz]. intros y [[]|Hy]. apply span_in. exact Hy.
    + intros v Hv. apply D. right. eauto.
Qed.

(** A vector of the span is never accepted. *)
Lemma add_vector_dependent sizes Z vec : orthonormal sizes Z -> all_vectors vec ->
  span sizes (fun y => In y Z) (vector_of vec) ->
  add_vector sizes Z vec = Err ZeroDivisionError \/ add_vector sizes Z vec = Err AssertionError.
Proof.
  intros HO HA HS. unfold add_vector. destruct (substitute_total vec HA) as [l E]. rewrite E. cbn [bind].
  destruct (substitute_ok vec l E) as [_ HV].
  destruct (add_loop sizes (combine Z (angles sizes Z (as_bvec l))) (as_bvec l)) as [w|e] eqn:EL; cbn [bind].
  - left. apply add_loop_value in EL.
    assert (A0 : agree sizes w (fun _ _ => 0)).
    { subst w. apply residual_span; [assumption|]. eapply span_agree; [|exact HS]. intros b i _ _. symmetry. apply HV. }
    assert (N0 : norm sizes w = 0).
    { apply norm_zero. rewrite (ip_agree sizes w (fun _ _ => 0) w A0). apply ip_zero. }
    destruct (Req_EM_T (norm sizes w) 0); [reflexivity|contradiction].
  - destruct (add_loop_err _ _ _ _ EL) as [->| ->]; auto.
Qed.

(** The first vector is accepted exactly when it is not zero. *)
Lemma add_vector_first sizes vec : all_vectors vec ->
  ((exists Z, add_vector sizes [] vec = Ok Z) <-> ~ agree sizes (vector_of vec) (fun _ _ => 0)).
Proof.
  intros HA. unfold add_vector. destruct (substitute_total vec HA) as [l E]. rewrite E. cbn [bind combine add_loop].
  destruct (substitute_ok vec l E) as [_ HV].
  destruct (Req_EM_T (norm sizes (as_bvec l)) 0) as [N|N].
  - split; [intros [Z H]; discriminate|]. intros H. elim H. intros b i Hb Hi. rewrite <- HV.
    apply (ip_definite sizes); [|assumption|assumption]. rewrite <- norm_sqr, N. ring.
  - split; [|intros _; eexists; reflexivity]. intros _ H. apply N. apply norm_zero.
    rewrite (ip_agree sizes _ (fun _ _ => 0)); [apply ip_zero|]. intros b i Hb Hi. rewrite HV. apply H; assumption.
Qed.

(** ** Projector *)

Definition same (n : nat) (x y : fvec) : Prop := forall i, (i < n)%nat -> x i = y i.
Definition symmetricR (n : nat) (M : nat -> nat -> R) : Prop := forall i j, (i < n)%nat -> (j < n)%nat -> M i j = M j i.
(** Inner product x^T M y. *)
Definition ipM (n : nat) (M : nat -> nat -> R) (x y : fvec) : R := rsum n (fun i => rsum n (fun j => x i * M i j * y j)).
Definition orthonormalM (n : nat) (M : nat -> nat -> R) (basis : list fvec) : Prop :=
  forall i j, (i < length basis)%nat -> (j < length basis)%nat ->
    ipM n M (nth i basis (fun _ => 0)) (nth j basis (fun _ => 0)) = if (i =? j)%nat then 1 else 0.

Lemma dot_mulv n M x y : dot n x (mulv n M y) = ipM n M x y.
Proof. unfold dot, mulv, ipM. apply rsum_ext. intros i _. rewrite <- rsum_scal. apply rsum_ext. intros; ring. Qed.

Lemma dot_sym n x y : dot n x y = dot n y x.
Proof. unfold dot. apply rsum_ext. intros; ring. Qed.

Lemma ipM_sym n M x y : symmetricR n M -> ipM n M x y = ipM n M y x.
Proof.
  intros H. unfold ipM. rewrite rsum_swap. apply rsum_ext. intros i Hi. apply rsum_ext. intros j Hj.
  rewrite (H j i Hj Hi). ring.
Qed.

Lemma ipM_lin n M u a v w : ipM n M (fun i => u i + a * v i) w = ipM n M u w + a * ipM n M v w.
Proof.
  unfold ipM. rewrite <- rsum_scal, <- rsum_plus. apply rsum_ext. intros i _.
  rewrite <- rsum_scal, <- rsum_plus. apply rsum_ext. intros; ring.
Qed.

Lemma ipM_same n M u u' w w' : same n u u' -> same n w w' -> ipM n M u w = ipM n M u' w'.
Proof.
  intros H1 H2. unfold ipM. apply rsum_ext. intros i Hi. apply rsum_ext. intros j Hj.
  rewrite (H1 i Hi), (H2 j Hj). reflexivity.
Qed.

Lemma ipM_sum n M m (c : nat -> R) (f : nat -> fvec) w :
  ipM n M (fun i => rsum m (fun k => c k * f k i)) w = rsum m (fun k => c k * ipM n M (f k) w).
Proof.
  induction m as [|m IH]; cbn [rsum].
  - unfold ipM. apply rsum_zero. intros. apply rsum_zero. intros. ring.
  - rewrite <- IH. rewrite <- ipM_lin. reflexivity.
Qed.

Definition bth (basis : list fvec) (k : nat) : fvec := nth k basis (fun _ => 0).

(** P x = x - sum over k of (x, z_k)_M z_k *)
Definition proj_spec (n : nat) (M : nat -> nat -> R) (basis : list fvec) (x : fvec) : fvec :=
  fun i => x i - rsum (length basis) (fun k => ipM n M x (bth basis k) * bth basis k i).

Lemma fold_axpy n M x rest : forall y i,
  fold_left (fun y z => fun i => y i + dot n (mulv n M z) x * z i) rest y i =
  y i + rsum (length rest) (fun k => dot n (mulv n M (bth rest k)) x * bth rest k i).
Proof.
  induction rest as [|z rest IH]; intros y i; [cbn; lra|].
  cbn [fold_left]. rewrite IH. cbn [length]. rewrite rsum_first. cbn [bth nth]. unfold bth. lra.
Qed.

Lemma projector_value n M basis x : basis <> [] ->
  exists p, projector n M basis x = Ok p /\ same n p (proj_spec n M basis x).
Proof.
  intros N. destruct basis as [|z rest]; [congruence|]. unfold projector. eexists. split; [reflexivity|].
  intros i _. rewrite fold_axpy. unfold proj_spec. cbn [length]. rewrite rsum_first. cbn [bth nth].
  rewrite dot_sym, dot_mulv.
  rewrite (rsum_ext (length rest) (fun k => dot n (mulv n M (bth rest k)) x * bth rest k i)
             (fun k => ipM n M x (bth (z :: rest) (S k)) * bth (z :: rest) (S k) i)); [reflexivity|].
  intros k _. rewrite dot_sym, dot_mulv. reflexivity.
Qed.

Lemma proj_ipM n M basis x w :
  ipM n M (proj_spec n M basis x) w =
  ipM n M x w - rsum (length basis) (fun k => ipM n M x (bth basis k) * ipM n M (bth basis k) w).
Proof.
  rewrite <- ipM_sum.
  rewrite (ipM_same n M (proj_spec n M basis x)
    (fun i => x i + -1 * rsum (length basis) (fun k => ipM n M x (bth basis k) * bth basis k i)) w w).
  - rewrite ipM_lin. lra.
  - intros i _. unfold proj_spec. lra.
  - intros i _. reflexivity.
Qed.

Lemma proj_orth n M basis x k : orthonormalM n M basis -> (k < length basis)%nat ->
  ipM n M (proj_spec n M basis x) (bth basis k) = 0.
Proof.
  intros H Hk. rewrite proj_ipM, (rsum_single (length basis) k).
  - unfold bth. rewrite H, Nat.eqb_refl by assumption. lra.
  - assumption.
  - intros i Hi N. unfold bth. rewrite H by assumption. destruct (Nat.eqb_spec i k); [contradiction|lra].
Qed.

Lemma proj_kills n M basis k : orthonormalM n M basis -> (k < length basis)%nat ->
  same n (proj_spec n M basis (bth basis k)) (fun _ => 0).
Proof.
  intros H Hk i Hi. unfold proj_spec. rewrite (rsum_single (length basis) k).
  - unfold bth. rewrite H, Nat.eqb_refl by assumption. lra.
  - assumption.
  - intros j Hj N. unfold bth. rewrite H by assumption. destruct (Nat.eqb_spec k j); [lia|lra].
Qed.

Lemma proj_same n M basis x y : same n x y -> same n (proj_spec n M basis x) (proj_spec n M basis y).
Proof.
  intros H i Hi. unfold proj_spec. rewrite (H i Hi). f_equal. apply rsum_ext. intros k _.
  rewrite (ipM_same n M x y (bth basis k) (bth basis k) H); [reflexivity|]. intros ? _; reflexivity.
Qed.

Lemma proj_idem n M basis x : orthonormalM n M basis ->
  same n (proj_spec n M basis (proj_spec n M basis x)) (proj_spec n M basis x).
Proof.
  intros H i Hi. unfold proj_spec at 1. rewrite rsum_zero; [lra|].
  intros k Hk. rewrite proj_orth by assumption. ring.
Qed.

Lemma proj_selfadjoint n M basis x y : symmetricR n M ->
  ipM n M (proj_spec n M basis x) y = ipM n M x (proj_spec n M basis y).
Proof.
  intros HS. rewrite (ipM_sym n M x) by assumption. rewrite !proj_ipM, (ipM_sym n M x y) by assumption. f_equal.
  apply rsum_ext. intros k _. rewrite (ipM_sym n M (bth basis k) y), (ipM_sym n M (bth basis k) x) by assumption. ring.
Qed.

Lemma projector_matrix_acts n M basis x : basis <> [] -> symmetricR n M ->
  exists A, projector_matrix n M basis = Ok A /\ same n (mulv n A x) (proj_spec n M basis x).
Proof.
  intros N HS. destruct basis as [|z rest]; [congruence|]. unfold projector_matrix.
  eexists. split; [reflexivity|]. set (basis := z :: rest) in *. intros i Hi. unfold mulv at 1, proj_spec.
  rewrite (rsum_ext n _ (fun j => (if (i =? j)%nat then x j else 0) -
     rsum (length basis) (fun k => nth k basis (fun _ => 0) i * mulv n M (nth k basis (fun _ => 0)) j) * x j)).
  - rewrite rsum_minus. f_equal.
    + rewrite (rsum_single n i); [rewrite Nat.eqb_refl; reflexivity|assumption|].
      intros j _ Nj. destruct (Nat.eqb_spec i j); [congruence|reflexivity].
    + rewrite (rsum_ext n _ (fun j => rsum (length basis) (fun k => nth k basis (fun _ => 0) i * mulv n M (nth k basis (fun _ => 0)) j * x j))).
      * rewrite rsum_swap. apply rsum_ext. intros k _.
        rewrite (rsum_ext n _ (fun j => bth basis k i * (mulv n M (bth basis k) j * x j))) by (intros; unfold bth; ring).
        rewrite rsum_scal. change (rsum n (fun j => mulv n M (bth basis k) j * x j)) with (dot n (mulv n M (bth basis k)) x).
        rewrite dot_sym, dot_mulv. ring.
      * intros j _. rewrite rsum_scal_r. reflexivity.
  - intros j _. destruct (i =? j)%nat; ring.
Qed.

(** ** orthonormalize *)

Lemma gram_ipM n M basis i j : symmetricR n M -> gram n M basis i j = ipM n M (bth basis i) (bth basis j).
Proof.
  intros H. unfold gram. destruct (j <? i)%nat.
  - rewrite dot_mulv. apply ipM_sym. assumption.
  - apply dot_mulv.
Qed.

Lemma unique_incl l x : In x (unique l) <-> In x l.
Proof.
  induction l as [|y l IH]; [reflexivity|]. cbn [unique]. destruct (in_dec Req_EM_T y l) as [H|H].
  - rewrite IH. split; [right; assumption|]. intros [->|H']; assumption.
  - cbn. rewrite IH. reflexivity.
Qed.

Lemma unique_length l : (length (unique l) <= length l)%nat.
Proof. induction l as [|y l IH]; [cbn; lia|]. cbn [unique]. destruct (in_dec Req_EM_T y l); cbn; lia. Qed.

Lemma unique_nodup l : length (unique l) = length l -> NoDup l.
Proof.
  induction l as [|y l IH]; intros H; [constructor|]. cbn [unique] in H. assert (L := unique_length l).
  destruct (in_dec Req_EM_T y l) as [Hy|Hy]; cbn in H; [lia|]. constructor; [assumption|]. apply IH. lia.
Qed.

(** What np.linalg.eig returns for a symmetric m x m matrix: m eigenpairs with
    eigenvectors of unit length. *)
Definition eig_spec (m : nat) (eig : (nat -> nat -> R) -> list (R * fvec)) : Prop :=
  forall G, symmetricR m G -> length (eig G) = m /\
    forall l a, In (l, a) (eig G) ->
      (forall i, (i < m)%nat -> rsum m (fun j => G i j * a j) = l * a i) /\ rsum m (fun i => a i * a i) = 1.

Lemma orthonormalize_correct n M basis eig zs : symmetricR n M -> eig_spec (length basis) eig ->
  orthonormalize n M basis eig = Ok zs -> orthonormalM n M zs /\ length zs = length basis.
Proof.
  intros HM HE H. unfold orthonormalize in H.
  set (m := length basis) in *. set (G := gram n M basis) in *.
  assert (HG : symmetricR m G).
  { intros i j _ _. unfold G. rewrite !gram_ipM by assumption. apply ipM_sym. assumption. }
  destruct (HE G HG) as [HL HP]. set (ps := eig G) in *.
  destruct (forallb _ (map fst ps)) eqn:EP; cbn [py_assert bind] in H; [|discriminate].
  destruct (Nat.eqb_spec (length (unique (map round10 (map fst ps)))) (length (map fst ps))) as [EU|EU]; cbn [py_assert bind] in H; [|discriminate].
  inversion H; subst zs. clear H.
  assert (ND : NoDup (map fst ps)).
  { assert (N1 : NoDup (map round10 (map fst ps))) by (apply unique_nodup; rewrite map_length; exact EU).
    apply NoDup_map_inv in N1. exact N1. }
  assert (POS : forall l a, In (l, a) ps -> 0 < l).
  { intros l a Hin. rewrite forallb_forall in EP. specialize (EP l (in_map fst _ _ Hin)).
    destruct (Rgt_dec l 0); [assumption|discriminate]. }
  split; [|rewrite map_length; exact HL].
  (* a^T G b for coefficient vectors *)
  assert (Q : forall a b, ipM n M (lincomb a basis) (lincomb b basis) = rsum m (fun i => a i * rsum m (fun j => G i j * b j))).
  { intros a b. unfold lincomb. rewrite (ipM_sum n M (length basis) a (bth basis)). apply rsum_ext. intros i _. f_equal.
    rewrite (ipM_sym n M) by assumption. rewrite (ipM_sum n M (length basis) b (bth basis)). apply rsum_ext. intros j _.
    unfold G. rewrite gram_ipM by assumption.
    rewrite (ipM_sym n M (bth basis j) (bth basis i) HM). ring. }
  intros i j Hi Hj. rewrite map_length in Hi, Hj.
  set (F := fun va : R * fvec => fun k => 1 / sqrt (fst va) * lincomb (snd va) basis k).
  assert (NF : forall k, (k < length ps)%nat -> same n (nth k (map F ps) (fun _ => 0)) (F (nth k ps (0, fun _ => 0)))).
  { intros k Hk. rewrite (nth_indep (map F ps) (fun _ => 0) (F (0, fun _ => 0))) by (rewrite map_length; assumption).
    rewrite map_nth. intros ? _; reflexivity. }
  refine (eq_trans (ipM_same n M _ _ _ _ (NF i Hi) (NF j Hj)) _).
  destruct (nth i ps (0, fun _ => 0)) as [li ai] eqn:Ei. destruct (nth j ps (0, fun _ => 0)) as [lj aj] eqn:Ej.
  assert (Ii : In (li, ai) ps) by (rewrite <- Ei; apply nth_In; assumption).
  assert (Ij : In (lj, aj) ps) by (rewrite <- Ej; apply nth_In; assumption).
  assert (Pi := POS _ _ Ii). assert (Pj := POS _ _ Ij).
  destruct (HP _ _ Ii) as [Gi Ni]. destruct (HP _ _ Ij) as [Gj Nj].
  unfold F. cbn [fst snd].
  assert (SC : ipM n M (fun k => 1 / sqrt li * lincomb ai basis k) (fun k => 1 / sqrt lj * lincomb aj basis k) =
    1 / sqrt li * (1 / sqrt lj) * ipM n M (lincomb ai basis) (lincomb aj basis)).
  { unfold ipM. rewrite <- rsum_scal. apply rsum_ext. intros k _. rewrite <- rsum_scal. apply rsum_ext. intros; ring. }
  rewrite SC, Q.
  assert (V : rsum m (fun i0 => ai i0 * rsum m (fun j0 => G i0 j0 * aj j0)) = lj * rsum m (fun k => ai k * aj k)).
  { rewrite <- rsum_scal. apply rsum_ext. intros k Hk. rewrite Gj by assumption. ring. }
  rewrite V.
  destruct (Nat.eqb_spec i j) as [->|Nij].
  - rewrite Ei in Ej. inversion Ej; subst. rewrite Ni.
    assert (S := sqrt_sqrt lj (Rlt_le _ _ Pj)). assert (S0 : sqrt lj <> 0) by (apply Rgt_not_eq, sqrt_lt_R0; assumption).
    rewrite <- S at 3. field. assumption.
  - assert (LN : li <> lj).
    { intros E. apply Nij.
      apply (proj1 (NoDup_nth (map fst ps) 0) ND i j); [rewrite map_length; assumption|rewrite map_length; assumption|].
      change 0 with (fst ((0, fun _ => 0) : R * fvec)). rewrite !map_nth, Ei, Ej. exact E. }
    assert (O : rsum m (fun k => ai k * aj k) = 0).
    { assert (V' : rsum m (fun i0 => ai i0 * rsum m (fun j0 => G i0 j0 * aj j0)) = li * rsum m (fun k => ai k * aj k)).
      { rewrite (rsum_ext m _ (fun i0 => rsum m (fun j0 => ai i0 * (G i0 j0 * aj j0)))) by (intros; rewrite rsum_scal; reflexivity).
        rewrite rsum_swap. rewrite <- rsum_scal. apply rsum_ext. intros k Hk.
        rewrite (rsum_ext m _ (fun i0 => aj k * (G k i0 * ai i0))) by (intros i0 Hi0; rewrite (HG i0 k Hi0 Hk); ring).
        rewrite rsum_scal, Gi by assumption. ring. }
      rewrite V in V'. apply Rmult_eq_reg_l with (lj - li); [lra|]. lra. }
    rewrite O. ring.
Qed.

(** ** L20 *)

Lemma l20_inner_correct n M basis u v : basis <> [] -> symmetricR n M -> orthonormalM n M basis ->
  exists w, l20_inner n M basis u = Ok w /\
    dot n v w = ipM n M (proj_spec n M basis u) (proj_spec n M basis v).
Proof.
  intros N HS HO. destruct (projector_value n M basis u N) as (p & E & Hp).
  unfold l20_inner. rewrite E. cbn [bind]. eexists. split; [reflexivity|].
  rewrite dot_mulv. rewrite (ipM_same n M v v p (proj_spec n M basis u)) by (try assumption; intros ? _; reflexivity).
  rewrite (ipM_sym n M (proj_spec n M basis u)) by assumption.
  rewrite proj_selfadjoint by assumption. apply ipM_same; [intros ? _; reflexivity|].
  intros i Hi. symmetry. apply proj_idem; assumption.
Qed.

Lemma dot_same n x y y' : same n y y' -> dot n x y = dot n x y'.
Proof. intros H. unfold dot. apply rsum_ext. intros i Hi. rewrite (H i Hi). reflexivity. Qed.

Lemma l20_riesz_value n M iM basis u : (1 < length basis)%nat ->
  (forall v, same n (iM (mulv n M v)) v) ->
  (forall k, (k < length basis)%nat -> ipM n M u (bth basis k) = 0) ->
  exists r, l20_riesz n M iM basis (mulv n M u) = Ok r /\ same n r (mulv n M u).
Proof.
  intros HL HI HO. destruct basis as [|p rest]; [cbn in HL; lia|]. unfold l20_riesz.
  assert (HZ : forall k, (k < length (p :: rest))%nat -> dot n (mulv n M (bth (p :: rest) k)) (iM (mulv n M u)) = 0).
  { intros k Hk. rewrite (dot_same n _ _ u (HI u)), dot_sym, dot_mulv. apply HO. assumption. }
  cbn [length] in *.
  destruct (Z.eqb_spec (1 - Z.of_nat (S (length rest))) 0) as [E|E]; [lia|].
  eexists. split; [reflexivity|]. intros i Hi. rewrite fold_axpy.
  assert (H0 := HZ O (Nat.lt_0_succ _)). cbn [bth nth] in H0. rewrite H0. rewrite rsum_zero; [ring|].
  intros k Hk. assert (H : dot n (mulv n M (bth rest k)) (iM (mulv n M u)) = 0) by (apply (HZ (S k)); lia).
  rewrite H. ring.
Qed.

Lemma l20_riesz_one n M iM z x : l20_riesz n M iM [z] x = Err ZeroDivisionError.
Proof. reflexivity. Qed.
