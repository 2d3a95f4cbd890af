(** Properties C18-C20, C53, C54: nullspace handling. *)
From Verif Require Import RLin BaseProofs NullspaceModel NullspaceProofs.
Open Scope R_scope.

(** ** C18 BlockNullspace.orthogonalize *)

Theorem C18_orthogonal : forall sizes Z v k, orthonormal sizes Z -> (k < length Z)%nat ->
  ip sizes (orthogonalize sizes Z v) (zth Z k) = 0.
Proof. exact orthogonalize_orth. Qed.
Print Assumptions C18_orthogonal.

(** v - orthogonalize(v) lies in the span of the basis. *)
Theorem C18_difference : forall sizes Z v,
  span sizes (fun y => In y Z) (fun b i => v b i + -1 * orthogonalize sizes Z v b i).
Proof. exact orthogonalize_span. Qed.
Print Assumptions C18_difference.

Theorem C18_idempotent : forall sizes Z v, orthonormal sizes Z ->
  agree sizes (orthogonalize sizes Z (orthogonalize sizes Z v)) (orthogonalize sizes Z v).
Proof. exact orthogonalize_idem. Qed.
Print Assumptions C18_idempotent.

Definition e0 : bvec := fun b _ => if (b =? 0)%nat then 1 else 0.
Definition e1 : bvec := fun b _ => if (b =? 1)%nat then 1 else 0.

Example C18_hyps : orthonormal [1; 1]%nat [e0; e1] /\
  orthogonalize [1; 1; 1]%nat [e0; e1] (fun b _ => INR b + 2) 2%nat O = 4.
Proof.
  split.
  - intros [|[|i]] [|[|j]] Hi Hj; cbn in Hi, Hj; try lia; unfold ip, zth, e0, e1; cbn; lra.
  - unfold orthogonalize, angles, e0, e1, bsub, inner; cbn; lra.
Qed.

(** ** C19 BlockNullspace.add_vector *)

(** Whatever is accepted, in any number: the stored vectors are orthonormal,
    one for each vector added, and span the same space. *)
Theorem C19_orthonormal : forall sizes vecs Z, block_nullspace sizes vecs = Ok Z ->
  orthonormal sizes Z /\ length Z = length vecs /\
  (forall z, In z Z -> span sizes (fun y => exists v, In v vecs /\ y = vector_of v) z) /\
  (forall v, In v vecs -> span sizes (fun z => In z Z) (vector_of v)).
Proof. exact block_nullspace_correct. Qed.
Print Assumptions C19_orthonormal.

(** A linearly dependent vector is never accepted. *)
Theorem C19_dependent_rejected : forall sizes Z vec, orthonormal sizes Z -> all_vectors vec ->
  span sizes (fun y => In y Z) (vector_of vec) ->
  add_vector sizes Z vec = Err ZeroDivisionError \/ add_vector sizes Z vec = Err AssertionError.
Proof. exact add_vector_dependent. Qed.
Print Assumptions C19_dependent_rejected.

(** The first vector is accepted exactly when it is not zero. *)
Theorem C19_first : forall sizes vec, all_vectors vec ->
  ((exists Z, add_vector sizes [] vec = Ok Z) <-> ~ agree sizes (vector_of vec) (fun _ _ => 0)).
Proof. exact add_vector_first. Qed.
Print Assumptions C19_first.

(** Constants, numbers and lists among the blocks never work. *)
Theorem C19_constants_raise : forall sizes Z vec, ~ all_vectors vec -> add_vector sizes Z vec = Err NameError.
Proof. intros sizes Z vec H. unfold add_vector. rewrite (substitute_err vec H). reflexivity. Qed.
Print Assumptions C19_constants_raise.

Example C19_hyps : exists Z, block_nullspace [1; 1]%nat
  [[EVector (fun _ => 1); EVector (fun _ => 0)]; [EVector (fun _ => 0); EVector (fun _ => 1)]] = Ok Z.
Proof.
  unfold block_nullspace. cbn [add_vectors].
  set (v0 := as_bvec [fun _ => 1; fun _ => 0]). set (v1 := as_bvec [fun _ => 0; fun _ => 1]).
  assert (N0 : norm [1; 1]%nat v0 = 1) by (unfold norm, inner, v0, as_bvec; cbn; replace (0 + (0 + 1 * 1) + (0 + 0 * 0)) with 1 by lra; apply sqrt_1).
  unfold add_vector at 1. cbn [substitute bind]. fold v0. cbn [angles map combine add_loop bind]. rewrite N0.
  destruct (Req_EM_T 1 0); [lra|]. cbn [bind app].
  unfold add_vector. cbn [substitute bind]. fold v1. cbn [angles map combine add_loop].
  assert (N1 : norm [1; 1]%nat v1 = 1) by (unfold norm, inner, v1, as_bvec; cbn; replace (0 + (0 + 0 * 0) + (0 + 1 * 1)) with 1 by lra; apply sqrt_1).
  assert (A : inner [1; 1]%nat v1 (bscale (1 / 1) v0) = 0) by (unfold inner, bscale, v0, v1, as_bvec; cbn; lra).
  rewrite N1, A. destruct (Req_EM_T 1 0); [lra|].
  destruct (Rgt_dec (Rabs (Rabs (0 / 1) - 1)) (1 / 10 ^ 10)) as [G|G].
  - cbn [bind].
    assert (N2 : norm [1; 1]%nat (bsub v1 0 (bscale (1 / 1) v0)) = 1).
    { unfold norm, inner, bsub, bscale, v0, v1, as_bvec; cbn. match goal with |- sqrt ?x = _ => replace x with 1 by lra end. apply sqrt_1. }
    rewrite N2. destruct (Req_EM_T 1 0); [lra|]. eexists; reflexivity.
  - elim G. replace (0 / 1) with 0 by lra. rewrite Rabs_R0. replace (0 - 1) with (- (1)) by lra. rewrite Rabs_Ropp, Rabs_R1. lra.
Qed.

(** ** C20 Projector *)

(** The operator subtracts the components along the basis. *)
Theorem C20_value : forall n M basis x, basis <> [] ->
  exists p, projector n M basis x = Ok p /\ same n p (proj_spec n M basis x).
Proof. exact projector_value. Qed.
Print Assumptions C20_value.

Theorem C20_projector : forall n M basis, symmetricR n M -> orthonormalM n M basis -> basis <> [] ->
  exists P, (forall x, projector n M basis x = Ok (P x)) /\
    (forall k, (k < length basis)%nat -> same n (P (bth basis k)) (fun _ => 0)) /\
    (forall x, same n (P (P x)) (P x)) /\
    (forall x y, ipM n M (P x) y = ipM n M x (P y)) /\
    (forall x k, (k < length basis)%nat -> ipM n M (P x) (bth basis k) = 0).
Proof.
  intros n M basis HS HO N.
  exists (fun x => match projector n M basis x with Ok p => p | Err _ => x end).
  assert (G : forall x, same n (match projector n M basis x with Ok p => p | Err _ => x end) (proj_spec n M basis x)).
  { intros x. destruct (projector_value n M basis x N) as (p & -> & H). exact H. }
  assert (T : forall x, projector n M basis x = Ok (match projector n M basis x with Ok p => p | Err _ => x end)).
  { intros x. destruct (projector_value n M basis x N) as (p & -> & H). reflexivity. }
  split; [exact T|]. split; [|split; [|split]].
  - intros k Hk i Hi. rewrite (G _ i Hi). apply proj_kills; assumption.
  - intros x i Hi. rewrite (G _ i Hi). rewrite (proj_same n M basis _ _ (G x) i Hi).
    rewrite (G x i Hi). apply proj_idem; assumption.
  - intros x y.
    rewrite (ipM_same n M _ _ y y (G x)) by (intros ? _; reflexivity).
    rewrite (ipM_same n M x x _ _ (fun i _ => eq_refl) (G y)). apply proj_selfadjoint. assumption.
  - intros x k Hk. rewrite (ipM_same n M _ _ (bth basis k) (bth basis k) (G x)) by (intros ? _; reflexivity).
    apply proj_orth; assumption.
Qed.
Print Assumptions C20_projector.

(** The collapsed matrix acts as the operator. *)
Theorem C20_collapse : forall n M basis x, basis <> [] -> symmetricR n M ->
  exists A p, projector_matrix n M basis = Ok A /\ projector n M basis x = Ok p /\ same n (mulv n A x) p.
Proof.
  intros n M basis x N HS. destruct (projector_matrix_acts n M basis x N HS) as (A & EA & HA).
  destruct (projector_value n M basis x N) as (p & Ep & Hp).
  exists A, p. split; [exact EA|]. split; [exact Ep|]. intros i Hi. rewrite (HA i Hi), (Hp i Hi). reflexivity.
Qed.
Print Assumptions C20_collapse.

(** np.round(x, 10) *)
Lemma round10_close x : Rabs (round10 x - x) <= 1 / 2 * (1 / 10 ^ 10).
Proof.
  unfold round10. set (y := x * 10 ^ 10 - 1 / 2). destruct (archimed y) as [H1 H2]. assert (P : 0 < 10 ^ 10) by (apply pow_lt; lra).
  replace (IZR (up y) / 10 ^ 10 - x) with ((IZR (up y) - x * 10 ^ 10) * (1 / 10 ^ 10)) by (field; lra).
  rewrite Rabs_mult, (Rabs_right (1 / 10 ^ 10)) by (apply Rle_ge, Rlt_le, Rdiv_lt_0_compat; lra). apply Rmult_le_compat_r; [apply Rlt_le, Rdiv_lt_0_compat; lra |].
  unfold y in *. apply Rabs_le. lra.
Qed.
Lemma unique_In l x : In x (unique l) <-> In x l.
Proof. induction l as [| a l IH]; [tauto |]. cbn [unique]. destruct (in_dec Req_EM_T a l) as [I | N]; cbn [In]; rewrite IH; [split; [tauto | intros [-> | H]; assumption] | tauto]. Qed.
Lemma unique_NoDup l : NoDup l -> unique l = l.
Proof. induction 1 as [| a l N H IH]; [reflexivity |]. cbn [unique]. destruct (in_dec Req_EM_T a l); [contradiction | rewrite IH; reflexivity]. Qed.
Lemma unique_le l : (length (unique l) <= length l)%nat.
Proof. induction l as [| a l IH]; [apply le_n |]. cbn [unique]. destruct (in_dec Req_EM_T a l); cbn [length]; lia. Qed.
Lemma unique_length_NoDup {A} (g : A -> R) (l : list A) k : length (unique (map g l)) = k -> k = length l -> NoDup (map g l).
Proof.
  intros E L. rewrite <- E in L. clear k E. induction l as [| a l IH]; [constructor |]. cbn [map unique] in *. destruct (in_dec Req_EM_T (g a) (map g l)) as [I | N].
  - pose proof (unique_le (map g l)) as LE. rewrite map_length in LE. cbn [length] in L. lia.
  - cbn [length] in L. constructor; [exact N | apply IH; lia].
Qed.
(** orthonormalize delivers the M-orthonormal family, whenever its checks pass. *)
Theorem C20_orthonormalize : forall n M basis eig zs, symmetricR n M -> eig_spec (length basis) eig ->
  orthonormalize n M basis eig = Ok zs -> orthonormalM n M zs /\ length zs = length basis.
Proof. exact orthonormalize_correct. Qed.
Print Assumptions C20_orthonormalize.

(** Its checks: the eigenvalues are positive and differ in their first ten decimals.  Eigenvalues that are more
    than 10^-10 apart are accepted, equal ones and those that are not positive are not *)
Theorem C20_accepts : forall n M basis eig, (forall G l a, In (l, a) (eig G) -> 0 < l) ->
  (forall G, ForallOrdPairs (fun x y => 1 / 10 ^ 10 < Rabs (x - y)) (map fst (eig G))) -> exists zs, orthonormalize n M basis eig = Ok zs.
Proof.
  intros n M basis eig Hp Hd. unfold orthonormalize. set (ps := eig (gram n M basis)).
  replace (forallb _ (map fst ps)) with true; [| symmetry; apply forallb_forall; intros l Hl; apply in_map_iff in Hl; destruct Hl as [[l' a] [<- Hin]]; cbn [fst]; destruct (Rgt_dec l' 0) as [_ | N]; [reflexivity | exfalso; apply N, Rlt_gt; exact (Hp _ _ _ Hin)]].
  cbn [py_assert bind]. rewrite unique_NoDup; [rewrite !map_length, Nat.eqb_refl; eexists; reflexivity |].
  specialize (Hd (gram n M basis)). fold ps in Hd. induction Hd as [| x l Hx _ IH]; cbn [map]; constructor; [| exact IH].
  intros Hin. apply in_map_iff in Hin. destruct Hin as [y [E Hy]]. rewrite Forall_forall in Hx. specialize (Hx y Hy).
  pose proof (round10_close x) as C1. pose proof (round10_close y) as C2. rewrite E in C2.
  revert Hx. apply Rle_not_lt. revert C1 C2. unfold Rabs. repeat (match goal with |- context [Rcase_abs ?z] => destruct (Rcase_abs z) end); lra.
Qed.
Print Assumptions C20_accepts.
Theorem C20_refuses : forall n M basis eig,
  (exists l a, In (l, a) (eig (gram n M basis)) /\ l <= 0) \/ (exists pre l a mid b post, eig (gram n M basis) = pre ++ (l, a) :: mid ++ (l, b) :: post) ->
  orthonormalize n M basis eig = Err AssertionError.
Proof.
  intros n M basis eig H. unfold orthonormalize. destruct (forallb _ (map fst _)) eqn:F; cbn [py_assert bind]; [| reflexivity]. rewrite forallb_forall in F.
  destruct H as [[l [a [Hin Hl]]] | [pre [l [a [mid [b [post E]]]]]]].
  - specialize (F l (in_map fst _ _ Hin)). destruct (Rgt_dec l 0); [lra | discriminate].
  - rewrite E. replace (Nat.eqb _ _) with false; [reflexivity |]. symmetry. apply Nat.eqb_neq. intros L.
    rewrite map_map, map_length in L. pose proof (unique_length_NoDup (fun x => round10 (fst x)) _ _ L eq_refl) as ND. clear L. rename ND into L. rewrite map_app in L. cbn [map fst] in L. rewrite map_app in L. cbn [map fst] in L.
    apply NoDup_remove_2 in L. apply L. apply in_or_app. right. apply in_or_app. right. left. reflexivity.
Qed.
Print Assumptions C20_refuses.
Example C20_accepts_ex : let eig := fun _ : nat -> nat -> R => [(3, fun i : nat => if (i =? 0)%nat then 1 else 0); (5, fun i : nat => if (i =? 1)%nat then 1 else 0)] in
  (forall G l a, In (l, a) (eig G) -> 0 < l) /\ forall G, ForallOrdPairs (fun x y => 1 / 10 ^ 10 < Rabs (x - y)) (map fst (eig G)).
Proof.
  split; [intros G l a [E | [E | []]]; injection E as <- _; lra |]. intros G. cbn [map fst]. repeat constructor. unfold Rabs. destruct (Rcase_abs (3 - 5)); lra.
Qed.

Definition mat2 (i j : nat) : R := if (i =? j)%nat then 4 else 1.
Example C20_hyps : symmetricR 2 mat2 /\ orthonormalM 2 mat2 [fun i => if (i =? 0)%nat then 1 / 2 else 0] /\
  exists p, projector 2 mat2 [fun i => if (i =? 0)%nat then 1 / 2 else 0] (fun _ => 1) = Ok p /\ p O = - (1 / 4).
Proof.
  split; [intros i j _ _; unfold mat2; rewrite (Nat.eqb_sym i j); reflexivity|]. split.
  - intros [|i] [|j] Hi Hj; cbn in Hi, Hj; try lia. unfold ipM, mat2; cbn; lra.
  - eexists. split; [reflexivity|]. unfold dot, mulv, mat2; cbn; lra.
Qed.

(** ** C53 L20_inner_product *)

Theorem C53_l20_inner : forall n M basis u v, basis <> [] -> symmetricR n M -> orthonormalM n M basis ->
  exists w, l20_inner n M basis u = Ok w /\
    dot n v w = ipM n M (proj_spec n M basis u) (proj_spec n M basis v).
Proof. exact l20_inner_correct. Qed.
Print Assumptions C53_l20_inner.

(** ** C54 L20_riesz_map *)

(** With one nullspace vector it always raises. *)
Theorem C54_one_vector_refuted : forall n M iM z x, l20_riesz n M iM [z] x = Err ZeroDivisionError.
Proof. exact l20_riesz_one. Qed.
Print Assumptions C54_one_vector_refuted.

(** With more vectors it returns its argument M u instead of u. *)
Theorem C54_riesz_partial : forall n M iM basis u, (1 < length basis)%nat ->
  (forall v, same n (iM (mulv n M v)) v) ->
  (forall k, (k < length basis)%nat -> ipM n M u (bth basis k) = 0) ->
  exists r, l20_riesz n M iM basis (mulv n M u) = Ok r /\ same n r (mulv n M u).
Proof. exact l20_riesz_value. Qed.
Print Assumptions C54_riesz_partial.

(** What it adds: a combination of the basis, such that its products with the basis times one minus the number of
    vectors are those of the inverse *)
Theorem C54_correction : forall n M iM basis x, (1 < length basis)%nat -> symmetricR n M -> orthonormalM n M basis ->
  exists r c, l20_riesz n M iM basis x = Ok r /\
    (forall i, r i - x i = rsum (length basis) (fun k => c k * bth basis k i)) /\
    forall k, (k < length basis)%nat -> (1 - INR (length basis)) * ipM n M (fun i => r i - x i) (bth basis k) = ipM n M (iM x) (bth basis k).
Proof.
  intros n M iM basis x HL HS HO. assert (HN : 1 - INR (length basis) <> 0) by (apply lt_INR in HL; cbn [INR] in HL; lra).
  assert (V : exists r, l20_riesz n M iM basis x = Ok r /\
    forall i, r i - x i = rsum (length basis) (fun k => 1 / (1 - INR (length basis)) * ipM n M (iM x) (bth basis k) * bth basis k i)).
  { destruct basis as [|p rest]; [cbn in HL; lia|]. unfold l20_riesz. destruct (Z.eqb_spec (1 - Z.of_nat (length (p :: rest))) 0) as [E|_]; [cbn [length] in *; lia|].
    eexists. split; [reflexivity|]. intros i. rewrite minus_IZR, <- INR_IZR_INZ, fold_axpy. set (a := 1 / (1 - INR (length (p :: rest)))). cbn [length].
    rewrite (rsum_ext (S (length rest)) _ (fun k => a * (ipM n M (iM x) (bth (p :: rest) k) * bth (p :: rest) k i))) by (intros; ring).
    rewrite rsum_scal, rsum_first. rewrite (dot_sym n (mulv n M p)), dot_mulv.
    rewrite (rsum_ext (length rest) (fun k => dot n (mulv n M (bth rest k)) (iM x) * bth rest k i) (fun k => ipM n M (iM x) (bth (p :: rest) (S k)) * bth (p :: rest) (S k) i)); [change (bth (p :: rest) 0) with p; ring|].
    intros k _. rewrite dot_sym, dot_mulv. reflexivity. }
  destruct V as (r & E & V). exists r. eexists. split; [exact E|]. split; [exact V|]. intros k Hk.
  rewrite (ipM_same n M _ (fun i => rsum (length basis) (fun j => 1 / (1 - INR (length basis)) * ipM n M (iM x) (bth basis j) * bth basis j i)) _ (bth basis k)) by (intros i _; first [apply V|reflexivity]).
  rewrite ipM_sum, (rsum_single _ k) by (try assumption; intros j Hj N; unfold bth; rewrite HO by assumption; apply Nat.eqb_neq in N; rewrite N; ring).
  unfold bth at 2 3. rewrite HO, Nat.eqb_refl by assumption. unfold bth. field. exact HN.
Qed.
Print Assumptions C54_correction.

Theorem C54_riesz_refuted : exists n M iM basis u,
  symmetricR n M /\ orthonormalM n M basis /\ (1 < length basis)%nat /\
  (forall v, same n (iM (mulv n M v)) v) /\
  (forall k, (k < length basis)%nat -> ipM n M u (bth basis k) = 0) /\
  exists x r, l20_inner n M basis u = Ok x /\ l20_riesz n M iM basis x = Ok r /\ ~ same n r u.
Proof.
  exists 3%nat, (fun i j => if (i =? j)%nat then 4 else 0), (fun x i => x i / 4),
    [fun i => if (i =? 0)%nat then 1 / 2 else 0; fun i => if (i =? 1)%nat then 1 / 2 else 0],
    (fun i => if (i =? 2)%nat then 1 else 0).
  split; [intros i j _ _; rewrite (Nat.eqb_sym i j); reflexivity|].
  split; [intros [|[|i]] [|[|j]] Hi Hj; cbn in Hi, Hj; try lia; unfold ipM; cbn; lra|].
  split; [cbn; lia|].
  split; [intros v [|[|[|i]]] Hi; try lia; unfold mulv; cbn; lra|].
  split; [intros [|[|k]] Hk; cbn in Hk; try lia; unfold ipM, bth; cbn; lra|].
  do 2 eexists. split; [reflexivity|]. split; [reflexivity|].
  intros H. specialize (H 2%nat (Nat.lt_succ_diag_r 2)). unfold mulv, dot in H. cbn in H. lra.
Qed.
Print Assumptions C54_riesz_refuted.
