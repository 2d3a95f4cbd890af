(** Properties C03 to C09. *)
From Verif Require Import Base Mat MatProofs ConvertModel CollapseProofs CollapseTermProofs CollapseHaltProofs
  GetDimsProofs ConvertProofs ConvertActionProofs.

(** C03: whatever collapse returns has the linear-algebra value of the
    expression (numbers below 1e-14 added to a matrix count as zero). *)
Theorem C03_collapse_value :
  forall fuel e r, wf_chains e -> collapse fuel e = Ok r ->
  exists v v', val_of r = Some v /\ den tiny e = Some v' /\ veq v v'.
Proof. exact collapse_sound. Qed.
Print Assumptions C03_collapse_value.

(** C03: exactly the value when no non-zero number below 1e-14 is added to a
    matrix. *)
Theorem C03_collapse_exact :
  forall fuel e r, wf_chains e -> no_tiny e -> collapse fuel e = Ok r ->
  exists v v', val_of r = Some v /\ den exactly_zero e = Some v' /\ veq v v'.
Proof. exact collapse_exact. Qed.
Print Assumptions C03_collapse_exact.

(** C03: the result maps vectors as the unevaluated expression does. *)
Theorem C03_collapse_acts :
  forall fuel e r x y, wf_chains e -> no_tiny e -> collapse fuel e = Ok r -> acts false e x y ->
  match r with
  | EMat A => y = mv A x /\ length x = nc A
  | ENum a => y = vscale a x
  | _ => False
  end.
Proof. exact collapse_acts. Qed.
Print Assumptions C03_collapse_acts.

(** C03: the tolerance is needed. *)
Definition one1 : mat := mid 1.
Definition qtiny : Qc := Q2Qc (1 # 1000000000000000).
Theorem C03_no_tolerance_refuted :
  exists e r v, wf_chains e /\ collapse 2 e = Ok r /\ den exactly_zero e = Some v /\
    forall u, val_of r = Some u -> ~ veq u v.
Proof.
  exists (EAdd (EMat one1) (ENum qtiny)), (EMat one1). eexists.
  split; [repeat constructor|]. split; [reflexivity|]. split; [reflexivity|].
  intros u E. inversion E; subst. intros (_ & _ & H).
  specialize (H 0 0 (Nat.lt_0_succ 0) (Nat.lt_0_succ 0)). vm_compute in H. discriminate.
Qed.
Print Assumptions C03_no_tolerance_refuted.

(** C04 is false: transposes of composites, and differences with a number,
    recurse for ever although they are well dimensioned. *)
Theorem C04_collapse_terminates_refuted :
  exists e v, built e /\ den exactly_zero e = Some v /\ forall fuel, collapse fuel e = Err OutOfFuel.
Proof.
  exists (ETr (EMul [EMat one1; EMat one1])). eexists.
  split; [repeat constructor|]. split; [reflexivity|].
  intros fuel. apply tr_diverges. intros m E; discriminate.
Qed.
Print Assumptions C04_collapse_terminates_refuted.

Theorem C04_transpose_diverges_refuted :
  forall a, (forall m, a <> EMat m) -> forall fuel, collapse fuel (ETr a) = Err OutOfFuel.
Proof. exact (fun a H fuel => proj1 (tr_diverges a H fuel)). Qed.
Print Assumptions C04_transpose_diverges_refuted.

Theorem C04_minus_number_refuted :
  forall A c fuel, collapse fuel (ESub (EMat A) (ENum c)) = Err OutOfFuel /\
                   collapse fuel (ESub (ENum c) (EMat A)) = Err OutOfFuel.
Proof. exact sub_num_diverges. Qed.
Print Assumptions C04_minus_number_refuted.

Theorem C04_plus_number_refuted :
  forall A c fuel, tiny c = false ->
  collapse fuel (EAdd (EMat A) (ENum c)) = Err OutOfFuel /\
  collapse fuel (EAdd (ENum c) (EMat A)) = Err OutOfFuel.
Proof. exact add_num_diverges. Qed.
Print Assumptions C04_plus_number_refuted.

(** C04, what holds: collapse returns on every well-dimensioned expression of
    the class [collapsible], and on no other expression. *)
Theorem C04_collapse_terminates_partial :
  forall e v, built e -> collapsible e -> den tiny e = Some v ->
  exists N r, forall fuel, N <= fuel -> collapse fuel e = Ok r.
Proof. exact collapse_halts. Qed.
Print Assumptions C04_collapse_terminates_partial.

Theorem C04_collapse_returns_only :
  forall fuel e r, built e -> collapse fuel e = Ok r -> collapsible e.
Proof. exact collapse_only. Qed.
Print Assumptions C04_collapse_returns_only.

(** C05 *)
Theorem C05_convert_offsets :
  forall fuel b rs cs M,
  (forall i j, i < nbrows b -> j < nbcols b -> built (blk b i j)) ->
  (forall i j, i < nbrows b -> j < nbcols b -> exists v, den tiny (blk b i j) = Some v) ->
  0 < nbrows b -> 0 < nbcols b ->
  sized b rs cs -> anchored b -> convert_bmat fuel b = Ok M ->
  nr M = list_sum rs /\ nc M = list_sum cs /\
  forall i j v r c, i < nbrows b -> j < nbcols b -> den tiny (blk b i j) = Some v ->
    r < nth i rs 0 -> c < nth j cs 0 ->
    ent M (off rs i + r) (off cs j + c) = block_entry rs cs i j v r c.
Proof. exact convert_sound. Qed.
Print Assumptions C05_convert_offsets.

Theorem C05_convert_returns :
  forall b rs cs,
  (forall i j, i < nbrows b -> j < nbcols b -> built (blk b i j) /\ collapsible (blk b i j)) ->
  (forall i j, i < nbrows b -> j < nbcols b -> exists v, den tiny (blk b i j) = Some v) ->
  0 < nbrows b -> 0 < nbcols b -> (forall j, j < nbcols b -> 0 < nth j cs 0) ->
  sized b rs cs -> anchored b ->
  exists N, forall fuel, N <= fuel -> exists M, convert_bmat fuel b = Ok M.
Proof. exact convert_returns. Qed.
Print Assumptions C05_convert_returns.

(** C06 is false: a number off the diagonal silently becomes zero. *)
Definition bm_num : bmat := [[EMat one1; ENum q1]; [ENum q0; EMat one1]].
Theorem C06_numeric_blocks_refuted :
  exists M, convert_bmat 1 bm_num = Ok M /\
    den tiny (blk bm_num 0 1) = Some (VNum q1) /\
    vnth (mv M (convert_bvec [[q0]; [q1]])) 0 <> vnth (apply_val (VNum q1) [q1]) 0.
Proof. eexists. split; [reflexivity|]. split; [reflexivity|]. vm_compute. discriminate. Qed.
Print Assumptions C06_numeric_blocks_refuted.

(** C06, what holds, and C07: if non-zero numbers sit only on the diagonal of
    square block rows, the converted matrix times the converted vector is the
    converted block product. *)
Theorem C06_numeric_blocks_partial :
  forall fuel b rs cs M (vs : nat -> nat -> val) xs,
  (forall i j, i < nbrows b -> j < nbcols b -> built (blk b i j)) ->
  (forall i j, i < nbrows b -> j < nbcols b -> den tiny (blk b i j) = Some (vs i j)) ->
  0 < nbrows b -> 0 < nbcols b ->
  sized b rs cs -> anchored b -> numbers_ok b rs cs ->
  convert_bmat fuel b = Ok M ->
  map (@length Qc) xs = cs ->
  mv M (convert_bvec xs) =
  convert_bvec (map (fun i => vtab (nth i rs 0) (block_product (nbcols b) vs xs i)) (seq 0 (nbrows b))).
Proof. exact convert_commutes. Qed.
Print Assumptions C06_numeric_blocks_partial.

(** C07: matrices only. *)
Theorem C07_convert_commutes :
  forall fuel b rs cs M (As : nat -> nat -> mat) xs,
  (forall i j, i < nbrows b -> j < nbcols b -> built (blk b i j)) ->
  (forall i j, i < nbrows b -> j < nbcols b -> den tiny (blk b i j) = Some (VMat (As i j))) ->
  0 < nbrows b -> 0 < nbcols b -> sized b rs cs -> anchored b ->
  convert_bmat fuel b = Ok M -> map (@length Qc) xs = cs ->
  mv M (convert_bvec xs) =
  convert_bvec (map (fun i => vtab (nth i rs 0)
     (fun r => sumn (nbcols b) (fun j => vnth (mv (As i j) (nth j xs [])) r))) (seq 0 (nbrows b))).
Proof.
  exact (fun fuel b rs cs M As xs HB HV Hm Hn HS HA HM Hx =>
    convert_commutes fuel b rs cs M (fun i j => VMat (As i j)) xs HB HV Hm Hn HS HA
      (fun i j a Hi Hj E => match eq_trans (eq_sym (HV i j Hi Hj)) E with end) HM Hx).
Qed.
Print Assumptions C07_convert_commutes.

Theorem C07_convert_vec :
  forall xs cs j c, map (@length Qc) xs = cs -> j < length cs -> c < nth j cs 0 ->
  vnth (convert_bvec xs) (off cs j + c) = vnth (nth j xs []) c.
Proof. exact vnth_concat. Qed.
Print Assumptions C07_convert_vec.

(** C08 is false when a number stands in a chain of three or more factors. *)
Definition m23 : mat := Mat 2 3 (fun i j => qz (Z.of_nat (i + j))).
Definition m34 : mat := Mat 3 4 (fun i j => qz (Z.of_nat (i * j))).
Theorem C08_get_dims_refuted :
  exists e v fuel, built e /\ den exactly_zero e = Some v /\
    exists d, get_dims fuel e = Ok d /\ d <> dims_of v.
Proof.
  exists (EMul [ENum (qz 2); EMat m23; EMat m34]). eexists. exists 4.
  split; [repeat constructor|]. split; [reflexivity|].
  eexists. split; [reflexivity|]. cbn. discriminate.
Qed.
Print Assumptions C08_get_dims_refuted.

Theorem C08_get_dims_partial :
  forall neg fuel e v, scalars_in_pairs e -> built e -> den neg e = Some v -> size e <= fuel ->
  get_dims fuel e = Ok (dims_of v).
Proof. exact get_dims_correct. Qed.
Print Assumptions C08_get_dims_partial.

(** C09 is false: nest drops a non-zero number on the diagonal. *)
Definition bm_diag : bmat := [[ENum q1; EMat one1]; [EMat one1; EMat one1]].
Theorem C09_nest_refuted :
  exists ns bs, nest 1 (Q2Qc (1 # 1000000000000000)) bm_diag = Ok ns /\ convert_blocks 1 bm_diag = Ok bs /\
    nest_entry (nth 0 (nth 0 ns []) None) 0 0 <> ent (mnth bs 0 0) 0 0.
Proof. eexists. eexists. split; [vm_compute; reflexivity|]. split; [reflexivity|]. vm_compute. discriminate. Qed.
Print Assumptions C09_nest_refuted.

(** C09, what holds: operator blocks agree up to dropped off-diagonal blocks
    whose entries are below the tolerance; numeric blocks agree except for
    non-zero numbers on the diagonal of a square block row. *)
Theorem C09_nest_partial :
  forall fuel tol b rs cs ns bs,
  (forall i j, i < nbrows b -> j < nbcols b -> built (blk b i j)) ->
  (forall i j, i < nbrows b -> j < nbcols b -> exists v, den tiny (blk b i j) = Some v) ->
  sized b rs cs -> anchored b ->
  nest fuel tol b = Ok ns -> convert_blocks fuel b = Ok bs ->
  forall i j v, i < nbrows b -> j < nbcols b -> den tiny (blk b i j) = Some v ->
  match v with
  | VMat _ =>
    (forall r c, r < nth i rs 0 -> c < nth j cs 0 ->
       nest_entry (nth j (nth i ns []) None) r c = ent (mnth bs i j) r c)
    \/ (i <> j /\ nth j (nth i ns []) None = None /\
        forall r c, r < nth i rs 0 -> c < nth j cs 0 ->
          (ent (mnth bs i j) r c * ent (mnth bs i j) r c < tol * tol)%Qc)
  | VNum a =>
    nth j (nth i ns []) None = None /\
    (forall r c, r < nth i rs 0 -> c < nth j cs 0 ->
       ent (mnth bs i j) r c =
       if (i =? j) && (nth i rs 0 =? nth j cs 0) && (r =? c) then a else q0)
  end.
Proof. exact nest_vs_convert. Qed.
Print Assumptions C09_nest_partial.

(** Which matrices are dropped: those off the diagonal whose Frobenius norm is below the tolerance, and no others *)
Theorem C09_nest_dropped : forall fuel tol b ns i j e m,
  nest fuel tol b = Ok ns -> i < nbrows b -> j < nbcols b -> blk b i j = e -> (forall a, e <> ENum a) -> collapse fuel e = Ok (EMat m) ->
  let norm2 := sumn (nr m) (fun r => sumn (nc m) (fun c => (ent m r c * ent m r c)%Qc)) in
  (i <> j /\ (q0 < tol)%Qc /\ (norm2 < tol * tol)%Qc -> nth j (nth i ns []) None = None) /\
  (i = j \/ ~ (q0 < tol)%Qc \/ ~ (norm2 < tol * tol)%Qc -> nth j (nth i ns []) None = Some m).
Proof.
  intros fuel tol b ns i j e m E Hi Hj Hb Hn Hc. cbv zeta. unfold nest in E.
  assert (V : nth j (nth i ns []) None = if negb (i =? j) && norm_lt m tol then None else Some m).
  { destruct (mapM_seq_ok _ _ _ [] E) as [_ K1]. specialize (K1 i Hi). destruct (mapM_seq_ok _ _ _ None K1) as [_ K2]. specialize (K2 j Hj).
    rewrite Hb in K2. unfold nest_block in K2. rewrite Hc in K2. destruct e; try (exfalso; eapply Hn; reflexivity); cbn [bind] in K2; injection K2 as <-; reflexivity. }
  rewrite V. fold (frob2 m). unfold norm_lt. split.
  - intros (N & P & L). apply Nat.eqb_neq in N. rewrite N. apply qltb_lt in P. apply qltb_lt in L. rewrite P, L. reflexivity.
  - intros [-> | H]; [rewrite Nat.eqb_refl; reflexivity|]. destruct (negb (i =? j)); [|reflexivity]. cbn [andb].
    destruct (qltb q0 tol) eqn:P; cbn [andb]; [|reflexivity]. destruct (qltb (frob2 m) (tol * tol)%Qc) eqn:L; [|reflexivity].
    apply qltb_lt in P. apply qltb_lt in L. exfalso. tauto.
Qed.
Print Assumptions C09_nest_dropped.

(** Non-vacuity. *)
Definition ex_e : expr :=
  EAdd (EMul [ENum (qz 2); EMat m23; EMat m34; ENum (qz 3)])
       (ESub (EMul [EMat m23; EMat m34]) (ETr (EMat (mtr (mmul m23 m34))))).

Example C03_hyps : built ex_e /\ wf_chains ex_e /\ no_tiny ex_e /\ collapsible ex_e
  /\ (exists r, collapse 12 ex_e = Ok r) /\ (exists v, den tiny ex_e = Some v).
Proof.
  split; [|split; [|split; [|split; [|split]]]].
  - repeat constructor.
  - repeat constructor.
  - constructor; [repeat constructor|repeat constructor|].
    intros c [H|H]; (apply has_op_mat in H; [destruct H; discriminate|repeat constructor|reflexivity]).
  - constructor; [repeat constructor| |].
    + constructor; [repeat constructor|repeat constructor|]. intros c; split; discriminate.
    + intros c [H|H]; discriminate.
  - eexists. reflexivity.
  - eexists. reflexivity.
Qed.

Example C03_runs : exists A, collapse 12 ex_e = Ok (EMat A) /\
  to_rows A = map (map qz) [[0; 30; 60; 90]; [0; 48; 96; 144]]%Z.
Proof. eexists. split; [reflexivity|]. vm_compute. reflexivity. Qed.

Example C03_acts_hyp : acts false (EMul [ENum (qz 2); EMat m23]) (map qz [1; 1; 1]%Z)
   (vscale (qz 2) (mv m23 (map qz [1; 1; 1]%Z))).
Proof.
  constructor; [|discriminate]. cbn [rev app].
  econstructor; [constructor; reflexivity|]. econstructor; [constructor|constructor].
Qed.

Definition ex_b : bmat := [[EMat (mid 2); EMul [ENum (qz 2); EMat m23]]; [ENum q0; EMat (mid 3)]].
Example C05_hyps :
  (forall i j, i < nbrows ex_b -> j < nbcols ex_b -> built (blk ex_b i j) /\ collapsible (blk ex_b i j)) /\
  (forall i j, i < nbrows ex_b -> j < nbcols ex_b -> exists v, den tiny (blk ex_b i j) = Some v) /\
  sized ex_b [2; 3] [2; 3] /\ anchored ex_b /\ numbers_ok ex_b [2; 3] [2; 3].
Proof.
  assert (D : forall n, n < 2 -> n = 0 \/ n = 1) by (intros; lia).
  split; [|split; [|split; [|split]]].
  - intros i j Hi Hj. destruct (D i Hi) as [->| ->], (D j Hj) as [->| ->]; split; repeat constructor.
  - intros i j Hi Hj. destruct (D i Hi) as [->| ->], (D j Hj) as [->| ->]; eexists; reflexivity.
  - split; [reflexivity|]. split; [reflexivity|].
    intros i j A Hi Hj. destruct (D i Hi) as [->| ->], (D j Hj) as [->| ->]; intros E; inversion E; split; reflexivity.
  - split; intros i Hi; destruct (D i Hi) as [->| ->].
    1, 3: exists 0. 3, 4: exists 1. all: split; [cbn; lia|reflexivity].
  - intros i j a Hi Hj E.
    destruct (D i Hi) as [->| ->], (D j Hj) as [->| ->]; inversion E; auto.
Qed.
Example C05_runs : exists M, convert_bmat 5 ex_b = Ok M /\
  to_rows M = map (map qz) [[1;0;0;2;4]; [0;1;2;4;6]; [0;0;1;0;0]; [0;0;0;1;0]; [0;0;0;0;1]]%Z.
Proof. eexists. split; [reflexivity|]. vm_compute. reflexivity. Qed.
Example C09_runs : exists ns, nest 5 q0 ex_b = Ok ns.
Proof. eexists. vm_compute. reflexivity. Qed.
Example C08_hyps : scalars_in_pairs (EAdd (EMul [EMat m23; EMat m34; ETr (EMat m34)]) (EMul [ENum (qz 2); EMat m23])).
Proof.
  constructor; constructor.
  - repeat constructor.
  - repeat (constructor; [intros l'; discriminate|]). constructor.
  - intros _. repeat (constructor; [intros l'; discriminate|]). constructor.
  - repeat constructor.
  - repeat (constructor; [intros l'; discriminate|]). constructor.
  - intros H. exfalso. apply H. reflexivity.
Qed.
