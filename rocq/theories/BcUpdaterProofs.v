(** Reassembling the returned blocks (C14) and the rhs updater (C13). *)
From Verif Require Import Base BaseProofs Mat MatProofs ConvertModel CollapseProofs CollapseTermProofs CollapseHaltProofs
  ConvertProofs ConvertActionProofs BcModel BcProofs BcApplyProofs.

Lemma first_some_map_seq {X} (f : nat -> option X) n : 0 < n -> (forall i, i < n -> exists x, f i = Some x) ->
  exists x, first_some (map f (seq 0 n)) = Some x.
Proof.
  intros Hn H. destruct n as [|n]; [lia|]. cbn [seq map first_some].
  destruct (H 0 Hn) as [x ->]. eauto.
Qed.

Lemma mapM_seq_total {B} (f : nat -> res B) n : (forall i, i < n -> exists y, f i = Ok y) ->
  exists out, mapM f (seq 0 n) = Ok out.
Proof.
  intros H. destruct (mapM f (seq 0 n)) as [out|e] eqn:E; [eauto|].
  apply mapM_err_in in E. destruct E as (x & Hx & E). apply in_seq in Hx.
  destruct (H x) as [y Hy]; [lia|]. congruence.
Qed.

Lemma convert_splits sizes M A' fuel :
  0 < length sizes -> nr M = list_sum sizes -> nc M = list_sum sizes -> splits_mat sizes M A' ->
  exists M', convert_bmat (S fuel) A' = Ok M' /\ meq M' M.
Proof.
  intros Hpos Hr Hc (N1 & N2 & HM). set (n := length sizes) in *.
  assert (Ncols : nbcols A' = n).
  { unfold nbcols. unfold nbrows in N1. destruct A' as [|row rest]; [cbn in N1; lia|]. apply (N2 0 Hpos). }
  assert (HS : exists rc, bmat_sizes A' = Ok rc).
  { unfold bmat_sizes. rewrite N1, Ncols.
    match goal with |- exists rc, bind (mapM ?f _) _ = _ => destruct (mapM_seq_total f n) as [rs ->] end.
    { intros i Hi. match goal with |- exists y, opt_res _ (first_some (map ?f _)) = _ =>
        destruct (first_some_map_seq f n Hpos) as [x ->] end; [|eexists; reflexivity].
      intros j Hj. destruct (HM i j Hi Hj) as (m & -> & _). eexists; reflexivity. }
    cbn [bind].
    match goal with |- exists rc, bind (mapM ?f _) _ = _ => destruct (mapM_seq_total f n) as [cs ->] end.
    { intros j Hj. match goal with |- exists y, opt_res _ (first_some (map ?f _)) = _ =>
        destruct (first_some_map_seq f n Hpos) as [x ->] end; [|eexists; reflexivity].
      intros i Hi. destruct (HM i j Hi Hj) as (m & -> & _). eexists; reflexivity. }
    eexists; reflexivity. }
  destruct HS as [[rs cs] HS]. unfold convert_bmat, convert_blocks. rewrite HS. cbn [bind]. rewrite N1, Ncols.
  rewrite (mapM_seq _ n (fun i => map (fun j => emat (blk A' i j)) (seq 0 n))).
  2: { intros i Hi. apply mapM_seq. intros j Hj. destruct (HM i j Hi Hj) as (m & -> & _). reflexivity. }
  cbn [bind]. set (bs := map _ (seq 0 n)).
  assert (MN : forall i j, i < n -> j < n -> mnth bs i j = emat (blk A' i j)).
  { intros i j Hi Hj. unfold mnth, bs. rewrite nth_map_seq by assumption. rewrite nth_map_seq by assumption. reflexivity. }
  assert (RS : map (fun i => nr (mnth bs i 0)) (seq 0 n) = sizes).
  { rewrite (list_tab sizes 0). fold n. apply map_ext_in. intros i Hi. apply in_seq in Hi.
    rewrite MN by lia. destruct (HM i 0) as (m & -> & E & _); try lia. exact E. }
  assert (CS : map (fun j => nc (mnth bs 0 j)) (seq 0 n) = sizes).
  { rewrite (list_tab sizes 0). fold n. apply map_ext_in. intros i Hi. apply in_seq in Hi.
    rewrite MN by lia. destruct (HM 0 i) as (m & -> & _ & E & _); try lia. exact E. }
  unfold numpy_block_mat. rewrite RS, CS.
  replace (forallb _ (seq 0 n)) with true.
  2: { symmetry. apply forallb_forall. intros i Hi. apply forallb_forall. intros j Hj. apply in_seq in Hi, Hj.
       rewrite MN by lia. destruct (HM i j) as (m & -> & E1 & E2 & _); try lia. cbn [emat].
       rewrite E1, E2, !Nat.eqb_refl. reflexivity. }
  eexists. split; [reflexivity|]. split; [cbn [nr]; lia|]. split; [cbn [nc]; lia|]. cbn [nr nc ent].
  intros I J HI HJ. destruct (locate_inv _ _ HI) as (i & r & Hi & Hr' & ->).
  destruct (locate_inv _ _ HJ) as (j & c & Hj & Hc' & ->).
  rewrite !locate_off by assumption. rewrite MN by assumption.
  destruct (HM i j Hi Hj) as (m & -> & _ & _ & Em). cbn [emat]. apply Em; assumption.
Qed.

Lemma splits_vec_concat sizes x b' : length x = list_sum sizes -> splits_vec sizes x b' -> concat b' = x.
Proof.
  intros Hx (L & H). apply vec_ext.
  - rewrite length_concat, L. congruence.
  - intros k Hk. rewrite length_concat, L in Hk. destruct (locate_inv _ _ Hk) as (i & r & Hi & Hr & ->).
    rewrite (vnth_concat b' sizes) by assumption. apply H; assumption.
Qed.

(** C14 *)
Lemma apply_bc_reassembles fuel A b arg diag sym ret out fuel' :
  apply_bc fuel A b arg diag sym ret = Ok out -> b <> VNone ->
  let sizes := map (@length Qc) (vec_blocks b) in
  let pairs := prescribed (is_plain A) sizes arg in
  pairs <> [] ->
  exists AA A' b' M',
    convert_bmat fuel (mat_blocks A) = Ok AA /\
    eliminated sym diag AA (concat (vec_blocks b)) pairs A' b' /\
    map (@length Qc) (vec_blocks (out_b out)) = sizes /\
    convert_bvec (vec_blocks (out_b out)) = b' /\
    convert_bmat (S fuel') (mat_blocks (out_A out)) = Ok M' /\ meq M' A' /\
    (forall i j, i < length sizes -> j < length sizes ->
       nr (emat (blk (mat_blocks (out_A out)) i j)) = nth i sizes 0 /\
       nc (emat (blk (mat_blocks (out_A out)) i j)) = nth j sizes 0).
Proof.
  intros H Hb sizes pairs HP.
  destruct (apply_bc_inv _ _ _ _ _ _ _ _ H Hb HP) as (AA & A' & b' & EC & Nr & Nc & NB & HB & HE & HM & HV & _).
  fold sizes in Nr, Nc, NB, HB, HE, HM, HV. pose proof HE as (E1 & E2 & E3 & _).
  assert (Hpos : 0 < length sizes).
  { destruct sizes as [|s sizes'] eqn:E; [|cbn; lia]. elim HP. reflexivity. }
  destruct (convert_splits sizes A' _ fuel' Hpos ltac:(lia) ltac:(lia) HM) as (M' & C & Q).
  exists AA, A', b', M'. split; [exact EC|]. split; [exact HE|]. split; [apply HV|].
  split; [|split; [exact C|split; [exact Q|]]].
  - apply (splits_vec_concat sizes); [|exact HV]. rewrite E3. apply length_concat.
  - intros i j Hi Hj. destruct HM as (_ & _ & HM). destruct (HM i j Hi Hj) as (m & -> & R1 & R2 & _). auto.
Qed.

(** as_block with arbitrary index lists picks exactly the listed entries. *)
Lemma as_block_general blocks x M b' A' :
  as_block_vec blocks x = Ok b' -> as_block_mat blocks M = Ok A' ->
  length b' = length blocks /\
  forall i j r c, i < length blocks -> j < length blocks ->
    r < length (nth i blocks []) -> c < length (nth j blocks []) ->
    vnth (nth i b' []) r = vnth x (nth r (nth i blocks []) 0) /\
    ent (emat (blk A' i j)) r c = ent M (nth r (nth i blocks []) 0) (nth c (nth j blocks []) 0).
Proof.
  unfold as_block_vec, as_block_mat. destruct (_ =? 0); [discriminate|].
  destruct (forallb _ blocks); [|discriminate]. intros E1. inversion E1; subst. clear E1.
  destruct (forallb _ blocks); [|discriminate]. intros E2. inversion E2; subst. clear E2.
  split; [apply map_length|]. intros i j r c Hi Hj Hr Hc. split.
  - change (@nil Qc) with (take x []). rewrite map_nth. unfold take, vnth at 1.
    rewrite (nth_indep _ q0 (vnth x 0)) by (rewrite map_length; assumption). rewrite map_nth. reflexivity.
  - rewrite (blk_map (fun ri ci => EMat (submat M ri ci)) blocks i j []) by assumption. reflexivity.
Qed.

(** ** The updater *)

(** Only DirichletBC objects, one list per block. *)
Definition dirichlet_list (b : pybc) : Prop :=
  match b with PList l => Forall (fun c => exists d, c = PDirichlet d) l | PDirichlet _ => True | PDict _ => False end.
Definition dirichlet_only (arg : bcs_arg) : Prop :=
  match arg with
  | BVal (PList l) => Forall dirichlet_list l
  | BKeys l => Forall (fun kv => dirichlet_list (snd kv)) l
  | _ => False
  end.

(** The conditions as the updater sees them: the processed argument. *)
Definition current (nA : nat) (arg : bcs_arg) (l : list pybc) : Prop :=
  exists l0, per_block nA false arg = Ok l0 /\ l = map as_list l0.

Lemma values_now_dirichlet l :
  Forall dirichlet_list l ->
  values_now (map as_list l) = Ok (concat (map (fun b => map snd (concat (block_conds b))) l)).
Proof.
  intros H. unfold values_now.
  assert (E : mapM (fun b => match b with
     | PList l => Ok (concat (map (fun c => match c with PDirichlet d => map snd d | _ => [] end) l))
     | PDict _ => Ok []
     | PDirichlet _ => Err TypeError
     end) (map as_list l) = Ok (map (fun b => map snd (concat (block_conds b))) l)).
  { induction H as [|b l Hb Hl IH]; [reflexivity|]. cbn [map]. rewrite mapM_cons.
    destruct b as [d|d|x]; cbn [as_list] in *; [| destruct Hb |]; cbn [bind].
    - rewrite IH. cbn [bind block_conds map concat app]. rewrite !app_nil_r. reflexivity.
    - rewrite IH. cbn [bind block_conds]. do 2 f_equal. clear - Hb.
      cbn in Hb. induction Hb as [|c x (d & ->) Hx IHx]; [reflexivity|].
      cbn [map concat flat_map cond_items app]. rewrite map_app. rewrite IHx. reflexivity. }
  rewrite E. reflexivity.
Qed.

Lemma dict_get_dirichlet l i : Forall (fun kv => dirichlet_list (snd kv)) l -> dirichlet_list (dict_get l i).
Proof.
  induction 1 as [|[k v] l H Hl IH]; [constructor|]. cbn [dict_get]. destruct (Z.eqb k i); [exact H|exact IH].
Qed.

Lemma per_block_dirichlet nA arg l : dirichlet_only arg -> per_block nA false arg = Ok l -> Forall dirichlet_list l.
Proof.
  destruct arg as [|[d|d|x]|ks]; cbn [dirichlet_only per_block]; try contradiction.
  - intros H E. inversion E; subst. assumption.
  - intros H E. destruct (forallb _ ks); cbn [py_assert bind] in E; [|discriminate].
    destruct (forallb _ ks); cbn [py_assert bind] in E; [|discriminate]. inversion E; subst.
    apply Forall_forall. intros b Hb. apply in_map_iff in Hb. destruct Hb as (i & <- & _).
    apply dict_get_dirichlet. assumption.
Qed.

Lemma values_prescribed nA arg l sizes :
  dirichlet_only arg -> per_block nA false arg = Ok l -> length l = length sizes ->
  values_now (map as_list l) = Ok (map snd (prescribed false sizes arg)).
Proof.
  intros HD HP L. rewrite values_now_dirichlet by (eapply per_block_dirichlet; eassumption). f_equal.
  rewrite <- (prescribed_eq nA false arg l sizes HP L) by discriminate.
  rewrite concat_map, map_map, (list_tab l (PList [])) at 1. rewrite map_map, L. f_equal.
  apply map_ext. intros i. rewrite map_map. cbn [snd].
  change (PList []) with (as_list (PList [])) at 2. rewrite map_nth, block_conds_as_list. reflexivity.
Qed.

(** The updated right-hand side is the symmetric elimination with unit
    diagonal. *)
Lemma updater_vector AA (pairs : items) bb x :
  nr AA = length bb -> nc AA = length bb ->
  set_values (vtab (length bb) (fun _ => q0)) (map fst pairs) (map snd pairs) = Ok x ->
  set_values (vsub bb (mv AA x)) (map fst pairs) (map snd pairs) =
  Ok (snd (zero_rows_columns AA (map fst pairs) q1 x bb)).
Proof.
  intros Hr Hc Hx. destruct (set_values_ok _ _ _ Hx) as (Lx & B & V & Z). rewrite vtab_length in *.
  destruct (set_values_total (vsub bb (mv AA x)) pairs) as [y Hy].
  { intros k Hk. unfold vsub. rewrite vtab_length. apply B. assumption. }
  rewrite Hy. f_equal. destruct (set_values_ok _ _ _ Hy) as (Ly & _ & Vy & Zy).
  unfold vsub in Ly, Zy. rewrite vtab_length in Ly, Zy. cbn [snd zero_rows_columns].
  apply vec_ext; [rewrite vtab_length; exact Ly|]. intros i Hi. rewrite Ly in Hi. rewrite vnth_vtab by assumption.
  destruct (mem i (map fst pairs)) eqn:M.
  - apply mem_spec in M. destruct (assigned_exists _ _ M) as (v & Hv). rewrite (Vy _ _ Hv), (V _ _ Hv). unfold q1; ring.
  - apply mem_false in M. rewrite Zy by assumption. rewrite vnth_vtab by assumption.
    f_equal. rewrite vnth_mv by lia. apply sumn_ext. intros j Hj.
    destruct (mem j (map fst pairs)) eqn:Mj; [reflexivity|].
    apply mem_false in Mj. rewrite (Z j) by (auto; lia). rewrite vnth_vtab by lia. unfold q0; ring.
Qed.

(** What a call without a result triple computes, as an equation. *)
Lemma apply_bc_block_eq fuel B bl arg diag ret out :
  apply_bc fuel (ABlock B) (VBlock bl) arg diag true ret = Ok out ->
  let sizes := map (@length Qc) bl in
  let pairs := prescribed false sizes arg in
  pairs <> [] ->
  exists l AA x A' b',
    per_block (nbrows B) false arg = Ok l /\ length l = length sizes /\
    convert_bmat fuel B = Ok AA /\ nr AA = list_sum sizes /\ nc AA = list_sum sizes /\
    set_values (vtab (length (concat bl)) (fun _ => q0)) (map fst pairs) (map snd pairs) = Ok x /\
    as_block_vec (strides sizes) (snd (zero_rows_columns AA (map fst pairs) diag x (concat bl))) = Ok b' /\
    out_b out = VBlock b' /\
    out = (if ret then RTriple (ABlock A') (VBlock b') (fun now => apply_b AA (map fst pairs) now (strides sizes))
           else RPair (ABlock A') (VBlock b')).
Proof.
  intros H sizes pairs HP. unfold apply_bc in H.
  destruct (nothing_to_do arg) eqn:N; [elim HP; apply nothing_prescribed; assumption|].
  cbn [bind] in H.
  destruct (per_block (nbrows B) false arg) as [l|] eqn:EP; cbn [bind] in H; [|discriminate].
  destruct ((nbrows B =? length bl) && (length bl =? length l)) eqn:EL; cbn [py_assert bind] in H; [|discriminate].
  apply andb_true_iff in EL. destruct EL as [EL1 EL2]. apply Nat.eqb_eq in EL1, EL2.
  assert (Ls : length sizes = length bl) by (unfold sizes; apply map_length).
  pose proof (prescribed_eq _ _ _ _ sizes EP ltac:(lia) ltac:(discriminate)) as EPR.
  destruct (existsb truthy (map as_list l)) eqn:ET; cbn [negb] in H.
  2: { exfalso. apply HP. unfold pairs. rewrite <- EPR. apply concat_nil_map. intros i _.
       change (PList []) with (as_list (PList [])). rewrite map_nth, block_conds_as_list.
       rewrite existsb_as_list in ET. rewrite falsy_conds by (apply existsb_nth_false; assumption). reflexivity. }
  destruct (convert_bmat fuel B) as [AA|] eqn:EC; cbn [bind] in H; [|discriminate].
  fold sizes in H.
  destruct ((nr AA =? nc AA) && (nc AA =? last (offsets sizes) 0)) eqn:ES; cbn [py_assert bind] in H; [|discriminate].
  apply andb_true_iff in ES. destruct ES as [ES1 ES2]. apply Nat.eqb_eq in ES1, ES2. rewrite offsets_last in ES2.
  destruct (global_pairs (offsets sizes) (map as_list l)) as [pairs0|] eqn:EG; cbn [bind] in H; [|discriminate].
  apply global_pairs_ok in EG; [|rewrite map_length; lia]. rewrite EPR in EG. fold pairs in EG. subst pairs0.
  destruct (length (map fst pairs) =? 0); cbn [bind] in H; [discriminate|].
  destruct (set_values _ (map fst pairs) (map snd pairs)) as [x|] eqn:EX; cbn [bind] in H; [|discriminate].
  destruct (zero_rows_columns AA (map fst pairs) diag x (convert_bvec bl)) as [AA' bb'] eqn:EZ.
  destruct (as_block_vec (strides sizes) bb') as [b'|] eqn:EV; cbn [bind] in H; [|discriminate].
  destruct (as_block_mat (strides sizes) AA') as [A'|] eqn:EM; cbn [bind] in H; [|discriminate].
  exists l, AA, x, A', b'. split; [reflexivity|]. split; [lia|]. split; [reflexivity|]. split; [lia|]. split; [exact ES2|].
  split; [first [exact EX | reflexivity]|]. change (concat bl) with (convert_bvec bl). rewrite EZ. cbn [snd]. split; [exact EV|].
  destruct ret; inversion H; subst; auto.
Qed.

(** C13: the updater does what apply_bc with diag_val = 1 does, for every
    right-hand side and for new boundary values. *)
Lemma updater_correct fuel B bl bl' arg arg' diag A1 b1 f ret out now :
  apply_bc fuel (ABlock B) (VBlock bl) arg diag true true = Ok (RTriple A1 b1 f) ->
  let sizes := map (@length Qc) bl in
  prescribed false sizes arg <> [] ->
  dirichlet_only arg' ->
  map fst (prescribed false sizes arg') = map fst (prescribed false sizes arg) ->
  map (@length Qc) bl' = sizes ->
  apply_bc fuel (ABlock B) (VBlock bl') arg' q1 true ret = Ok out ->
  current (nbrows B) arg' now ->
  f now bl' = Ok (vec_blocks (out_b out)).
Proof.
  intros H1 sizes HP HD HF HL H2 (l0 & HC & ->).
  assert (HP' : prescribed false sizes arg' <> []).
  { intros C. rewrite C in HF. apply HP. destruct (prescribed false sizes arg); [reflexivity|discriminate]. }
  destruct (apply_bc_block_eq _ _ _ _ _ _ _ H1 HP) as (l & AA & x & A' & b' & P1 & L1 & C1 & R1 & K1 & X1 & V1 & _ & O1).
  fold sizes in O1, V1, X1, R1, K1, L1. inversion O1; subst. clear O1.
  rewrite <- HL in HP'. destruct (apply_bc_block_eq _ _ _ _ _ _ _ H2 HP') as (l2 & AA2 & x2 & A2 & b2 & P2 & L2 & C2 & R2 & K2 & X2 & V2 & OB & _).
  assert (AA2 = AA) by congruence. subst AA2. assert (l2 = l0) by congruence. subst l2. rewrite OB. cbn [vec_blocks].
  set (pairs := prescribed false sizes arg) in *. rewrite HL in *. set (pairs' := prescribed false sizes arg') in *.
  unfold apply_b. rewrite (values_prescribed _ _ _ sizes HD HC) by exact L2. cbn [bind].
  fold pairs'. rewrite <- HF.
  assert (Lb : length (concat bl') = list_sum sizes) by (rewrite length_concat, HL; reflexivity).
  rewrite K1, <- Lb, X2. cbn [bind]. change (convert_bvec bl') with (concat bl').
  rewrite mv_length, R1, <- Lb, Nat.eqb_refl. cbn [bind].
  rewrite (updater_vector AA pairs' (concat bl') x2) by (first [exact X2 | lia]).
  cbn [bind]. exact V2.
Qed.
