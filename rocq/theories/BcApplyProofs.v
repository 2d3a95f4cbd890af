(** apply_bc as a whole: inversion, solutions, reassembly, the rhs updater. *)
From Verif Require Import Base BaseProofs Mat MatProofs ConvertModel CollapseProofs CollapseTermProofs CollapseHaltProofs
  ConvertProofs ConvertActionProofs BcModel BcProofs.

Lemma cond_mapM l ds :
  mapM (fun c => match c with PDirichlet d | PDict d => Ok d | PList _ => Err AttributeError end) l = Ok ds ->
  ds = flat_map cond_items l.
Proof.
  revert ds. induction l as [|c l IH]; intros ds H.
  - inversion H. reflexivity.
  - rewrite mapM_cons in H.
    destruct c as [d|d|x]; cbn [bind] in H; [| |discriminate];
      (destruct (mapM _ l) as [ds'|]; cbn [bind] in H; [|discriminate]; inversion H; subst;
       cbn [flat_map cond_items app]; f_equal; apply IH; reflexivity).
Qed.

Lemma block_items_conds b ds : block_items b = Ok ds -> concat ds = concat (block_conds b).
Proof.
  destruct b as [d|[|p d]|l]; cbn [block_items block_conds]; intros H.
  - inversion H. reflexivity.
  - inversion H. reflexivity.
  - discriminate.
  - apply cond_mapM in H. subst. reflexivity.
Qed.

Lemma block_conds_as_list b : block_conds (as_list b) = block_conds b.
Proof. destruct b; reflexivity. Qed.

Lemma global_pairs_ok sizes bcs pairs :
  length bcs = length sizes -> global_pairs (offsets sizes) bcs = Ok pairs ->
  pairs = concat (map (fun i => map (fun dv => (off sizes i + fst dv, snd dv))
                                    (concat (block_conds (nth i bcs (PList []))))) (seq 0 (length sizes))).
Proof.
  intros L. unfold global_pairs. rewrite (combine_offsets sizes bcs (PList [])) by assumption.
  destruct (mapM _ _) as [l|] eqn:E; cbn [bind]; [|discriminate]. intros H. inversion H; subst. clear H.
  f_equal. apply mapM_ok_forall in E. revert E. generalize (seq 0 (length sizes)). intros s. revert l.
  induction s as [|i s IH]; intros l E; cbn [map] in *; inversion E; subst; [reflexivity|].
  f_equal; [|apply IH; assumption]. cbn [fst snd] in H1.
  destruct (block_items _) as [ds|] eqn:B; cbn [bind] in H1; [|discriminate].
  inversion H1. rewrite (block_items_conds _ _ B). reflexivity.
Qed.

Lemma dict_get_conds l i :
  block_conds (dict_get l i) =
  match find (fun kv => Z.eqb (fst kv) i) l with Some kv => block_conds (snd kv) | None => [] end.
Proof.
  induction l as [|[k v] l IH]; [reflexivity|]. cbn [dict_get find fst snd].
  destruct (Z.eqb k i); [reflexivity|apply IH].
Qed.

Lemma per_block_conds nA plain arg l i :
  per_block nA plain arg = Ok l -> i < length l -> (plain = true -> nA = 1) ->
  block_conds (nth i l (PList [])) = arg_conds plain arg i.
Proof.
  intros H Hi Hp. destruct arg as [|v|ks]; cbn [per_block] in H.
  - discriminate.
  - destruct plain.
    + inversion H; subst. cbn in Hi. assert (i = 0) by lia. subst. reflexivity.
    + destruct v as [d|d|l']; try discriminate. inversion H; subst. reflexivity.
  - destruct (forallb _ ks); cbn in H; [|discriminate].
    destruct (forallb _ ks); cbn [py_assert bind] in H; [|discriminate]. inversion H; subst.
    rewrite map_length, seq_length in Hi. rewrite nth_map_seq by assumption.
    cbn [arg_conds]. apply dict_get_conds.
Qed.

Lemma falsy_conds b : truthy b = false -> block_conds b = [] .
Proof. destruct b as [d|[|? ?]|[|? ?]]; cbn; try discriminate; reflexivity. Qed.

Lemma flat_map_nil {X Y} (f : X -> list Y) l : (forall x, In x l -> f x = []) -> flat_map f l = [].
Proof.
  induction l as [|a l IH]; intros H; [reflexivity|]. cbn. rewrite (H a) by (left; reflexivity).
  apply IH. intros; apply H; right; assumption.
Qed.

Lemma concat_nil_map {X Y} (f : X -> list Y) l : (forall x, In x l -> f x = []) -> concat (map f l) = [].
Proof.
  induction l as [|a l IH]; intros H; [reflexivity|]. cbn. rewrite (H a) by (left; reflexivity).
  apply IH. intros; apply H; right; assumption.
Qed.

Lemma falsy_items l : existsb truthy l = false -> concat (flat_map cond_items l) = [].
Proof.
  induction l as [|b l IH]; [reflexivity|]. cbn [existsb]. intros H. apply orb_false_iff in H. destruct H as [H1 H2].
  destruct b as [d|[|? ?]|x]; cbn in H1; try discriminate; cbn [flat_map cond_items app concat]; apply IH; assumption.
Qed.

Lemma existsb_nth_false l i : existsb truthy l = false -> truthy (nth i l (PList [])) = false.
Proof.
  revert i. induction l as [|b l IH]; intros i H; [destruct i; reflexivity|].
  cbn in H. apply orb_false_iff in H. destruct H. destruct i; cbn; auto.
Qed.

Lemma nothing_prescribed plain sizes arg : nothing_to_do arg = true -> prescribed plain sizes arg = [].
Proof.
  intros H. unfold prescribed. apply concat_nil_map. intros i _.
  assert (E : concat (arg_conds plain arg i) = []); [|rewrite E; reflexivity].
  destruct arg as [|[d|d|l]|ks]; cbn [nothing_to_do] in H.
  - reflexivity.
  - discriminate.
  - destruct d; [|discriminate]. destruct plain; reflexivity.
  - apply negb_true_iff in H. destruct plain; cbn [arg_conds].
    + apply falsy_items. assumption.
    + rewrite falsy_conds by (apply existsb_nth_false; assumption). reflexivity.
  - destruct ks; [reflexivity|discriminate].
Qed.

Lemma existsb_as_list l : existsb truthy (map as_list l) = existsb truthy l.
Proof. induction l as [|[d|d|x] l IH]; cbn; rewrite ?IH; reflexivity. Qed.

Lemma nbrows_plain A : is_plain A = true -> nbrows (mat_blocks A) = 1.
Proof. destruct A; [reflexivity|discriminate]. Qed.

Lemma prescribed_eq nA plain arg l sizes :
  per_block nA plain arg = Ok l -> length l = length sizes -> (plain = true -> nA = 1) ->
  concat (map (fun i => map (fun dv => (off sizes i + fst dv, snd dv))
                     (concat (block_conds (nth i (map as_list l) (PList []))))) (seq 0 (length sizes)))
  = prescribed plain sizes arg.
Proof.
  intros H L Hp. unfold prescribed. f_equal. apply map_ext_in. intros i Hi. apply in_seq in Hi.
  change (PList []) with (as_list (PList [])) at 1. rewrite map_nth, block_conds_as_list.
  rewrite (per_block_conds _ _ _ _ _ H) by (auto; lia). reflexivity.
Qed.

(** What apply_bc has done when it returns. *)
Definition bc_done (fuel : nat) (A : mat_arg) (bl : list vec) (arg : bcs_arg) (diag : Qc) (sym : bool)
    (out : result) : Prop :=
  let sizes := map (@length Qc) bl in
  let pairs := prescribed (is_plain A) sizes arg in
  exists AA A' b',
    convert_bmat fuel (mat_blocks A) = Ok AA /\
    nr AA = list_sum sizes /\ nc AA = list_sum sizes /\ nbrows (mat_blocks A) = length sizes /\
    (forall k, constrained pairs k -> k < list_sum sizes) /\
    eliminated sym diag AA (concat bl) pairs A' b' /\
    splits_mat sizes A' (mat_blocks (out_A out)) /\ splits_vec sizes b' (vec_blocks (out_b out)) /\
    is_plain (out_A out) = is_plain A.

Lemma length_concat (xs : list vec) : length (concat xs) = list_sum (map (@length Qc) xs).
Proof.
  induction xs as [|x xs IH]; [reflexivity|]. cbn [concat map].
  change (list_sum (length x :: map (@length Qc) xs)) with (length x + list_sum (map (@length Qc) xs)).
  rewrite app_length, IH. reflexivity.
Qed.

Lemma apply_bc_inv fuel A b arg diag sym ret out :
  apply_bc fuel A b arg diag sym ret = Ok out -> b <> VNone ->
  prescribed (is_plain A) (map (@length Qc) (vec_blocks b)) arg <> [] ->
  bc_done fuel A (vec_blocks b) arg diag sym out.
Proof.
  intros H Hb HP. unfold apply_bc in H.
  destruct (nothing_to_do arg) eqn:N; [elim HP; apply nothing_prescribed; assumption|].
  assert (E : (match A with APlain m => (true, [[m]]) | ABlock B => (false, B) end) = (is_plain A, mat_blocks A))
    by (destruct A; reflexivity).
  rewrite E in H. clear E. cbv beta iota in H.
  set (plain := is_plain A) in *. set (bA := mat_blocks A) in *.
  destruct (match b with VNone => _ | VPlain v => _ | VBlock l => Ok l end) as [bl|] eqn:Eb;
    cbn [bind] in H; [|discriminate].
  assert (Ebl : bl = vec_blocks b /\ True).
  { destruct b as [|v|l]; [congruence| |inversion Eb; auto].
    destruct plain; cbn in Eb; [inversion Eb; auto|discriminate]. }
  destruct Ebl as [-> _]. clear Eb. set (bl := vec_blocks b) in *.
  destruct (per_block (nbrows bA) plain arg) as [l|] eqn:EP; cbn [bind] in H; [|discriminate].
  destruct ((nbrows bA =? length bl) && (length bl =? length l)) eqn:EL; cbn [py_assert bind] in H; [|discriminate].
  apply andb_true_iff in EL. destruct EL as [EL1 EL2]. apply Nat.eqb_eq in EL1, EL2.
  set (sizes := map (@length Qc) bl) in *.
  assert (Ls : length sizes = length bl) by (unfold sizes; apply map_length).
  assert (Hpl : plain = true -> nbrows bA = 1) by apply nbrows_plain.
  pose proof (prescribed_eq _ _ _ _ sizes EP ltac:(lia) Hpl) as EPR.
  destruct (existsb truthy (map as_list l)) eqn:ET; cbn [negb] in H.
  2: { exfalso. apply HP. rewrite <- EPR. apply concat_nil_map. intros i _.
       change (PList []) with (as_list (PList [])). rewrite map_nth, block_conds_as_list.
       rewrite existsb_as_list in ET. rewrite falsy_conds by (apply existsb_nth_false; assumption). reflexivity. }
  destruct (convert_bmat fuel bA) as [AA|] eqn:EC; cbn [bind] in H; [|discriminate].
  destruct ((nr AA =? nc AA) && (nc AA =? last (offsets sizes) 0)) eqn:ES; cbn [py_assert bind] in H; [|discriminate].
  apply andb_true_iff in ES. destruct ES as [ES1 ES2]. apply Nat.eqb_eq in ES1, ES2. rewrite offsets_last in ES2.
  destruct (global_pairs (offsets sizes) (map as_list l)) as [pairs|] eqn:EG; cbn [bind] in H; [|discriminate].
  apply global_pairs_ok in EG; [|rewrite map_length; lia]. rewrite EPR in EG. subst pairs.
  set (pairs := prescribed plain sizes arg) in *.
  destruct (length (map fst pairs) =? 0); cbn [bind] in H; [discriminate|].
  destruct (set_values _ (map fst pairs) (map snd pairs)) as [x|] eqn:EX; cbn [bind] in H; [|discriminate].
  destruct ((if sym then zero_rows_columns else zero_rows) AA (map fst pairs) diag x (convert_bvec bl)) as [AA' bb'] eqn:EZ.
  destruct (as_block_vec (strides sizes) bb') as [b'|] eqn:EV; cbn [bind] in H; [|discriminate].
  destruct (as_block_mat (strides sizes) AA') as [A'|] eqn:EM; cbn [bind] in H; [|discriminate].
  apply as_block_vec_splits in EV. apply as_block_mat_splits in EM.
  assert (Lc : length (convert_bvec bl) = list_sum sizes) by (apply length_concat).
  destruct (set_values_ok _ _ _ EX) as (_ & B & _). rewrite vtab_length, Lc in B.
  exists AA, AA', bb'. split; [exact EC|].
  split; [exact (eq_trans ES1 ES2)|]. split; [exact ES2|]. split; [fold bA sizes; lia|]. split; [exact B|]. split.
  - eapply zeroed_eliminated; [|exact EX|exact EZ]. change (concat bl) with (convert_bvec bl). lia.
  - destruct plain eqn:EPl.
    + assert (L1 : length sizes = 1) by (specialize (Hpl eq_refl); lia).
      assert (OA : out_A out = APlain (blk A' 0 0)) by (inversion H; reflexivity).
      assert (OB : out_b out = VPlain (nth 0 b' [])) by (inversion H; reflexivity).
      rewrite OA, OB. cbn [mat_blocks vec_blocks is_plain].
      split; [|split; [|auto]].
      * destruct EM as (M1 & M2 & M3). split; [fold sizes; cbn; lia|]. split.
        -- intros i Hi. fold sizes in Hi |- *. assert (i = 0) by lia. subst. cbn. lia.
        -- intros i j Hi Hj. fold sizes in Hi, Hj. assert (i = 0) by lia. assert (j = 0) by lia. subst.
           cbn [blk nth]. apply (M3 0 0); lia.
      * destruct EV as (V1 & V2). fold sizes. split.
        -- destruct b' as [|x0 [|x1 b']]; cbn [map] in V1; rewrite <- V1 in L1; cbn in L1; try lia. exact V1.
        -- intros i r Hi Hr. assert (i = 0) by lia. subst. cbn [nth]. apply (V2 0); assumption.
    + assert (O : out_A out = ABlock A' /\ out_b out = VBlock b').
      { destruct ret; [destruct sym; [|discriminate]|]; inversion H; auto. }
      destruct O as [-> ->]. auto.
Qed.

(** C10 *)
Lemma apply_bc_solutions fuel A b arg diag sym ret out xs :
  apply_bc fuel A b arg diag sym ret = Ok out -> b <> VNone -> diag <> q0 ->
  let sizes := map (@length Qc) (vec_blocks b) in
  let pairs := prescribed (is_plain A) sizes arg in
  pairs <> [] -> map (@length Qc) xs = sizes ->
  exists AA, convert_bmat fuel (mat_blocks A) = Ok AA /\
  (block_solves (mat_blocks (out_A out)) (vec_blocks (out_b out)) xs <->
   (forall k v, assigned pairs k v -> vnth (concat xs) k = v) /\
   (forall i, i < list_sum sizes -> ~ constrained pairs i -> row_holds AA (concat (vec_blocks b)) (concat xs) i)).
Proof.
  intros H Hb Hd sizes pairs HP Hxs.
  destruct (apply_bc_inv _ _ _ _ _ _ _ _ H Hb HP) as (AA & A' & b' & EC & Hr & Hc & _ & HB & HE & HM & HV & _).
  exists AA. split; [exact EC|].
  pose proof HE as (E1 & E2 & E3 & _).
  assert (Lc : length (concat (vec_blocks b)) = list_sum sizes) by apply length_concat.
  etransitivity.
  - eapply (splits_solves sizes A' b'); [|exact HM|exact HV|exact Hxs]. fold sizes in Hc. lia.
  - rewrite <- Lc. eapply eliminated_solutions; [exact Hd| | | |exact HE].
    + rewrite Lc. exact Hr.
    + rewrite Lc. exact Hc.
    + rewrite Lc. exact HB.
Qed.

(** Without a right-hand side a zero one is made. *)
Lemma apply_bc_none fuel A arg diag sym ret rs cs :
  nothing_to_do arg = false -> bmat_sizes (mat_blocks A) = Ok (rs, cs) ->
  apply_bc fuel A VNone arg diag sym ret =
  apply_bc fuel A (VBlock (map (fun n => vtab n (fun _ => q0)) cs)) arg diag sym ret.
Proof.
  intros N E. unfold apply_bc. rewrite N.
  destruct A as [m|B]; cbn [mat_blocks] in E; rewrite E; reflexivity.
Qed.

(** Nothing prescribed by empty containers: the system comes back. *)
Lemma apply_bc_nothing fuel A b arg diag sym ret :
  nothing_to_do arg = true -> apply_bc fuel A b arg diag sym ret = Ok (RPair A b).
Proof. intros H. unfold apply_bc. rewrite H. reflexivity. Qed.

(** C11 *)
Lemma apply_bc_symmetric fuel A b arg diag ret out AA :
  apply_bc fuel A b arg diag true ret = Ok out -> b <> VNone ->
  let sizes := map (@length Qc) (vec_blocks b) in
  prescribed (is_plain A) sizes arg <> [] ->
  convert_bmat fuel (mat_blocks A) = Ok AA ->
  (forall i j, i < nr AA -> j < nr AA -> ent AA i j = ent AA j i) ->
  forall i j r c, i < length sizes -> j < length sizes -> r < nth i sizes 0 -> c < nth j sizes 0 ->
  ent (emat (blk (mat_blocks (out_A out)) i j)) r c = ent (emat (blk (mat_blocks (out_A out)) j i)) c r.
Proof.
  intros H Hb sizes HP EC HS i j r c Hi Hj Hr Hc.
  destruct (apply_bc_inv _ _ _ _ _ _ _ _ H Hb HP) as (AA0 & A' & b' & EC' & Nr & Nc & _ & HB & HE & HM & HV & _).
  assert (AA0 = AA) by congruence. subst AA0.
  destruct HM as (_ & _ & HM). fold sizes in HM, Nr, Nc, HB.
  destruct (HM i j Hi Hj) as (m & -> & _ & _ & Em). destruct (HM j i Hj Hi) as (m' & -> & _ & _ & Em').
  cbn [emat]. rewrite Em, Em' by assumption.
  set (p := off sizes i + r). set (q := off sizes j + c).
  assert (Hp : p < nr AA) by (unfold p; rewrite Nr; apply off_bound; assumption).
  assert (Hq : q < nr AA) by (unfold q; rewrite Nr; apply off_bound; assumption).
  destruct HE as (_ & _ & _ & Erow & _ & Efree & Ecol & _). fold sizes in Erow, Efree, Ecol.
  set (pairs := prescribed (is_plain A) sizes arg) in *.
  destruct (mem p (map fst pairs)) eqn:Mp, (mem q (map fst pairs)) eqn:Mq;
    (first [apply mem_spec in Mp | apply mem_false in Mp]); (first [apply mem_spec in Mq | apply mem_false in Mq]).
  - rewrite !Erow by assumption. rewrite (Nat.eqb_sym p q). reflexivity.
  - rewrite Erow by assumption. rewrite (Ecol q p) by assumption.
    destruct (Nat.eqb_spec p q) as [->|]; [contradiction|reflexivity].
  - rewrite (Erow q p) by assumption. rewrite (Ecol p q) by assumption.
    destruct (Nat.eqb_spec q p) as [->|]; [contradiction|reflexivity].
  - rewrite !Efree by assumption. apply HS; assumption.
Qed.

(** C11, both modes: free entries are untouched. *)
Lemma apply_bc_free fuel A b arg diag sym ret out AA :
  apply_bc fuel A b arg diag sym ret = Ok out -> b <> VNone ->
  let sizes := map (@length Qc) (vec_blocks b) in
  let pairs := prescribed (is_plain A) sizes arg in
  pairs <> [] -> convert_bmat fuel (mat_blocks A) = Ok AA ->
  forall i j r c, i < length sizes -> j < length sizes -> r < nth i sizes 0 -> c < nth j sizes 0 ->
  ~ constrained pairs (off sizes i + r) -> ~ constrained pairs (off sizes j + c) ->
  ent (emat (blk (mat_blocks (out_A out)) i j)) r c = ent AA (off sizes i + r) (off sizes j + c).
Proof.
  intros H Hb sizes pairs HP EC i j r c Hi Hj Hr Hc Fi Fj.
  destruct (apply_bc_inv _ _ _ _ _ _ _ _ H Hb HP) as (AA0 & A' & b' & EC' & Nr & Nc & _ & HB & HE & HM & HV & _).
  assert (AA0 = AA) by congruence. subst AA0.
  destruct HM as (_ & _ & HM). fold sizes in HM.
  destruct (HM i j Hi Hj) as (m & -> & _ & _ & Em). cbn [emat]. rewrite Em by assumption.
  apply HE; assumption.
Qed.

(** C12 *)
Lemma in_concat_map {X Y} (f : X -> list Y) l y : In y (concat (map f l)) <-> exists x, In x l /\ In y (f x).
Proof. rewrite <- flat_map_concat_map. apply in_flat_map. Qed.

Lemma constrained_iff plain sizes arg k :
  constrained (prescribed plain sizes arg) k <->
  exists i d, i < length sizes /\ k = off sizes i + d /\
    exists dict, In dict (arg_conds plain arg i) /\ In d (map fst dict).
Proof.
  unfold constrained, prescribed. rewrite in_map_iff. split.
  - intros ([k' v] & <- & Hin). apply in_concat_map in Hin. destruct Hin as (i & Hi & Hin).
    apply in_seq in Hi. apply in_map_iff in Hin. destruct Hin as ([d w] & E & Hin). inversion E; subst. clear E.
    apply in_concat in Hin. destruct Hin as (dict & H1 & H2).
    exists i, d. cbn [fst]. split; [lia|]. split; [reflexivity|]. exists dict. split; [assumption|].
    apply (in_map fst) in H2. assumption.
  - intros (i & d & Hi & -> & dict & H1 & H2). apply in_map_iff in H2. destruct H2 as ([d' v] & E & H2).
    cbn in E. subst. exists (off sizes i + d, v). split; [reflexivity|]. apply in_concat_map. exists i.
    split; [apply in_seq; lia|]. apply in_map_iff. exists (d, v). split; [reflexivity|]. apply in_concat. eauto.
Qed.

(** Rows of different blocks do not mix when the local indices fit. *)
Lemma constrained_block plain sizes arg i r :
  (forall j dict, In dict (arg_conds plain arg j) -> forall d, In d (map fst dict) -> d < nth j sizes 0) ->
  i < length sizes -> r < nth i sizes 0 ->
  (constrained (prescribed plain sizes arg) (off sizes i + r) <->
   exists dict, In dict (arg_conds plain arg i) /\ In r (map fst dict)).
Proof.
  intros HB Hi Hr. rewrite constrained_iff. split.
  - intros (j & d & Hj & E & dict & H1 & H2).
    assert (Hd : d < nth j sizes 0) by (eapply HB; eassumption).
    assert (L := locate_off sizes i r Hi Hr). rewrite E, (locate_off sizes j d Hj Hd) in L. inversion L; subst. eauto.
  - intros (dict & H1 & H2). exists i, r. split; [assumption|]. split; [reflexivity|]. eauto.
Qed.

(** What a constrained row looks like in the returned blocks. *)
Lemma apply_bc_row fuel A b arg diag sym ret out :
  apply_bc fuel A b arg diag sym ret = Ok out -> b <> VNone ->
  let sizes := map (@length Qc) (vec_blocks b) in
  let pairs := prescribed (is_plain A) sizes arg in
  pairs <> [] ->
  forall i r v, i < length sizes -> r < nth i sizes 0 -> assigned pairs (off sizes i + r) v ->
  vnth (nth i (vec_blocks (out_b out)) []) r = (diag * v)%Qc /\
  forall j c, j < length sizes -> c < nth j sizes 0 ->
    ent (emat (blk (mat_blocks (out_A out)) i j)) r c = if (i =? j) && (r =? c) then diag else q0.
Proof.
  intros H Hb sizes pairs HP i r v Hi Hr Hv.
  destruct (apply_bc_inv _ _ _ _ _ _ _ _ H Hb HP) as (AA & A' & b' & EC & Nr & Nc & _ & HB & HE & HM & HV & _).
  destruct HM as (_ & _ & HM). destruct HV as (_ & HV). fold sizes in HM, HV.
  destruct HE as (_ & _ & _ & Erow & Erhs & _). fold sizes pairs in Erow, Erhs.
  assert (C : constrained pairs (off sizes i + r)).
  { destruct Hv as (pre & post & -> & _). unfold constrained. rewrite map_app. apply in_or_app. right. left. reflexivity. }
  split.
  - rewrite HV by assumption. apply Erhs; [|assumption]. rewrite length_concat. fold sizes. apply off_bound; assumption.
  - intros j c Hj Hc. destruct (HM i j Hi Hj) as (m & -> & _ & _ & Em). cbn [emat]. rewrite Em by assumption.
    rewrite Erow by assumption.
    destruct (Nat.eqb_spec (off sizes i + r) (off sizes j + c)) as [E|E].
    + assert (L := locate_off sizes i r Hi Hr). rewrite E, (locate_off sizes j c Hj Hc) in L. inversion L; subst.
      rewrite !Nat.eqb_refl. reflexivity.
    + destruct (Nat.eqb_spec i j) as [->|], (Nat.eqb_spec r c) as [->|]; cbn; congruence.
Qed.
