(** Specification vocabulary and proofs for boundary conditions (BcModel.v). *)
From Verif Require Import Base BaseProofs Mat MatProofs ConvertModel ConvertProofs ConvertActionProofs BcModel.

(** ** Specification vocabulary *)

(** The dictionaries a user gave for one block. *)
Definition cond_items (b : pybc) : list items := match b with PDirichlet d | PDict d => [d] | PList _ => [] end.
Definition block_conds (b : pybc) : list items :=
  match b with PDirichlet d => [d] | PDict _ => [] | PList l => flat_map cond_items l end.

(** The conditions of block [i] in the argument of apply_bc; a plain matrix has
    one block and gets the whole argument. *)
Definition arg_conds (plain : bool) (b : bcs_arg) (i : nat) : list items :=
  match b with
  | BNone => []
  | BKeys l => match find (fun kv => Z.eqb (fst kv) (Z.of_nat i)) l with
               | Some kv => block_conds (snd kv) | None => [] end
  | BVal v => if plain then block_conds v
              else match v with PList l => block_conds (nth i l (PList [])) | _ => [] end
  end.

(** All prescribed (global row, value) pairs in the order blocks, conditions,
    dictionary items; block [i] starts at the total size of the blocks before. *)
Definition prescribed (plain : bool) (sizes : list nat) (b : bcs_arg) : items :=
  concat (map (fun i => map (fun dv => (off sizes i + fst dv, snd dv)) (concat (arg_conds plain b i)))
              (seq 0 (length sizes))).

(** The last pair for row [k] prescribes [v]. *)
Definition assigned (pairs : items) (k : nat) (v : Qc) : Prop :=
  exists pre post, pairs = pre ++ (k, v) :: post /\ ~ In k (map fst post).
Definition constrained (pairs : items) (k : nat) : Prop := In k (map fst pairs).

(** The system in a result or argument, as blocks. *)
Definition is_plain (A : mat_arg) : bool := match A with APlain _ => true | ABlock _ => false end.
Definition mat_blocks (A : mat_arg) : bmat := match A with APlain m => [[m]] | ABlock b => b end.
Definition vec_blocks (b : vec_arg) : list vec := match b with VNone => [] | VPlain v => [v] | VBlock l => l end.
Definition out_A (r : result) : mat_arg := match r with RPair A _ | RTriple A _ _ => A end.
Definition out_b (r : result) : vec_arg := match r with RPair _ b | RTriple _ b _ => b end.
Definition emat (e : expr) : mat := match e with EMat m => m | _ => mzero 0 0 end.

(** A block vector solves a block system of matrices. *)
Definition block_solves (A : bmat) (b xs : list vec) : Prop :=
  forall i r, i < length b -> r < length (nth i b []) ->
    sumn (length xs) (fun j => vnth (mv (emat (blk A i j)) (nth j xs [])) r) = vnth (nth i b []) r.

(** Row [i] of [A x = b]. *)
Definition row_holds (A : mat) (b x : vec) (i : nat) : Prop :=
  sumn (nc A) (fun j => (ent A i j * vnth x j)%Qc) = vnth b i.

(** The monolithic system after elimination. *)
Definition eliminated (symmetric : bool) (diag : Qc) (AA : mat) (bb : vec) (pairs : items)
    (A' : mat) (b' : vec) : Prop :=
  nr A' = nr AA /\ nc A' = nc AA /\ length b' = length bb /\
  (forall i j, constrained pairs i -> ent A' i j = if i =? j then diag else q0) /\
  (forall i v, i < length bb -> assigned pairs i v -> vnth b' i = (diag * v)%Qc) /\
  (forall i j, ~ constrained pairs i -> ~ constrained pairs j -> ent A' i j = ent AA i j) /\
  (forall i j, ~ constrained pairs i -> constrained pairs j ->
     ent A' i j = if symmetric then q0 else ent AA i j) /\
  (forall (w : nat -> Qc) i, i < length bb -> ~ constrained pairs i ->
     (forall k v, assigned pairs k v -> w k = v) -> (forall k, ~ constrained pairs k -> w k = q0) ->
     vnth b' i = if symmetric then (vnth bb i - sumn (nc AA) (fun j => ent AA i j * w j))%Qc else vnth bb i).

(** ** Insertion *)

Lemma upd_length x k v : length (upd x k v) = length x.
Proof. unfold upd. rewrite map_length, seq_length. reflexivity. Qed.

Lemma vnth_upd x k v i : i < length x -> vnth (upd x k v) i = if i =? k then v else vnth x i.
Proof. intros H. unfold vnth, upd. rewrite nth_map_seq by assumption. reflexivity. Qed.

Lemma combine_fst_snd {X Y} (l : list (X * Y)) : combine (map fst l) (map snd l) = l.
Proof. induction l as [|[a b] l IH]; cbn; [reflexivity|f_equal; assumption]. Qed.

Lemma fold_upd (pairs : items) : forall x,
  length (fold_left (fun x rv => upd x (fst rv) (snd rv)) pairs x) = length x /\
  (forall k v, k < length x -> assigned pairs k v ->
     vnth (fold_left (fun x rv => upd x (fst rv) (snd rv)) pairs x) k = v) /\
  (forall k, k < length x -> ~ constrained pairs k ->
     vnth (fold_left (fun x rv => upd x (fst rv) (snd rv)) pairs x) k = vnth x k).
Proof.
  induction pairs as [|[r w] pairs IH]; intros x; cbn [fold_left].
  - split; [reflexivity|]. split; [|auto]. intros k v _ (pre & post & E & _). destruct pre; discriminate.
  - destruct (IH (upd x r w)) as (L & H1 & H2). rewrite upd_length in L, H1, H2. cbn [fst snd].
    split; [assumption|]. split.
    + intros k v Hk (pre & post & E & Hn). destruct pre as [|p pre]; cbn [app] in E; inversion E; subst.
      * rewrite H2 by assumption. rewrite vnth_upd by assumption. rewrite Nat.eqb_refl. reflexivity.
      * apply H1; [assumption|]. exists pre, post. auto.
    + intros k Hk Hn. unfold constrained in Hn. cbn [map fst] in Hn.
      rewrite H2 by (auto; intros C; apply Hn; right; exact C).
      rewrite vnth_upd by assumption. destruct (Nat.eqb_spec k r) as [->|]; [|reflexivity].
      exfalso. apply Hn. left. reflexivity.
Qed.

Lemma set_values_ok x (pairs : items) y :
  set_values x (map fst pairs) (map snd pairs) = Ok y ->
  length y = length x /\ (forall k, constrained pairs k -> k < length x) /\
  (forall k v, assigned pairs k v -> vnth y k = v) /\
  (forall k, k < length x -> ~ constrained pairs k -> vnth y k = vnth x k).
Proof.
  unfold set_values. rewrite !map_length, Nat.eqb_refl. cbn [negb].
  destruct (forallb _ _) eqn:F; [|discriminate]. rewrite combine_fst_snd. intros E. inversion E; subst. clear E.
  destruct (fold_upd pairs x) as (L & H1 & H2). split; [assumption|].
  assert (B : forall k, constrained pairs k -> k < length x).
  { intros k Hk. rewrite forallb_forall in F. apply Nat.ltb_lt. apply F. exact Hk. }
  split; [assumption|]. split; [|assumption].
  intros k v Hk. apply H1; [|assumption]. apply B.
  destruct Hk as (pre & post & -> & _). unfold constrained. rewrite map_app. apply in_or_app. right. left. reflexivity.
Qed.

Lemma set_values_total x (pairs : items) :
  (forall k, constrained pairs k -> k < length x) ->
  exists y, set_values x (map fst pairs) (map snd pairs) = Ok y.
Proof.
  intros H. unfold set_values. rewrite !map_length, Nat.eqb_refl. cbn [negb].
  replace (forallb (fun r => r <? length x) (map fst pairs)) with true; [eexists; reflexivity|].
  symmetry. apply forallb_forall. intros k Hk. apply Nat.ltb_lt. apply H. exact Hk.
Qed.

Lemma assigned_exists pairs k : constrained pairs k -> exists v, assigned pairs k v.
Proof.
  induction pairs as [|[r w] pairs IH]; intros H; [inversion H|].
  destruct (in_dec Nat.eq_dec k (map fst pairs)) as [Hin|Hn].
  - destruct (IH Hin) as (v & pre & post & E & Hp). exists v, ((r, w) :: pre), post. split; [cbn; congruence|assumption].
  - destruct H as [H|H]; [|contradiction]. cbn in H. subst. exists w, [], pairs. auto.
Qed.

Lemma assigned_unique pairs k v w : assigned pairs k v -> assigned pairs k w -> v = w.
Proof.
  intros (p1 & q1 & E1 & H1) (p2 & q2 & E2 & H2). subst.
  revert p2 E2. induction p1 as [|a p1 IH]; intros p2 E2.
  - destruct p2 as [|c p2]; cbn in E2; inversion E2; subst; [reflexivity|].
    exfalso. apply H1. rewrite map_app. apply in_or_app. right. left. reflexivity.
  - destruct p2 as [|c p2]; cbn in E2; inversion E2; subst.
    + exfalso. apply H2. rewrite map_app. apply in_or_app. right. left. reflexivity.
    + eauto.
Qed.

Lemma mem_spec k (pairs : items) : mem k (map fst pairs) = true <-> constrained pairs k.
Proof.
  unfold mem, constrained. rewrite existsb_exists. split.
  - intros (y & Hy & E). apply Nat.eqb_eq in E. subst. assumption.
  - intros H. exists k. split; [assumption|apply Nat.eqb_refl].
Qed.
Lemma mem_false k (pairs : items) : mem k (map fst pairs) = false <-> ~ constrained pairs k.
Proof. rewrite <- mem_spec. destruct (mem k (map fst pairs)); split; intros; congruence. Qed.

(** ** Elimination *)

Lemma zeroed_eliminated (symmetric : bool) diag AA bb (pairs : items) x A' b' :
  nc AA = length bb ->
  set_values (vtab (length bb) (fun _ => q0)) (map fst pairs) (map snd pairs) = Ok x ->
  (if symmetric then zero_rows_columns else zero_rows) AA (map fst pairs) diag x bb = (A', b') ->
  eliminated symmetric diag AA bb pairs A' b'.
Proof.
  intros Hn Hx E. destruct (set_values_ok _ _ _ Hx) as (Lx & B & V & Z). rewrite vtab_length in *.
  assert (W : forall w : nat -> Qc, (forall k v, assigned pairs k v -> w k = v) ->
     (forall k, ~ constrained pairs k -> w k = q0) -> forall k, k < length bb -> w k = vnth x k).
  { intros w H1 H2 k Hk. destruct (mem k (map fst pairs)) eqn:M.
    - apply mem_spec in M. destruct (assigned_exists _ _ M) as (v & Hv). rewrite (H1 _ _ Hv), (V _ _ Hv). reflexivity.
    - apply mem_false in M. rewrite H2 by assumption. rewrite Z by assumption. rewrite vnth_vtab by assumption. reflexivity. }
  destruct symmetric; cbv [zero_rows_columns zero_rows] in E; inversion E; subst; clear E.
  - split; [reflexivity|]. split; [reflexivity|]. split; [apply vtab_length|]. split; [|split; [|split; [|split]]].
    + intros i j Hi. cbn [ent]. rewrite (proj2 (mem_spec _ _) Hi). reflexivity.
    + intros i v Hi Hv. rewrite vnth_vtab by assumption.
      rewrite (proj2 (mem_spec i pairs)), (V _ _ Hv); [reflexivity|].
      destruct Hv as (pre & post & -> & _). unfold constrained. rewrite map_app. apply in_or_app. right. left. reflexivity.
    + intros i j Hi Hj. cbn [ent]. rewrite (proj2 (mem_false _ _) Hi), (proj2 (mem_false _ _) Hj). reflexivity.
    + intros i j Hi Hj. cbn [ent]. rewrite (proj2 (mem_false _ _) Hi), (proj2 (mem_spec _ _) Hj). reflexivity.
    + intros w i Hi Hc H1 H2. rewrite vnth_vtab by assumption. rewrite (proj2 (mem_false _ _) Hc).
      f_equal. apply sumn_ext. intros j Hj. rewrite (W w H1 H2) by lia.
      destruct (mem j (map fst pairs)) eqn:M; [reflexivity|].
      apply mem_false in M. rewrite (Z j) by (auto; lia). rewrite vnth_vtab by lia. unfold q0; ring.
  - split; [reflexivity|]. split; [reflexivity|]. split; [apply vtab_length|]. split; [|split; [|split; [|split]]].
    + intros i j Hi. cbn [ent]. rewrite (proj2 (mem_spec _ _) Hi). reflexivity.
    + intros i v Hi Hv. rewrite vnth_vtab by assumption.
      rewrite (proj2 (mem_spec i pairs)), (V _ _ Hv); [reflexivity|].
      destruct Hv as (pre & post & -> & _). unfold constrained. rewrite map_app. apply in_or_app. right. left. reflexivity.
    + intros i j Hi Hj. cbn [ent]. rewrite (proj2 (mem_false _ _) Hi). reflexivity.
    + intros i j Hi Hj. cbn [ent]. rewrite (proj2 (mem_false _ _) Hi). reflexivity.
    + intros w i Hi Hc H1 H2. rewrite vnth_vtab by assumption. rewrite (proj2 (mem_false _ _) Hc). reflexivity.
Qed.

Lemma Qc_mul_cancel (d a b : Qc) : d <> q0 -> (d * a = d * b)%Qc -> a = b.
Proof.
  intros Hd H. assert (E : (/ d * (d * a) = / d * (d * b))%Qc) by (rewrite H; reflexivity).
  rewrite !Qcmult_assoc in E. rewrite (Qcmult_comm (/ d) d), Qcmult_inv_r in E by exact Hd.
  rewrite !Qcmult_1_l in E. exact E.
Qed.

(** The eliminated system has the right solutions. *)
Lemma eliminated_solutions (symmetric : bool) diag AA bb pairs A' b' x :
  diag <> q0 -> nr AA = length bb -> nc AA = length bb ->
  (forall k, constrained pairs k -> k < length bb) ->
  eliminated symmetric diag AA bb pairs A' b' ->
  ((forall i, i < length bb -> row_holds A' b' x i) <->
   ((forall k v, assigned pairs k v -> vnth x k = v) /\
    (forall i, i < length bb -> ~ constrained pairs i -> row_holds AA bb x i))).
Proof.
  intros Hd Hr Hc HB (E1 & E2 & E3 & Erow & Erhs & Efree & Ecol & Eb).
  assert (Con : forall i v, i < length bb -> assigned pairs i v -> (row_holds A' b' x i <-> vnth x i = v)).
  { intros i v Hi Hv.
    assert (Ci : constrained pairs i).
    { destruct Hv as (pre & post & -> & _). unfold constrained. rewrite map_app. apply in_or_app. right. left. reflexivity. }
    unfold row_holds. rewrite (Erhs _ _ Hi Hv). rewrite (sumn_single (nc A') i) by
      (first [lia | intros j Hj Hne; rewrite (Erow i j Ci); destruct (Nat.eqb_spec i j); [lia|unfold q0; ring]]).
    rewrite (Erow i i Ci), Nat.eqb_refl. split; [apply Qc_mul_cancel; assumption|congruence]. }
  assert (Free : (forall k v, assigned pairs k v -> vnth x k = v) ->
                 forall i, i < length bb -> ~ constrained pairs i -> (row_holds A' b' x i <-> row_holds AA bb x i)).
  { intros Hx i Hi Hci. unfold row_holds. rewrite E2.
    destruct symmetric.
    - set (w := fun k => if mem k (map fst pairs) then vnth x k else q0).
      assert (W1 : forall k v, assigned pairs k v -> w k = v).
      { intros k v Hv. unfold w. rewrite (proj2 (mem_spec k pairs)); [auto|].
        destruct Hv as (pre & post & -> & _). unfold constrained. rewrite map_app. apply in_or_app. right. left. reflexivity. }
      assert (W2 : forall k, ~ constrained pairs k -> w k = q0).
      { intros k Hk. unfold w. rewrite (proj2 (mem_false k pairs) Hk). reflexivity. }
      rewrite (Eb w i Hi Hci W1 W2).
      assert (S : sumn (nc AA) (fun j => (ent AA i j * vnth x j)%Qc) =
                  (sumn (nc AA) (fun j => ent A' i j * vnth x j) + sumn (nc AA) (fun j => ent AA i j * w j))%Qc).
      { rewrite <- sumn_plus. apply sumn_ext. intros j Hj. unfold w.
        destruct (mem j (map fst pairs)) eqn:M.
        - apply mem_spec in M. rewrite (Ecol i j Hci M). unfold q0; ring.
        - apply mem_false in M. rewrite (Efree i j Hci M). unfold q0; ring. }
      rewrite S. split; intros H.
      + rewrite H. ring.
      + rewrite <- H. ring.
    - set (w := fun k => if mem k (map fst pairs) then vnth x k else q0).
      rewrite (Eb w i Hi Hci); cycle 1.
      { intros k v Hv. unfold w. rewrite (proj2 (mem_spec k pairs)); [auto|].
        destruct Hv as (pre & post & -> & _). unfold constrained. rewrite map_app. apply in_or_app. right. left. reflexivity. }
      { intros k Hk. unfold w. rewrite (proj2 (mem_false k pairs) Hk). reflexivity. }
      rewrite (sumn_ext _ (fun j => (ent A' i j * vnth x j)%Qc) (fun j => (ent AA i j * vnth x j)%Qc)); [reflexivity|].
      intros j Hj. destruct (mem j (map fst pairs)) eqn:M.
      + apply mem_spec in M. rewrite (Ecol i j Hci M). reflexivity.
      + apply mem_false in M. rewrite (Efree i j Hci M). reflexivity. }
  split.
  - intros H.
    assert (Hx : forall k v, assigned pairs k v -> vnth x k = v).
    { intros k v Hv. assert (k < length bb).
      { apply HB. destruct Hv as (pre & post & -> & _). unfold constrained. rewrite map_app. apply in_or_app. right. left. reflexivity. }
      apply (Con k v); auto. }
    split; [assumption|]. intros i Hi Hc'. apply Free; auto.
  - intros (Hx & Hf) i Hi. destruct (mem i (map fst pairs)) eqn:M.
    + apply mem_spec in M. destruct (assigned_exists _ _ M) as (v & Hv). apply (Con i v); auto.
    + apply mem_false in M. apply Free; auto.
Qed.

(** ** Offsets and index ranges *)

Lemma offsets_from_nth sizes : forall o i, i <= length sizes -> nth i (offsets_from o sizes) 0 = o + off sizes i.
Proof.
  induction sizes as [|s sizes IH]; intros o i Hi.
  - destruct i as [|i]; [cbn; lia|cbn in Hi; lia].
  - destruct i as [|i]; cbn [offsets_from nth]; [unfold off; cbn; lia|].
    rewrite IH by (cbn in Hi; lia). unfold off. cbn [firstn].
    change (list_sum (s :: firstn i sizes)) with (s + list_sum (firstn i sizes)). lia.
Qed.
Lemma offsets_from_length sizes : forall o, length (offsets_from o sizes) = S (length sizes).
Proof. induction sizes as [|s sizes IH]; intros o; cbn; [reflexivity|]. rewrite IH. reflexivity. Qed.
Lemma off_all sizes : off sizes (length sizes) = list_sum sizes.
Proof. unfold off. rewrite firstn_all. reflexivity. Qed.
Lemma offsets_last sizes : last (offsets sizes) 0 = list_sum sizes.
Proof.
  unfold offsets. assert (G : forall o, last (offsets_from o sizes) 0 = o + list_sum sizes).
  { induction sizes as [|s sizes IH]; intros o; [cbn; lia|].
    cbn [offsets_from]. destruct (offsets_from (o + s) sizes) as [|y l] eqn:E.
    - pose proof (offsets_from_length sizes (o + s)) as L. rewrite E in L. discriminate.
    - change (last (y :: l) 0 = o + list_sum (s :: sizes)). rewrite <- E, IH.
      change (list_sum (s :: sizes)) with (s + list_sum sizes). lia. }
  apply G.
Qed.

Lemma combine_nth' {X Y} (l : list X) (l' : list Y) i x y :
  i < length l -> i < length l' -> nth i (combine l l') (x, y) = (nth i l x, nth i l' y).
Proof.
  revert l' i. induction l as [|a l IH]; intros l' i H1 H2; [cbn in H1; lia|].
  destruct l' as [|b l']; [cbn in H2; lia|]. destruct i as [|i]; [reflexivity|].
  cbn in *. apply IH; lia.
Qed.

(** A list is the table of its entries. *)
Lemma list_tab {X} (l : list X) d : l = map (fun i => nth i l d) (seq 0 (length l)).
Proof.
  apply (nth_ext _ _ d d); [rewrite map_length, seq_length; reflexivity|].
  intros i Hi. rewrite nth_map_seq by assumption. reflexivity.
Qed.

Lemma combine_offsets {Y} (sizes : list nat) (l : list Y) d :
  length l = length sizes ->
  combine (offsets sizes) l = map (fun i => (off sizes i, nth i l d)) (seq 0 (length sizes)).
Proof.
  intros H. assert (L : length (combine (offsets sizes) l) = length sizes).
  { rewrite combine_length. unfold offsets. rewrite offsets_from_length. lia. }
  rewrite (list_tab (combine (offsets sizes) l) (0, d)), L. apply map_ext_in. intros i Hi. apply in_seq in Hi.
  rewrite combine_nth' by (unfold offsets; rewrite ?offsets_from_length; lia).
  unfold offsets. rewrite offsets_from_nth by lia. reflexivity.
Qed.

Lemma strides_tab sizes : strides sizes = map (fun i => seq (off sizes i) (nth i sizes 0)) (seq 0 (length sizes)).
Proof. unfold strides. rewrite (combine_offsets sizes sizes 0) by reflexivity. rewrite map_map. reflexivity. Qed.

Lemma strides_length sizes : length (strides sizes) = length sizes.
Proof. rewrite strides_tab, map_length, seq_length. reflexivity. Qed.

Lemma strides_nth sizes i : i < length sizes -> nth i (strides sizes) [] = seq (off sizes i) (nth i sizes 0).
Proof. intros H. rewrite strides_tab, nth_map_seq by assumption. reflexivity. Qed.

Lemma strides_bound sizes : forall l k, In l (strides sizes) -> In k l -> k < list_sum sizes.
Proof.
  intros l k Hl Hk. rewrite strides_tab in Hl. apply in_map_iff in Hl. destruct Hl as (i & <- & Hi).
  apply in_seq in Hi. apply in_seq in Hk.
  replace k with (off sizes i + (k - off sizes i)) by lia. apply off_bound; lia.
Qed.

(** ** Blocks of a monolithic system *)

(** [b'] are the pieces of [x], [A'] the sub-matrices of [M], for consecutive
    ranges of the given sizes. *)
Definition splits_vec (sizes : list nat) (x : vec) (b' : list vec) : Prop :=
  map (@length Qc) b' = sizes /\
  forall i r, i < length sizes -> r < nth i sizes 0 -> vnth (nth i b' []) r = vnth x (off sizes i + r).
Definition splits_mat (sizes : list nat) (M : mat) (A' : bmat) : Prop :=
  nbrows A' = length sizes /\ (forall i, i < length sizes -> length (nth i A' []) = length sizes) /\
  forall i j, i < length sizes -> j < length sizes ->
    exists m, blk A' i j = EMat m /\ nr m = nth i sizes 0 /\ nc m = nth j sizes 0 /\
      forall r c, r < nth i sizes 0 -> c < nth j sizes 0 -> ent m r c = ent M (off sizes i + r) (off sizes j + c).

Lemma as_block_vec_splits sizes x b' :
  as_block_vec (strides sizes) x = Ok b' -> splits_vec sizes x b'.
Proof.
  unfold as_block_vec. destruct (_ =? 0); [discriminate|]. destruct (forallb _ _); [|discriminate].
  intros E. inversion E; subst. clear E. split.
  - rewrite map_map. rewrite strides_tab, map_map. etransitivity; [|symmetry; apply (list_tab sizes 0)].
    apply map_ext. intros i. unfold take. rewrite map_length, seq_length. reflexivity.
  - intros i r Hi Hr. rewrite strides_tab, map_map, nth_map_seq by assumption.
    unfold take. unfold vnth at 1. rewrite (nth_indep _ q0 (vnth x 0)) by (rewrite map_length, seq_length; lia).
    rewrite map_nth, seq_nth by lia. reflexivity.
Qed.

Lemma as_block_vec_total sizes x :
  length x = list_sum sizes -> 0 < length sizes -> exists b', as_block_vec (strides sizes) x = Ok b'.
Proof.
  intros Hx Hs. unfold as_block_vec. rewrite strides_length.
  destruct (Nat.eqb_spec (length sizes) 0); [lia|].
  replace (forallb _ (strides sizes)) with true; [eexists; reflexivity|].
  symmetry. apply forallb_forall. intros l Hl. apply forallb_forall. intros k Hk.
  apply Nat.ltb_lt. rewrite Hx. eapply strides_bound; eassumption.
Qed.

Lemma blk_map {X} (f : X -> X -> expr) (l : list X) i j d :
  i < length l -> j < length l -> blk (map (fun a => map (f a) l) l) i j = f (nth i l d) (nth j l d).
Proof.
  intros Hi Hj. unfold blk. rewrite (nth_indep _ [] (map (f d) l)) by (rewrite map_length; lia).
  rewrite (map_nth (fun a => map (f a) l)). rewrite (nth_indep _ EOther (f (nth i l d) d)) by (rewrite map_length; lia).
  rewrite map_nth. reflexivity.
Qed.

Lemma as_block_mat_splits sizes M A' :
  as_block_mat (strides sizes) M = Ok A' -> splits_mat sizes M A'.
Proof.
  unfold as_block_mat. destruct (_ =? 0); [discriminate|]. destruct (forallb _ _); [|discriminate].
  intros E. inversion E; subst. clear E. split; [|split].
  - unfold nbrows. rewrite map_length, strides_length. reflexivity.
  - intros i Hi. rewrite (nth_indep _ [] (map (fun ci => EMat (submat M [] ci)) (strides sizes)))
      by (rewrite map_length, strides_length; lia).
    rewrite (map_nth (fun ri => map (fun ci => EMat (submat M ri ci)) (strides sizes))), map_length, strides_length.
    reflexivity.
  - intros i j Hi Hj.
    rewrite (blk_map (fun ri ci => EMat (submat M ri ci)) (strides sizes) i j []) by (rewrite strides_length; lia).
    rewrite !strides_nth by assumption. eexists. split; [reflexivity|]. cbn [nr nc ent submat].
    rewrite !seq_length. split; [reflexivity|]. split; [reflexivity|].
    intros r c Hr Hc. rewrite !seq_nth by assumption. reflexivity.
Qed.

Lemma as_block_mat_total sizes M :
  nr M = list_sum sizes -> nc M = list_sum sizes -> 0 < length sizes ->
  exists A', as_block_mat (strides sizes) M = Ok A'.
Proof.
  intros Hr Hc Hs. unfold as_block_mat. rewrite strides_length.
  destruct (Nat.eqb_spec (length sizes) 0); [lia|].
  replace (forallb _ (strides sizes)) with true; [eexists; reflexivity|].
  symmetry. apply forallb_forall. intros l Hl. apply forallb_forall. intros k Hk.
  rewrite Hr, Hc. assert (k < list_sum sizes) by (eapply strides_bound; eassumption).
  rewrite (proj2 (Nat.ltb_lt k (list_sum sizes))) by assumption. reflexivity.
Qed.

(** Solving blockwise is solving monolithically. *)
Lemma splits_solves sizes M x A' b' xs :
  nc M = list_sum sizes ->
  splits_mat sizes M A' -> splits_vec sizes x b' -> map (@length Qc) xs = sizes ->
  (block_solves A' b' xs <-> forall i, i < list_sum sizes -> row_holds M x (concat xs) i).
Proof.
  intros Hc (N1 & _ & HM) (L & HV) Hxs.
  assert (Lb : length b' = length sizes) by (rewrite <- L, map_length; reflexivity).
  assert (Lx : length xs = length sizes) by (rewrite <- Hxs, map_length; reflexivity).
  assert (Nb : forall i, length (nth i b' []) = nth i sizes 0).
  { intros i. rewrite <- L. change 0 with (length (@nil Qc)) at 1. rewrite map_nth. reflexivity. }
  assert (Key : forall i r, i < length sizes -> r < nth i sizes 0 ->
     sumn (length xs) (fun j => vnth (mv (emat (blk A' i j)) (nth j xs [])) r) =
     sumn (nc M) (fun k => (ent M (off sizes i + r) k * vnth (concat xs) k)%Qc)).
  { intros i r Hi Hr. rewrite Hc, sumn_blocks, Lx. apply sumn_ext. intros j Hj.
    destruct (HM i j Hi Hj) as (m & -> & Rm & Cm & Em). cbn [emat].
    rewrite vnth_mv by (rewrite Rm; assumption). rewrite Cm. apply sumn_ext. intros c Hc'.
    rewrite Em by assumption. rewrite (vnth_concat xs sizes) by assumption. reflexivity. }
  split.
  - intros H k Hk. destruct (locate_inv _ _ Hk) as (i & r & Hi & Hr & ->).
    unfold row_holds. rewrite <- Key by assumption. rewrite <- HV by assumption.
    apply H; [lia|]. rewrite Nb. assumption.
  - intros H i r Hi Hr. rewrite Nb in Hr. rewrite Lb in Hi. rewrite Key by assumption.
    rewrite HV by assumption. apply (H (off sizes i + r)). apply off_bound; assumption.
Qed.
