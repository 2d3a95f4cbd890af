(** Specification vocabulary and lemmas for SystemModel.v. *)
From Verif Require Import Base BaseProofs Mat MatProofs ListUtilsModel ListUtilsProofs ConvertModel CollapseProofs CollapseTermProofs CollapseHaltProofs ConvertProofs ConvertActionProofs BcModel BcProofs BcApplyProofs BcUpdaterProofs BcReturnsProofs.
From Verif Require UflModel UflProofs BlockFormModel BlockFormProofs.
From Verif Require Import ReducedModel ReducedProofs SystemModel.
Local Open Scope nat_scope.
Local Close Scope Q_scope.
Local Close Scope Qc_scope.

(** ** Specification vocabulary *)

(** The blocks (lists of lists as ii_assemble takes them) hold the forms [c i j]
    and [d i]; 0 stands for the empty form. *)
Definition blocks2 (n : nat) (rows : list (list BlockFormModel.block)) (c : nat -> nat -> BlockFormModel.form) : Prop :=
  BlockFormProofs.shaped n rows /\
  forall i j, i < n -> j < n -> exists b, BlockFormProofs.blk rows i j = Some b /\ BlockFormProofs.gathered b (c i j).
Definition blocks1 (n : nat) (bs : list BlockFormModel.block) (d : nat -> BlockFormModel.form) : Prop :=
  length bs = n /\ forall i, i < n -> exists b, nth_error bs i = Some b /\ BlockFormProofs.gathered b (d i).

(** ** Lists *)

Lemma map_tab {X Y} (f : X -> Y) (g : nat -> Y) l :
  (forall i u, nth_error l i = Some u -> f u = g i) -> map f l = map g (seq 0 (length l)).
Proof.
  assert (G : forall k, (forall i u, nth_error l i = Some u -> f u = g (k + i)) -> map f l = map g (seq k (length l))).
  { induction l as [|x l IH]; intros k H; [reflexivity|]. cbn [map length seq]. f_equal.
    - rewrite (H 0 x eq_refl). f_equal. lia.
    - apply IH. intros i u Hi. rewrite (H (S i) u Hi). f_equal. lia. }
  intros H. apply G. exact H.
Qed.
Lemma mapM_tab {X Y} (f : X -> res Y) (g : nat -> Y) l :
  (forall i u, nth_error l i = Some u -> f u = Ok (g i)) -> mapM f l = Ok (map g (seq 0 (length l))).
Proof.
  assert (G : forall k, (forall i u, nth_error l i = Some u -> f u = Ok (g (k + i))) -> mapM f l = Ok (map g (seq k (length l)))).
  { induction l as [|x l IH]; intros k H; [reflexivity|]. rewrite mapM_cons. rewrite (H 0 x eq_refl). cbn [bind].
    rewrite (IH (S k)) by (intros i u Hi; rewrite (H (S i) u Hi); do 2 f_equal; lia). cbn [bind map length seq].
    do 3 f_equal. lia. }
  intros H. apply G. exact H.
Qed.
Lemma nth_error_lt {X} (l : list X) i u : nth_error l i = Some u -> i < length l.
Proof. intros H. apply nth_error_Some. congruence. Qed.

(** ** Assembly of the blocks *)

Section Assembly.
Variable asmb : BlockFormModel.form -> res tensor.

Lemma rows_rect n rows : 0 < n -> BlockFormProofs.shaped n rows -> rect [n; n] (rows_tree rows).
Proof.
  intros Hn [L R]. exists (map (fun r => ListUtilsModel.Node (map ListUtilsModel.Leaf r)) rows).
  split; [reflexivity|]. split; [rewrite map_length; assumption|]. split; [assumption|].
  apply Forall_forall. intros t Ht. apply in_map_iff in Ht. destruct Ht as (r & <- & Hr).
  exists (map ListUtilsModel.Leaf r). split; [reflexivity|]. split; [rewrite map_length; auto|]. split; [assumption|].
  apply Forall_forall. intros t Ht. apply in_map_iff in Ht. destruct Ht as (b & <- & _). exists b. reflexivity.
Qed.
Lemma blocks_rect n bs : 0 < n -> length bs = n -> rect [n] (blocks_tree bs).
Proof.
  intros Hn L. exists (map ListUtilsModel.Leaf bs). split; [reflexivity|]. split; [rewrite map_length; assumption|]. split; [assumption|].
  apply Forall_forall. intros t Ht. apply in_map_iff in Ht. destruct Ht as (b & <- & _). exists b. reflexivity.
Qed.

Definition block_tensor (b : BlockFormModel.block) : tensor :=
  match assemble_block asmb b with Ok t => t | Err _ => TNum q0 end.

Lemma assembled_mat fa n rows (T : nat -> nat -> tensor) :
  0 < n -> BlockFormProofs.shaped n rows -> 2 <= fa ->
  (forall i j b, BlockFormProofs.blk rows i j = Some b -> assemble_block asmb b = Ok (T i j)) ->
  exists r, ListUtilsModel.assemble (assemble_block asmb) fa (rows_tree rows) = Ok r /\
    as_bmat r = Ok (map (fun i => map (fun j => entry_op (ListUtilsModel.Leaf (Tensor (T i j)))) (seq 0 n)) (seq 0 n)).
Proof.
  intros Hn SH Hf HT. assert (RC := rows_rect n rows Hn SH).
  destruct (assemble_in_place (assemble_block asmb) block_tensor [n; n] (rows_tree rows) fa ltac:(discriminate) RC) as (out & E & RO & G).
  - intros a Ha. unfold rows_tree in Ha. cbn [leaves] in Ha. apply in_flat_map in Ha. destruct Ha as (t & Ht & Ha).
    apply in_map_iff in Ht. destruct Ht as (row & <- & Hr). cbn [leaves] in Ha. apply in_flat_map in Ha. destruct Ha as (t & Ht & Ha).
    apply in_map_iff in Ht. destruct Ht as (b & <- & Hb). cbn in Ha. destruct Ha as [<-|[]].
    destruct (In_nth_error _ _ Hr) as (i & Hi). destruct (In_nth_error _ _ Hb) as (j & Hj).
    unfold block_tensor. rewrite (HT i j b); [reflexivity|]. unfold BlockFormProofs.blk. rewrite Hi. assumption.
  - assumption.
  - exists (BlockMat out). split; [exact E|]. cbn [as_bmat].
    destruct RO as (l & -> & L & _ & F). cbn [children bind]. rewrite (mapM_tab _ (fun i => map (fun j => entry_op (ListUtilsModel.Leaf (Tensor (T i j)))) (seq 0 n))); [rewrite L; reflexivity|]. intros i row Hi.
    rewrite Forall_forall in F. destruct (F row (nth_error_In _ _ Hi)) as (l' & -> & L' & _ & F'). cbn [children bind]. f_equal.
    rewrite (map_tab _ (fun j => entry_op (ListUtilsModel.Leaf (Tensor (T i j))))); [rewrite L'; reflexivity|]. intros j u Hj. rewrite Forall_forall in F'. destruct (F' u (nth_error_In _ _ Hj)) as (a & ->).
    assert (Hi' : i < n) by (rewrite <- L; eapply nth_error_lt; eassumption).
    assert (Hj' : j < n) by (rewrite <- L'; eapply nth_error_lt; eassumption).
    destruct SH as [SL SR]. destruct (nth_error rows i) as [r|] eqn:Er; [|apply nth_error_None in Er; lia].
    destruct (nth_error r j) as [b|] eqn:Eb; [|apply nth_error_None in Eb; rewrite (SR r (nth_error_In _ _ Er)) in Eb; lia].
    assert (GB : get (rows_tree rows) [i; j] = Some b).
    { cbn [rows_tree get]. rewrite nth_error_map, Er. cbn [option_map get]. rewrite nth_error_map, Eb. reflexivity. }
    specialize (G [i; j]). rewrite GB in G. cbn [get] in G. rewrite Hi, Hj in G. cbn [get option_map] in G. injection G as ->. unfold block_tensor. rewrite (HT i j b); [reflexivity|].
    unfold BlockFormProofs.blk. rewrite Er. assumption.
Qed.

Lemma assembled_vec fa n bs (T : nat -> vec) :
  0 < n -> length bs = n -> 2 <= fa ->
  (forall i b, nth_error bs i = Some b -> assemble_block asmb b = Ok (TVec (T i))) ->
  exists r, ListUtilsModel.assemble (assemble_block asmb) fa (blocks_tree bs) = Ok r /\
    as_bvec r = Ok (map T (seq 0 n)).
Proof.
  intros Hn SL Hf HT. assert (RC := blocks_rect n bs Hn SL).
  destruct (assemble_in_place (assemble_block asmb) block_tensor [n] (blocks_tree bs) fa ltac:(discriminate) RC) as (out & E & RO & G).
  - intros a Ha. unfold blocks_tree in Ha. cbn [leaves] in Ha. apply in_flat_map in Ha. destruct Ha as (t & Ht & Ha).
    apply in_map_iff in Ht. destruct Ht as (b & <- & Hb). cbn in Ha. destruct Ha as [<-|[]].
    destruct (In_nth_error _ _ Hb) as (i & Hi). unfold block_tensor. rewrite (HT i b Hi). reflexivity.
  - assumption.
  - exists (BlockVec out). split; [exact E|]. cbn [as_bvec].
    destruct RO as (l & -> & L & _ & F). cbn [children bind]. rewrite (mapM_tab _ T); [rewrite L; reflexivity|]. intros i u Hi.
    rewrite Forall_forall in F. destruct (F u (nth_error_In _ _ Hi)) as (a & ->).
    assert (Hi' : i < n) by (rewrite <- L; eapply nth_error_lt; eassumption).
    destruct (nth_error bs i) as [b|] eqn:Eb; [|apply nth_error_None in Eb; lia].
    assert (GB : get (blocks_tree bs) [i] = Some b).
    { cbn [blocks_tree get]. rewrite nth_error_map, Eb. reflexivity. }
    specialize (G [i]). rewrite GB in G. cbn [get] in G. rewrite Hi in G. cbn [get option_map] in G. injection G as ->. unfold block_tensor. rewrite (HT i b Eb). reflexivity.
Qed.
End Assembly.

(** ** Block sums *)

Lemma vdot_concat sizes vs ws : map (@length Qc) vs = sizes -> map (@length Qc) ws = sizes ->
  vdot (concat vs) (concat ws) = sumn (length sizes) (fun i => vdot (nth i vs []) (nth i ws [])).
Proof.
  intros Hv Hw. unfold vdot. rewrite length_concat, Hv, sumn_blocks. apply sumn_ext. intros i Hi.
  assert (Ln : length (nth i vs []) = nth i sizes 0) by (rewrite <- Hv; symmetry; change 0 with (length (@nil Qc)); apply map_nth).
  rewrite Ln. apply sumn_ext. intros r Hr. rewrite (vnth_concat vs sizes), (vnth_concat ws sizes) by assumption. reflexivity.
Qed.

Lemma nth_length (sizes : list nat) (xs : list vec) i : map (@length Qc) xs = sizes -> length (nth i xs []) = nth i sizes 0.
Proof. intros <-. symmetry. change 0 with (length (@nil Qc)). apply map_nth. Qed.

Lemma split_vec sizes : forall v : vec, length v = list_sum sizes -> exists vs, map (@length Qc) vs = sizes /\ concat vs = v.
Proof.
  induction sizes as [|s sizes IH]; intros v L.
  - exists []. destruct v; [auto|discriminate].
  - change (list_sum (s :: sizes)) with (s + list_sum sizes) in L.
    destruct (IH (skipn s v)) as (vs & H1 & H2); [rewrite skipn_length; lia|].
    exists (firstn s v :: vs). cbn [map concat]. rewrite firstn_length_le, H1, H2 by lia. split; [reflexivity|]. apply firstn_skipn.
Qed.

(** ** The block matrix, given what its blocks stand for *)

Section Blocks.
Variables (n : nat) (sizes : list nat) (E : nat -> nat -> ConvertModel.expr).
Variable aval : nat -> nat -> vec -> vec -> Qc.
Hypothesis Hn : 0 < n.
Hypothesis Ls : length sizes = n.
Hypothesis Pos : forall j, j < n -> 0 < nth j sizes 0.

Definition full (i j : nat) : Prop :=
  exists M, stands_for (E i j) M /\ nr M = nth i sizes 0 /\ nc M = nth j sizes 0 /\
    forall v u, length v = nth i sizes 0 -> length u = nth j sizes 0 -> vdot v (mv M u) = aval i j v u.
Definition empty (i j : nat) : Prop := E i j = ENum q0 /\ forall v u, aval i j v u = q0.

Hypothesis Each : forall i j, i < n -> j < n -> full i j \/ empty i j.
Hypothesis Row : forall i, i < n -> exists j, j < n /\ full i j.
Hypothesis Col : forall j, j < n -> exists i, i < n /\ full i j.

Definition the_bmat : bmat := map (fun i => map (E i) (seq 0 n)) (seq 0 n).

Lemma the_rows : nbrows the_bmat = n.
Proof. unfold nbrows, the_bmat. rewrite map_length, seq_length. reflexivity. Qed.
Lemma the_cols : nbcols the_bmat = n.
Proof. unfold the_bmat. destruct n as [|k]; [lia|]. cbn [seq map nbcols length]. rewrite map_length, seq_length. reflexivity. Qed.
Lemma the_blk i j : i < n -> j < n -> blk the_bmat i j = E i j.
Proof. intros Hi Hj. unfold blk, the_bmat. rewrite !nth_map_seq by assumption. reflexivity. Qed.

Definition block_val (i j : nat) : val := match den tiny (E i j) with Some v => v | None => VNum q0 end.

Lemma stands_den e M : stands_for e M -> exists A, den tiny e = Some (VMat A) /\ meq A M.
Proof.
  intros (_ & _ & _ & D). specialize (D tiny). destruct (den tiny e) as [ [A|]|]; cbn in D; try contradiction. eauto.
Qed.
Lemma den_block i j : i < n -> j < n -> den tiny (E i j) = Some (block_val i j).
Proof.
  intros Hi Hj. unfold block_val. destruct (Each i j Hi Hj) as [(M & S & _)|[-> _]]; [|reflexivity].
  destruct (stands_den _ _ S) as (A & -> & _). reflexivity.
Qed.

Lemma system_converts : exists N, forall fc, N <= fc -> exists AA, convert_bmat fc the_bmat = Ok AA /\
  nr AA = list_sum sizes /\ nc AA = list_sum sizes /\
  forall us vs, map (@length Qc) us = sizes -> map (@length Qc) vs = sizes ->
    vdot (concat vs) (mv AA (concat us)) = sumn n (fun i => sumn n (fun j => aval i j (nth i vs []) (nth j us []))).
Proof.
  assert (B1 : forall i j, i < nbrows the_bmat -> j < nbcols the_bmat -> built (blk the_bmat i j) /\ collapsible (blk the_bmat i j)).
  { rewrite the_rows, the_cols. intros i j Hi Hj. rewrite the_blk by assumption.
    destruct (Each i j Hi Hj) as [(M & (S1 & S2 & _) & _)|[-> _]]; split; try assumption; constructor. }
  assert (B2 : forall i j, i < nbrows the_bmat -> j < nbcols the_bmat -> den tiny (blk the_bmat i j) = Some (block_val i j)).
  { rewrite the_rows, the_cols. intros i j Hi Hj. rewrite the_blk by assumption. apply den_block; assumption. }
  assert (B3 : sized the_bmat sizes sizes).
  { split; [rewrite the_rows; assumption|]. split; [rewrite the_cols; assumption|]. rewrite the_rows, the_cols. intros i j A Hi Hj D.
    rewrite the_blk in D by assumption. destruct (Each i j Hi Hj) as [(M & S & D1 & D2 & _)|[Z _]].
    - destruct (stands_den _ _ S) as (A' & D' & (Q1 & Q2 & _)). rewrite D' in D. injection D as <-. split; congruence.
    - rewrite Z in D. discriminate. }
  assert (B4 : anchored the_bmat).
  { split; rewrite ?the_rows, ?the_cols.
    - intros i Hi. destruct (Row i Hi) as (j & Hj & (M & (_ & _ & S & _) & _)). exists j. split; [assumption|]. rewrite the_blk by assumption. assumption.
    - intros j Hj. destruct (Col j Hj) as (i & Hi & (M & (_ & _ & S & _) & _)). exists i. split; [assumption|]. rewrite the_blk by assumption. assumption. }
  assert (B5 : numbers_ok the_bmat sizes sizes).
  { intros i j a. rewrite the_rows, the_cols. intros Hi Hj D. rewrite the_blk in D by assumption. left.
    destruct (Each i j Hi Hj) as [(M & S & _)|[Z _]].
    - destruct (stands_den _ _ S) as (A' & D' & _). rewrite D' in D. discriminate.
    - rewrite Z in D. cbn in D. congruence. }
  destruct (convert_returns the_bmat sizes sizes) as (N & HN); try assumption.
  - intros i j Hi Hj. eexists. apply B2; assumption.
  - rewrite the_rows. assumption.
  - rewrite the_cols. assumption.
  - rewrite the_cols. assumption.
  - exists N. intros fc Hf. destruct (HN fc Hf) as (AA & EA). exists AA. split; [assumption|].
    destruct (convert_sound fc the_bmat sizes sizes AA) as (N1 & N2 & _); try assumption.
    { intros i j Hi Hj. apply (B1 i j Hi Hj). }
    { intros i j Hi Hj. eexists. apply B2; assumption. }
    { rewrite the_rows. assumption. }
    { rewrite the_cols. assumption. }
    split; [assumption|]. split; [assumption|]. intros us vs Hu Hv.
    change (concat us) with (convert_bvec us). rewrite (convert_commutes fc the_bmat sizes sizes AA block_val us); try assumption.
    2: { intros i j Hi Hj. apply (B1 i j Hi Hj). }
    2: { rewrite the_rows. assumption. }
    2: { rewrite the_cols. assumption. }
    rewrite the_rows, the_cols. unfold convert_bvec.
    rewrite (vdot_concat sizes).
    2: assumption.
    2: { rewrite map_map. rewrite <- Ls. rewrite (list_tab sizes 0) at 2. apply map_ext. intros i. apply vtab_length. }
    rewrite Ls. apply sumn_ext. intros i Hi. rewrite nth_map_seq by assumption.
    unfold vdot. rewrite (nth_length sizes) by assumption.
    transitivity (sumn (nth i sizes 0) (fun r => sumn n (fun j => (vnth (nth i vs []) r * vnth (apply_val (block_val i j) (nth j us [])) r)%Qc))).
    { apply sumn_ext. intros r Hr. rewrite vnth_vtab by assumption. unfold block_product. rewrite <- sumn_scal. reflexivity. }
    rewrite sumn_swap. apply sumn_ext. intros j Hj.
    destruct (Each i j Hi Hj) as [(M & S & D1 & D2 & D3)|[Z V]].
    + rewrite <- D3 by (apply nth_length; assumption). unfold vdot. rewrite (nth_length sizes) by assumption.
      apply sumn_ext. intros r Hr. unfold block_val. destruct (stands_den _ _ S) as (A & -> & Q). cbn [apply_val].
      rewrite (mv_meq A M) by assumption. reflexivity.
    + rewrite V. unfold block_val. rewrite Z. cbn [den apply_val].
      apply sumn_zero. intros r Hr.
      assert (X : vnth (vscale q0 (nth j us [])) r = q0).
      { unfold vscale. destruct (Nat.lt_ge_cases r (length (nth j us []))) as [H|H].
        - rewrite vnth_vtab by assumption. unfold q0. ring.
        - unfold vnth. apply nth_overflow. rewrite vtab_length. assumption. }
      rewrite X. unfold q0. ring.
Qed.
End Blocks.

(** ** Rows and test vectors *)

Lemma rows_tested (m : nat) AA (bb x : vec) (K : nat -> Prop) :
  (forall k, K k \/ ~ K k) -> nr AA = m -> nc AA = m -> length bb = m ->
  ((forall i, i < m -> ~ K i -> row_holds AA bb x i) <->
   (forall v, length v = m -> (forall k, K k -> vnth v k = q0) -> vdot v (mv AA x) = vdot v bb)).
Proof.
  intros Dec Hr Hc Hb. split.
  - intros H v Lv Z. unfold vdot. apply sumn_ext. intros i Hi. rewrite Lv in Hi. destruct (Dec i) as [k|nk].
    + rewrite (Z i k). unfold q0. ring.
    + f_equal. rewrite vnth_mv by lia. apply H; assumption.
  - intros H i Hi NK. unfold row_holds. rewrite <- vnth_mv by lia.
    specialize (H (vtab m (fun k => if k =? i then q1 else q0)) (vtab_length _ _)).
    assert (U : forall y, vdot (vtab m (fun k => if k =? i then q1 else q0)) y = vnth y i).
    { intros y. unfold vdot. rewrite vtab_length. rewrite (sumn_single _ i); [|assumption|].
      - rewrite vnth_vtab, Nat.eqb_refl by assumption. unfold q1. ring.
      - intros k Hk Hne. rewrite vnth_vtab by assumption. rewrite (proj2 (Nat.eqb_neq k i)) by congruence. unfold q0. ring. }
    rewrite !U in H. apply H. intros k Hk.
    destruct (Nat.lt_ge_cases k m) as [L|L]; [|unfold vnth; apply nth_overflow; rewrite vtab_length; assumption].
    rewrite vnth_vtab by assumption. destruct (Nat.eqb_spec k i) as [->|]; [contradiction|reflexivity].
Qed.

Lemma rows_solve m M (r x : vec) : nr M = m -> length r = m -> (mv M x = r <-> forall i, i < m -> row_holds M r x i).
Proof.
  intros Hr Lr. split.
  - intros H i Hi. unfold row_holds. rewrite <- H at 1. symmetry. apply vnth_mv. lia.
  - intros H. apply vec_ext; [rewrite mv_length; congruence|]. rewrite mv_length. intros i Hi. rewrite vnth_mv by assumption.
    apply H. congruence.
Qed.

Lemma constrained_dec pairs k : constrained pairs k \/ ~ constrained pairs k.
Proof. unfold constrained. destruct (in_dec Nat.eq_dec k (map fst pairs)); auto. Qed.

Lemma apply_bc_pair fuel A b arg diag sym out :
  apply_bc fuel (ABlock A) (VBlock b) arg diag sym false = Ok out ->
  exists A' b', out = RPair (ABlock A') (VBlock b').
Proof.
  unfold apply_bc. destruct (nothing_to_do arg); [intros H; injection H as <-; eauto|]. cbn [bind].
  destruct (per_block _ _ _) as [l|]; cbn [bind]; [|discriminate].
  destruct (py_assert _); cbn [bind]; [|discriminate].
  destruct (negb _); [intros H; injection H as <-; eauto|].
  destruct (convert_bmat fuel A) as [AA|]; cbn [bind]; [|discriminate].
  destruct (py_assert _); cbn [bind]; [|discriminate].
  destruct (global_pairs _ _) as [pairs|]; cbn [bind]; [|discriminate].
  destruct (if _ =? 0 then _ else _); cbn [bind]; [|discriminate].
  destruct (set_values _ _ _) as [x|]; cbn [bind]; [|discriminate].
  destruct ((if sym then zero_rows_columns else zero_rows) AA _ diag x _) as [AA' bb'].
  destruct (as_block_vec _ _) as [b'|]; cbn [bind]; [|discriminate].
  destruct (as_block_mat _ _) as [A'|]; cbn [bind]; [|discriminate].
  intros H; injection H as <-; eauto.
Qed.

(** ** The whole way *)

Section Whole.
Variables (w : world) (valid : UflModel.expr -> Prop) (integrate : nat -> vtree -> Qc).
Variables (sp : UflModel.attr -> nat -> nat -> nat -> nat) (mt : UflModel.attr -> nat -> nat -> nat -> nat -> res mat).
Variables (ord : list UflModel.term -> list UflModel.term) (dfa : store -> BlockFormModel.form -> res tensor).
Variables (st : store) (fa : nat).
Let mods := modules w sp mt.
Let asmb := xii_assemble w mods ord dfa fa st.
Let fv := form_value w mods integrate st.

Hypothesis ORD : BlockFormProofs.an_order ord.
Hypothesis VAL : role_closed valid.
Hypothesis RED : reductions_ok w sp.
Hypothesis DFA : assembles_plain w mods integrate valid dfa.

Variables (W : list nat) (rows : list (list BlockFormModel.block)) (bs : list BlockFormModel.block).
Variables (c : nat -> nat -> BlockFormModel.form) (d : nat -> BlockFormModel.form).
Let n := length W.
Let sizes := map (w_dim w) W.

Hypothesis NE : W <> [].
Hypothesis POS : forall V, In V W -> 0 < w_dim w V.
Hypothesis ST2 : blocks2 n rows c.
Hypothesis ST1 : blocks1 n bs d.
Hypothesis FC : forall i j V U, nth_error W i = Some V -> nth_error W j = Some U -> c i j <> [] ->
  form_fine w valid st (Some V) (Some U) (c i j).
Hypothesis FD : forall i V, nth_error W i = Some V -> form_fine w valid st (Some V) None (d i).
Hypothesis FIT : forall i j x, i < n -> j < n -> In x (c i j) \/ In x (d i) -> matrices_fit w sp mt (w_imesh w (fst x)) (snd x).
Hypothesis ROWS : forall i, i < n -> exists j, j < n /\ c i j <> [].
Hypothesis COLS : forall j, j < n -> exists i, i < n /\ c i j <> [].
Hypothesis FUEL2 : forall i j x, i < n -> j < n -> In x (c i j) -> reductions mods (snd x) + 1 < fa.
Hypothesis FUEL1 : forall i x, i < n -> In x (d i) -> reductions mods (snd x) + 1 < fa.

Let Tm i j := match BlockFormProofs.blk rows i j with Some b => block_tensor asmb b | None => TNum q0 end.
Let E i j := entry_op (ListUtilsModel.Leaf (Tensor (Tm i j))).
Let Bv i := match nth_error bs i with Some b => match block_tensor asmb b with TVec v => v | _ => [] end | None => [] end.

Lemma sys_n : 0 < n.
Proof. unfold n. destruct W; [contradiction|cbn; lia]. Qed.
Lemma sys_len : length sizes = n.
Proof. apply map_length. Qed.
Lemma sys_space i : i < n -> exists V, nth_error W i = Some V /\ nth i sizes 0 = w_dim w V.
Proof.
  intros Hi. destruct (nth_error W i) as [V|] eqn:EV; [|apply nth_error_None in EV; fold n in EV; lia].
  exists V. split; [reflexivity|]. apply nth_error_nth. unfold sizes. rewrite nth_error_map, EV. reflexivity.
Qed.
Lemma sys_fuel : 2 <= fa.
Proof.
  destruct (sys_space 0 sys_n) as (V & EV & _). destruct (FD 0 V EV) as [ND _].
  destruct (d 0) as [|x l] eqn:ED; [contradiction|]. assert (H := FUEL1 0 x sys_n). rewrite ED in H. specialize (H (or_introl eq_refl)). lia.
Qed.

Lemma sys_block i j : i < n -> j < n ->
  exists b, BlockFormProofs.blk rows i j = Some b /\ assemble_block asmb b = Ok (Tm i j) /\
    ((c i j <> [] /\ full sizes E (fun i j => fv (c i j)) i j) \/ (c i j = [] /\ empty E (fun i j => fv (c i j)) i j)).
Proof.
  intros Hi Hj. destruct ST2 as [_ S2]. destruct (S2 i j Hi Hj) as (b & Eb & G). exists b. split; [assumption|].
  assert (ET : Tm i j = block_tensor asmb b) by (unfold Tm; rewrite Eb; reflexivity).
  destruct (sys_space i Hi) as (V & EV & DV). destruct (sys_space j Hj) as (U & EU & DU).
  destruct G as [ [-> Ec]|[-> NEc]].
  - split; [rewrite ET; reflexivity|]. right. split; [assumption|]. split; [unfold E; rewrite ET; reflexivity|].
    intros v u. rewrite Ec. reflexivity.
  - destruct (assemble_correct w mods integrate valid ord dfa VAL ORD DFA (modules_ok w sp mt RED) fa st (c i j) (Some V) (Some U)) as (r & Er & R).
    + left. discriminate.
    + apply form_fine_ok; [assumption|intros x Hx; apply (FIT i j); auto|]. apply FC; assumption.
    + intros x Hx. apply (FUEL2 i j); assumption.
    + assert (EA : assemble_block asmb (BlockFormModel.BForm (c i j)) = Ok r) by exact Er.
      assert (EB : Tm i j = r) by (rewrite ET; unfold block_tensor; rewrite EA; reflexivity).
      split; [rewrite EB; assumption|]. left. split; [assumption|].
      destruct r as [e|b|q]; try contradiction. destruct R as (M & R0 & R1 & R2 & R3).
      exists M. split; [unfold E; rewrite EB; assumption|]. rewrite DV, DU. auto.
Qed.
Lemma sys_full i j : i < n -> j < n -> c i j <> [] -> full sizes E (fun i j => fv (c i j)) i j.
Proof. intros Hi Hj H. destruct (sys_block i j Hi Hj) as (b & _ & _ & [ [_ F]|[Z _]]); [assumption|contradiction]. Qed.

Lemma sys_vec i : i < n ->
  exists b, nth_error bs i = Some b /\ assemble_block asmb b = Ok (TVec (Bv i)) /\ length (Bv i) = nth i sizes 0 /\
    forall v, length v = nth i sizes 0 -> vdot v (Bv i) = fv (d i) v [].
Proof.
  intros Hi. destruct ST1 as [_ S1]. destruct (S1 i Hi) as (b & Eb & G). exists b. split; [assumption|].
  destruct (sys_space i Hi) as (V & EV & DV). destruct (FD i V EV) as [ND FF].
  destruct G as [ [_ Ec]|[-> _]]; [contradiction|].
  destruct (assemble_correct w mods integrate valid ord dfa VAL ORD DFA (modules_ok w sp mt RED) fa st (d i) (Some V) None) as (r & Er & R).
  - left. discriminate.
  - apply form_fine_ok; [assumption|intros x Hx; apply (FIT i i); auto|]. split; assumption.
  - intros x Hx. apply (FUEL1 i); assumption.
  - assert (EA : assemble_block asmb (BlockFormModel.BForm (d i)) = Ok r) by exact Er.
    destruct r as [e|b|q]; try contradiction. destruct R as (R1 & R2).
    assert (EB : Bv i = b) by (unfold Bv; rewrite Eb; unfold block_tensor; rewrite EA; reflexivity).
    rewrite EB, DV. split; [assumption|]. split; [assumption|]. intros v Hv. apply R2. assumption.
Qed.

Definition weak_form (us vs : list vec) : Prop :=
  sumn n (fun i => sumn n (fun j => fv (c i j) (nth i vs []) (nth j us []))) = sumn n (fun i => fv (d i) (nth i vs []) []).

Lemma sys_rhs vs : map (@length Qc) vs = sizes ->
  vdot (concat vs) (concat (map Bv (seq 0 n))) = sumn n (fun i => fv (d i) (nth i vs []) []).
Proof.
  intros Hv. rewrite (vdot_concat sizes).
  - rewrite sys_len. apply sumn_ext. intros i Hi. rewrite nth_map_seq by assumption.
    destruct (sys_vec i Hi) as (b & _ & _ & _ & H). apply H. apply nth_length. assumption.
  - assumption.
  - rewrite map_map, <- sys_len. rewrite (list_tab sizes 0) at 2. apply map_ext_in. intros i Hi. apply in_seq in Hi.
    rewrite sys_len in Hi. destruct (sys_vec i) as (b & _ & _ & H & _); [lia|assumption].
Qed.

(** The assembled blocks, and the system they make. *)
Lemma sys_assembled bcs diag sym fc :
  exists A b, linear_system asmb fa fc rows bs bcs diag sym =
    (do out <- apply_bc fc (ABlock A) (VBlock b) bcs diag sym false;
     match out with
     | RPair (ABlock A') (VBlock b') => do M <- convert_bmat fc A'; Ok (M, convert_bvec b')
     | _ => Err TypeError
     end) /\ A = the_bmat n E /\ b = map Bv (seq 0 n) /\ map (@length Qc) b = sizes.
Proof.
  destruct (assembled_mat asmb fa n rows Tm sys_n (proj1 ST2) sys_fuel) as (rA & EA & BA).
  { intros i j b Hb. assert (H : i < n /\ j < n).
    { unfold BlockFormProofs.blk in Hb. destruct (nth_error rows i) as [r|] eqn:Er; [|discriminate].
      destruct ST2 as [ [L R] _]. split; [rewrite <- L; eapply nth_error_lt; eassumption|].
      rewrite <- (R r (nth_error_In _ _ Er)). eapply nth_error_lt; eassumption. }
    destruct (sys_block i j) as (b' & Eb & H' & _); [tauto..|]. rewrite Hb in Eb. injection Eb as ->. assumption. }
  destruct (assembled_vec asmb fa n bs Bv sys_n (proj1 ST1) sys_fuel) as (rb & EB & BB).
  { intros i b Hb. assert (H : i < n) by (rewrite <- (proj1 ST1); eapply nth_error_lt; eassumption).
    destruct (sys_vec i H) as (b' & Eb & H' & _). rewrite Hb in Eb. injection Eb as ->. assumption. }
  exists (the_bmat n E), (map Bv (seq 0 n)). split; [|split; [reflexivity|split; [reflexivity|] ] ].
  - unfold linear_system. rewrite EA. cbn [bind]. rewrite EB. cbn [bind]. rewrite BA. cbn [bind]. rewrite BB. reflexivity.
  - rewrite map_map, <- sys_len. rewrite (list_tab sizes 0) at 2. apply map_ext_in. intros i Hi. apply in_seq in Hi.
    rewrite sys_len in Hi. destruct (sys_vec i) as (b & _ & _ & H & _); [lia|assumption].
Qed.

Lemma sys_converts : exists N, forall fc, N <= fc -> exists AA, convert_bmat fc (the_bmat n E) = Ok AA /\
  nr AA = list_sum sizes /\ nc AA = list_sum sizes /\
  forall us vs, map (@length Qc) us = sizes -> map (@length Qc) vs = sizes ->
    vdot (concat vs) (mv AA (concat us)) = sumn n (fun i => sumn n (fun j => fv (c i j) (nth i vs []) (nth j us []))).
Proof.
  apply (system_converts n sizes E (fun i j => fv (c i j)) sys_n sys_len).
  - intros j Hj. destruct (sys_space j Hj) as (V & EV & ->). apply POS. apply (nth_error_In _ _ EV).
  - intros i j Hi Hj. destruct (sys_block i j Hi Hj) as (b & _ & _ & [ [_ F]|[_ F]]); [left|right]; assumption.
  - intros i Hi. destruct (ROWS i Hi) as (j & Hj & H). exists j. split; [assumption|]. apply sys_full; assumption.
  - intros j Hj. destruct (COLS j Hj) as (i & Hi & H). exists i. split; [assumption|]. apply sys_full; assumption.
Qed.

Theorem system_conditions bcs diag sym :
  let pairs := prescribed false sizes bcs in
  ok_arg false n bcs -> pairs <> [] -> (forall k, constrained pairs k -> k < list_sum sizes) -> diag <> q0 ->
  exists N, forall fc, N <= fc -> exists M r,
    linear_system asmb fa fc rows bs bcs diag sym = Ok (M, r) /\
    nr M = list_sum sizes /\ nc M = list_sum sizes /\ length r = list_sum sizes /\
    forall us, map (@length Qc) us = sizes ->
      (mv M (concat us) = r <->
       (forall k v, assigned pairs k v -> vnth (concat us) k = v) /\
       (forall vs, map (@length Qc) vs = sizes -> (forall k, constrained pairs k -> vnth (concat vs) k = q0) -> weak_form us vs)).
Proof.
  intros pairs OK NP RG DG. destruct sys_converts as (N & HN). exists (S N). intros fc Hf.
  destruct fc as [|fc]; [lia|]. destruct (HN (S fc) ltac:(lia)) as (AA & EC & Nr & Nc & VAA).
  destruct (sys_assembled bcs diag sym (S fc)) as (A & b & EL & EA & Eb & Lb).
  destruct (apply_bc_returns (S fc) (ABlock A) (VBlock b) bcs diag sym false AA) as (out & EO); cbn [vec_blocks mat_blocks is_plain]; rewrite ?Lb; try assumption; try discriminate.
  { rewrite EA. assumption. }
  { rewrite EA, Eb, map_length, seq_length. apply the_rows. }
  { rewrite Eb, map_length, seq_length. assumption. }
  { auto. }
  destruct (apply_bc_pair _ _ _ _ _ _ _ EO) as (A' & b' & ->).
  assert (NP' : prescribed (is_plain (ABlock A)) (map (@length Qc) (vec_blocks (VBlock b))) bcs <> []) by (cbn [is_plain vec_blocks]; rewrite Lb; assumption).
  destruct (apply_bc_reassembles _ _ _ _ _ _ _ _ fc EO ltac:(discriminate) NP') as (AA' & Ae & be & M & EC' & EL' & Lb' & Eb' & EM & QM & _).
  cbn [vec_blocks mat_blocks out_A out_b is_plain] in *. rewrite Lb in *.
  rewrite EA in EC'. rewrite EC in EC'. injection EC' as <-.
  exists M, be. rewrite EL, EO. cbn [bind]. rewrite EM. cbn [bind]. rewrite Eb'. split; [reflexivity|].
  assert (Lc : length (concat b) = list_sum sizes) by (rewrite length_concat, Lb; reflexivity).
  pose proof EL' as (P1 & P2 & P3 & _). destruct QM as (Q1 & Q2 & Q3).
  split; [congruence|]. split; [congruence|]. split; [congruence|].
  intros us Hu. rewrite (mv_meq M Ae) by (repeat split; assumption).
  assert (EQ : (forall i, i < length (concat b) -> row_holds Ae be (concat us) i) <->
    (forall k v, assigned pairs k v -> vnth (concat us) k = v) /\
    (forall i, i < length (concat b) -> ~ constrained pairs i -> row_holds AA (concat b) (concat us) i)).
  { apply eliminated_solutions with sym diag; [assumption|congruence|congruence|rewrite Lc; assumption|assumption]. }
  rewrite Lc in EQ. rewrite (rows_solve (list_sum sizes)) by congruence. rewrite EQ.
  rewrite (rows_tested (list_sum sizes) AA (concat b) (concat us) (constrained pairs) (constrained_dec pairs)) by congruence.
  apply and_iff_compat_l. split.
  - intros H vs Hv Z. specialize (H (concat vs)). unfold weak_form. rewrite <- VAA, <- sys_rhs by assumption. rewrite <- Eb.
    apply H; [rewrite length_concat, Hv; reflexivity|assumption].
  - intros H v Lv Z. destruct (split_vec sizes v Lv) as (vs & Hv & <-). specialize (H vs Hv Z). unfold weak_form in H.
    rewrite VAA by assumption. rewrite Eb, sys_rhs by assumption. assumption.
Qed.

Theorem system_free bcs diag sym : nothing_to_do bcs = true ->
  exists N, forall fc, N <= fc -> exists M r,
    linear_system asmb fa fc rows bs bcs diag sym = Ok (M, r) /\
    nr M = list_sum sizes /\ nc M = list_sum sizes /\ length r = list_sum sizes /\
    forall us, map (@length Qc) us = sizes ->
      (mv M (concat us) = r <-> forall vs, map (@length Qc) vs = sizes -> weak_form us vs).
Proof.
  intros ND. destruct sys_converts as (N & HN). exists N. intros fc Hf. destruct (HN fc Hf) as (AA & EC & Nr & Nc & VAA).
  destruct (sys_assembled bcs diag sym fc) as (A & b & EL & EA & Eb & Lb). exists AA, (concat b).
  rewrite EL, apply_bc_nothing by assumption. cbn [bind]. rewrite EA, EC. cbn [bind]. split; [reflexivity|].
  assert (Lc : length (concat b) = list_sum sizes) by (rewrite length_concat, Lb; reflexivity).
  split; [assumption|]. split; [assumption|]. split; [assumption|]. intros us Hu.
  rewrite (rows_solve (list_sum sizes)) by assumption.
  assert (T := rows_tested (list_sum sizes) AA (concat b) (concat us) (fun _ => False) (fun _ => or_intror (fun x => x)) Nr Nc Lc).
  split.
  - intros H vs Hv. unfold weak_form. rewrite <- VAA, <- sys_rhs by assumption. rewrite <- Eb.
    apply (proj1 T); [auto|rewrite length_concat, Hv; reflexivity|contradiction].
  - intros H i Hi. apply (proj2 T); [|assumption|auto]. intros v Lv _. destruct (split_vec sizes v Lv) as (vs & Hv & <-).
    specialize (H vs Hv). unfold weak_form in H. rewrite VAA by assumption. rewrite Eb, sys_rhs by assumption. assumption.
Qed.
End Whole.
