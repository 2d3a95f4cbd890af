(** The converted matrix acts as the block matrix; nest against convert. *)
From Verif Require Import Base BaseProofs Mat MatProofs ConvertModel CollapseProofs CollapseTermProofs
  CollapseHaltProofs ConvertProofs.
From Coq Require Import Field.

(** ** Specification *)

(** A block applied to a vector: a number multiplies. *)
Definition apply_val (v : val) (x : vec) : vec :=
  match v with VMat A => mv A x | VNum a => vscale a x end.

(** Component [r] of block [i] of the product of the block matrix with values
    [vs] and the block vector [xs]. *)
Definition block_product (n : nat) (vs : nat -> nat -> val) (xs : list vec) (i r : nat) : Qc :=
  sumn n (fun j => vnth (apply_val (vs i j) (nth j xs [])) r).

(** Non-zero numbers only on the diagonal of square block rows. *)
Definition numbers_ok (b : bmat) (rs cs : list nat) : Prop :=
  forall i j a, i < nbrows b -> j < nbcols b -> den tiny (blk b i j) = Some (VNum a) ->
    a = q0 \/ (i = j /\ nth i rs 0 = nth j cs 0).

(** ** Proofs *)

Lemma sumn_blocks cs f :
  sumn (list_sum cs) f = sumn (length cs) (fun j => sumn (nth j cs 0) (fun c => f (off cs j + c))).
Proof.
  revert f. induction cs as [|s cs IH]; intros f; [reflexivity|].
  change (list_sum (s :: cs)) with (s + list_sum cs). cbn [length].
  rewrite sumn_app, sumn_first, IH. f_equal.
  apply sumn_ext. intros j Hj. cbn [nth]. apply sumn_ext. intros c Hc.
  unfold off. cbn [firstn]. change (list_sum (s :: firstn j cs)) with (s + list_sum (firstn j cs)).
  f_equal. lia.
Qed.

Lemma vnth_concat xs cs j c :
  map (@length Qc) xs = cs -> j < length cs -> c < nth j cs 0 ->
  vnth (concat xs) (off cs j + c) = vnth (nth j xs []) c.
Proof.
  intros <-. revert j. induction xs as [|x xs IH]; intros j Hj Hc; [cbn in Hj; lia|].
  destruct j as [|j]; cbn [map concat nth length] in *.
  - change (off (length x :: map (length (A:=Qc)) xs) 0) with 0. cbn [Nat.add].
    apply vnth_app_l. assumption.
  - unfold off. cbn [firstn].
    change (list_sum (length x :: firstn j (map (length (A:=Qc)) xs))) with
      (length x + off (map (length (A:=Qc)) xs) j).
    rewrite <- Nat.add_assoc, vnth_app_r. apply IH; [lia|assumption].
Qed.

Lemma block_action rs cs i j v x r :
  (forall A, v = VMat A -> nr A = nth i rs 0 /\ nc A = nth j cs 0) ->
  (forall a, v = VNum a -> a = q0 \/ (i = j /\ nth i rs 0 = nth j cs 0)) ->
  length x = nth j cs 0 -> r < nth i rs 0 ->
  sumn (nth j cs 0) (fun c => (block_entry rs cs i j v r c * vnth x c)%Qc) = vnth (apply_val v x) r.
Proof.
  intros HA Ha Hx Hr. destruct v as [A|a]; cbn [block_entry apply_val].
  - destruct (HA A eq_refl) as [E1 E2]. rewrite vnth_mv by lia. rewrite E2. reflexivity.
  - rewrite vnth_vscale. destruct (Ha a eq_refl) as [->|[-> E]].
    + transitivity q0.
      * apply sumn_zero. intros c Hc. destruct (_ && _); [destruct (r =? c)|]; unfold q0; ring.
      * unfold q0; ring.
    + rewrite Nat.eqb_refl, E, Nat.eqb_refl. cbn [andb].
      rewrite (sumn_single _ r).
      * rewrite Nat.eqb_refl. reflexivity.
      * lia.
      * intros c Hc Hne. destruct (Nat.eqb_spec r c); [congruence|]. unfold q0; ring.
Qed.

Theorem convert_commutes fuel b rs cs M (vs : nat -> nat -> val) xs :
  (forall i j, i < nbrows b -> j < nbcols b -> built (blk b i j)) ->
  (forall i j, i < nbrows b -> j < nbcols b -> den tiny (blk b i j) = Some (vs i j)) ->
  0 < nbrows b -> 0 < nbcols b ->
  sized b rs cs -> anchored b -> numbers_ok b rs cs ->
  convert_bmat fuel b = Ok M ->
  map (@length Qc) xs = cs ->
  mv M (convert_bvec xs) =
  convert_bvec (map (fun i => vtab (nth i rs 0) (block_product (nbcols b) vs xs i)) (seq 0 (nbrows b))).
Proof.
  intros HB HV Hm Hn HS HA HN HM Hx.
  assert (HD : forall i j, i < nbrows b -> j < nbcols b -> exists v, den tiny (blk b i j) = Some v) by eauto.
  destruct (convert_sound fuel b rs cs M HB HD Hm Hn HS HA HM) as (E1 & E2 & E3).
  destruct HS as (L1 & L2 & HS).
  set (ys := map _ _).
  assert (Ly : map (@length Qc) ys = rs).
  { unfold ys. rewrite map_map. apply (nth_ext _ _ 0 0); [rewrite map_length, seq_length; auto|].
    rewrite map_length, seq_length. intros i Hi. rewrite nth_map_seq by assumption. apply vtab_length. }
  assert (Lc : length (convert_bvec ys) = list_sum rs).
  { unfold convert_bvec. rewrite <- Ly. clear. induction ys as [|y ys IH]; [reflexivity|].
    cbn [concat map]. rewrite app_length, IH. reflexivity. }
  apply vec_ext; [rewrite mv_length, Lc; assumption|].
  rewrite mv_length, E1. intros k Hk.
  destruct (locate_inv rs k Hk) as (i & r & Hi & Hr & ->).
  rewrite vnth_mv by (rewrite E1; assumption).
  unfold convert_bvec at 2. rewrite (vnth_concat ys rs i r Ly Hi Hr). rewrite L1 in Hi.
  unfold ys. rewrite nth_map_seq by assumption. rewrite vnth_vtab by assumption.
  rewrite E2, sumn_blocks. unfold block_product. rewrite L2.
  apply sumn_ext. intros j Hj.
  etransitivity; [|apply (block_action rs cs i j (vs i j) (nth j xs []) r)].
  - apply sumn_ext. intros c Hc. rewrite (E3 i j (vs i j)) by auto. f_equal.
    unfold convert_bvec. apply vnth_concat; auto. rewrite L2. assumption.
  - intros A EA. apply HS; auto. rewrite HV by assumption. congruence.
  - intros a EA. apply (HN i j a); auto. rewrite HV by assumption. congruence.
  - rewrite <- Hx. rewrite (nth_indep _ 0 (length (@nil Qc))) by (rewrite map_length; rewrite <- Hx, map_length in L2; lia).
    symmetry. apply (map_nth (@length Qc)).
  - assumption.
Qed.

(** ** nest *)

Definition nest_entry (o : option mat) (r c : nat) : Qc :=
  match o with None => q0 | Some m => ent m r c end.

Lemma qmul_nonneg a : (q0 <= a * a)%Qc.
Proof.
  unfold Qcle, Qcmult, q0. cbn [this Q2Qc]. rewrite (Qred_correct (this a * this a)).
  destruct a as [[n d] H]. unfold Qle. cbn. nia.
Qed.

Lemma sumn_nonneg n f : (forall i, i < n -> (q0 <= f i)%Qc) -> (q0 <= sumn n f)%Qc.
Proof.
  induction n as [|n IH]; intros H; cbn; [apply Qcle_refl|].
  replace q0 with (q0 + q0)%Qc by (unfold q0; ring). apply Qcplus_le_compat; auto.
Qed.

Lemma sumn_ge n f k : (forall i, i < n -> (q0 <= f i)%Qc) -> k < n -> (f k <= sumn n f)%Qc.
Proof.
  induction n as [|n IH]; intros H Hk; [lia|]. cbn.
  destruct (Nat.eq_dec k n) as [->|Hne].
  - replace (f n) with (q0 + f n)%Qc at 1 by (unfold q0; ring).
    apply Qcplus_le_compat; [apply sumn_nonneg; auto|apply Qcle_refl].
  - replace (f k) with (f k + q0)%Qc by (unfold q0; ring).
    apply Qcplus_le_compat; [apply IH; [auto|lia]|auto].
Qed.

Lemma frob2_entry A r c : r < nr A -> c < nc A -> (ent A r c * ent A r c <= frob2 A)%Qc.
Proof.
  intros Hr Hc. unfold frob2.
  eapply Qcle_trans; [|apply (sumn_ge (nr A) (fun i => sumn (nc A) (fun j => (ent A i j * ent A i j)%Qc)) r); auto].
  - apply (sumn_ge (nc A) (fun j => (ent A r j * ent A r j)%Qc) c); auto. intros; apply qmul_nonneg.
  - intros. apply sumn_nonneg. intros; apply qmul_nonneg.
Qed.

Lemma Qcle_lt_trans' a b c : (a <= b)%Qc -> (b < c)%Qc -> (a < c)%Qc.
Proof. apply Qcle_lt_trans. Qed.

(** Block by block comparison of the two routes. *)
Theorem nest_vs_convert fuel tol b rs cs ns bs :
  (forall i j, i < nbrows b -> j < nbcols b -> built (blk b i j)) ->
  (forall i j, i < nbrows b -> j < nbcols b -> exists v, den tiny (blk b i j) = Some v) ->
  sized b rs cs -> anchored b ->
  nest fuel tol b = Ok ns -> convert_blocks fuel b = Ok bs ->
  forall i j v, i < nbrows b -> j < nbcols b -> den tiny (blk b i j) = Some v ->
  match v with
  | VMat _ =>
    (forall r c, r < nth i rs 0 -> c < nth j cs 0 ->
       nest_entry (nth j (nth i ns []) None) r c = ent (mnth bs i j) r c)
    \/ (i <> j /\ nth j (nth i ns []) None = None /\
        forall r c, r < nth i rs 0 -> c < nth j cs 0 ->
          (ent (mnth bs i j) r c * ent (mnth bs i j) r c < tol * tol)%Qc)
  | VNum a =>
    nth j (nth i ns []) None = None /\
    (forall r c, r < nth i rs 0 -> c < nth j cs 0 ->
       ent (mnth bs i j) r c =
       if (i =? j) && (nth i rs 0 =? nth j cs 0) && (r =? c) then a else q0)
  end.
Proof.
  intros HB HD HS HA HN HC i j v Hi Hj Hv.
  unfold convert_blocks in HC. rewrite (bmat_sizes_ok b rs cs) in HC by assumption. cbn [bind] in HC.
  destruct HS as (L1 & L2 & HS).
  destruct (mapM_seq_ok _ _ _ [] HC) as [_ H1]. specialize (H1 i Hi).
  destruct (mapM_seq_ok _ _ _ (mzero 0 0) H1) as [_ H2]. specialize (H2 j Hj). clear HC H1.
  change (nth j (nth i bs []) (mzero 0 0)) with (mnth bs i j) in H2.
  unfold nest in HN. destruct (mapM_seq_ok _ _ _ [] HN) as [_ K1]. specialize (K1 i Hi).
  destruct (mapM_seq_ok _ _ _ None K1) as [_ K2]. specialize (K2 j Hj). clear HN K1.
  assert (W := built_wf _ (HB i j Hi Hj)).
  assert (HM' : forall M, v = VMat M -> nr M = nth i rs 0 /\ nc M = nth j cs 0).
  { intros M ->. apply HS; assumption. }
  destruct (convert_block_sound fuel rs cs i j _ v (mnth bs i j) W Hv HM' H2) as (X1 & X2 & X3).
  destruct v as [V|a].
  - assert (Nn : forall a, blk b i j <> ENum a) by (intros a E; rewrite E in Hv; discriminate).
    unfold nest_block in K2. unfold convert_block in H2.
    destruct (collapse fuel (blk b i j)) as [r|] eqn:E; cbn [bind] in K2, H2; [|discriminate].
    destruct (collapse_sound fuel _ r W E) as (u & u' & U1 & U2 & U3).
    rewrite Hv in U2. inversion U2; subst u'.
    destruct (val_cases _ _ U1) as [(M & -> & ->)|(a & -> & ->)]; [|contradiction].
    inversion H2 as [HM]. rewrite <- HM in *. clear H2.
    assert (K3 : Ok (if negb (i =? j) && norm_lt M tol then None else Some M) = Ok (nth j (nth i ns []) None)).
    { destruct (blk b i j); try exact K2. exfalso. apply (Nn a). reflexivity. }
    inversion K3 as [K4].
    destruct (negb (i =? j) && norm_lt M tol) eqn:Q.
    + right. apply andb_true_iff in Q as [Q1 Q2]. apply andb_true_iff in Q2 as [_ Q2]. apply qltb_lt in Q2.
      split; [intros ->; rewrite Nat.eqb_refl in Q1; discriminate|]. split; [reflexivity|].
      intros r c Hr Hc. eapply Qcle_lt_trans; [|exact Q2]. apply frob2_entry; congruence.
    + left. reflexivity.
  - pose proof (built_num tiny _ a (HB i j Hi Hj) Hv) as E. rewrite E in K2. cbn in K2.
    inversion K2 as [K3]. split; [reflexivity|]. intros r c Hr Hc. rewrite X3 by assumption. cbn.
    destruct ((i =? j) && (nth i rs 0 =? nth j cs 0)); reflexivity.
Qed.
