(** Monolithic conversion of block matrices and vectors. *)
From Verif Require Import Base BaseProofs Mat MatProofs ConvertModel CollapseProofs CollapseTermProofs
  CollapseHaltProofs.
From Coq Require Import Field.

(** ** Specification *)

(** Offset of block [i]. *)
Definition off (sizes : list nat) (i : nat) : nat := list_sum (firstn i sizes).

(** Rectangular, with at least one block. *)
Definition rect_bmat (b : bmat) : Prop :=
  0 < nbrows b /\ 0 < nbcols b /\ Forall (fun row => length row = nbcols b) b.

(** The sizes [rs], [cs] are the ones the operators in [b] have. *)
Definition sized (b : bmat) (rs cs : list nat) : Prop :=
  length rs = nbrows b /\ length cs = nbcols b /\
  forall i j A, i < nbrows b -> j < nbcols b -> den tiny (blk b i j) = Some (VMat A) ->
    nr A = nth i rs 0 /\ nc A = nth j cs 0.

(** Every block row and every block column contains an operator. *)
Definition anchored (b : bmat) : Prop :=
  (forall i, i < nbrows b -> exists j, j < nbcols b /\ has_op (blk b i j) = true) /\
  (forall j, j < nbcols b -> exists i, i < nbrows b /\ has_op (blk b i j) = true).

(** Entry (r, c) of block (i, j): a number is that multiple of the identity on
    the diagonal of a square block row, and zero elsewhere. *)
Definition block_entry (rs cs : list nat) (i j : nat) (v : val) (r c : nat) : Qc :=
  match v with
  | VMat A => ent A r c
  | VNum a => if (i =? j) && (nth i rs 0 =? nth j cs 0) then (if r =? c then a else q0) else q0
  end.

(** ** Lists *)

Lemma mapM_seq {B} (f : nat -> res B) n (g : nat -> B) :
  (forall i, i < n -> f i = Ok (g i)) -> mapM f (seq 0 n) = Ok (map g (seq 0 n)).
Proof.
  intros H. apply mapM_map. apply Forall_forall. intros i Hi. apply in_seq in Hi. apply H. lia.
Qed.

Lemma mapM_seq_ok {B} (f : nat -> res B) n out d :
  mapM f (seq 0 n) = Ok out -> length out = n /\ forall i, i < n -> f i = Ok (nth i out d).
Proof.
  intros H. apply mapM_ok_forall in H.
  assert (G : forall s, Forall2 (fun x y => f x = Ok y) (seq s n) out ->
              length out = n /\ forall i, i < n -> f (s + i) = Ok (nth i out d)).
  { clear H. revert out. induction n as [|n IH]; intros out s H; cbn [seq] in H; inversion H; subst.
    - split; [reflexivity|]. intros; lia.
    - destruct (IH l' (S s) H4) as [L K]. split; [cbn; lia|].
      intros [|i] Hi; [rewrite Nat.add_0_r; assumption|]. cbn. rewrite <- K by lia. f_equal. lia. }
  apply (G 0). assumption.
Qed.

Lemma nth_map_seq {B} (f : nat -> B) n i d : i < n -> nth i (map f (seq 0 n)) d = f i.
Proof.
  intros H. rewrite (nth_indep _ d (f 0)) by (rewrite map_length, seq_length; lia).
  rewrite map_nth, seq_nth by lia. reflexivity.
Qed.

Lemma locate_off sizes i r :
  i < length sizes -> r < nth i sizes 0 -> locate sizes (off sizes i + r) = (i, r).
Proof.
  unfold off. revert i. induction sizes as [|s sizes IH]; intros i Hi Hr; [cbn in Hi; lia|].
  destruct i as [|i]; cbn [locate firstn] in *.
  - change (list_sum []) with 0. cbn [nth] in Hr. rewrite Nat.add_0_l.
    destruct (Nat.ltb_spec r s); [reflexivity|lia].
  - change (list_sum (s :: firstn i sizes)) with (s + list_sum (firstn i sizes)).
    cbn [nth length] in *.
    destruct (Nat.ltb_spec (s + list_sum (firstn i sizes) + r) s); [lia|].
    replace (s + list_sum (firstn i sizes) + r - s) with (list_sum (firstn i sizes) + r) by lia.
    rewrite IH by (assumption || lia). reflexivity.
Qed.

Lemma locate_inv sizes k : k < list_sum sizes ->
  exists i r, i < length sizes /\ r < nth i sizes 0 /\ k = off sizes i + r.
Proof.
  revert k. induction sizes as [|s sizes IH]; intros k Hk; [cbn in Hk; lia|].
  change (list_sum (s :: sizes)) with (s + list_sum sizes) in Hk.
  destruct (Nat.lt_ge_cases k s) as [H|H].
  - exists 0, k. cbn. repeat split; try lia.
  - destruct (IH (k - s)) as (i & r & H1 & H2 & H3); [lia|].
    exists (S i), r. cbn [length nth]. repeat split; try lia; auto.
    unfold off in *. cbn [firstn]. change (list_sum (s :: firstn i sizes)) with (s + list_sum (firstn i sizes)). lia.
Qed.

Lemma off_S sizes i : i < length sizes -> off sizes (S i) = off sizes i + nth i sizes 0.
Proof.
  unfold off. revert i. induction sizes as [|s sizes IH]; intros i Hi; [cbn in Hi; lia|].
  destruct i as [|i].
  - cbn [firstn nth]. change (list_sum []) with 0. change (list_sum [s]) with (s + 0). lia.
  - cbn [length] in Hi. change (firstn (S (S i)) (s :: sizes)) with (s :: firstn (S i) sizes).
    change (firstn (S i) (s :: sizes)) with (s :: firstn i sizes).
    change (list_sum (s :: firstn (S i) sizes)) with (s + list_sum (firstn (S i) sizes)).
    change (list_sum (s :: firstn i sizes)) with (s + list_sum (firstn i sizes)).
    rewrite IH by lia. cbn [nth]. lia.
Qed.

Lemma off_bound sizes i r : i < length sizes -> r < nth i sizes 0 -> off sizes i + r < list_sum sizes.
Proof.
  unfold off. revert i. induction sizes as [|s sizes IH]; intros i Hi Hr; [cbn in Hi; lia|].
  change (list_sum (s :: sizes)) with (s + list_sum sizes).
  destruct i as [|i]; cbn [firstn nth length] in *.
  - change (list_sum []) with 0. lia.
  - change (list_sum (s :: firstn i sizes)) with (s + list_sum (firstn i sizes)).
    specialize (IH i). lia.
Qed.

(** ** create_dims is the size of the value *)

Definition dims_of_val (v : val) : dims := match v with VMat A => Some (nr A, nc A) | VNum _ => None end.

Lemma first_some_in {A} (l : list (option A)) a : first_some l = Some a -> In (Some a) l.
Proof. induction l as [|[x|] l IH]; cbn; try discriminate; intros H; [inversion H; auto|auto]. Qed.

Lemma first_some_app {A} (l1 l2 : list (option A)) :
  first_some (l1 ++ l2) = match first_some l1 with Some a => Some a | None => first_some l2 end.
Proof. induction l1 as [|[x|] l1 IH]; cbn; auto. Qed.

Definition prod_dims (l : list dims) : dims :=
  match first_some l, first_some (rev l) with
  | Some (p, _), Some (_, q) => Some (p, q)
  | _, _ => None
  end.

Lemma first_some_rev_none {A} (l : list (option A)) : first_some l = None <-> first_some (rev l) = None.
Proof.
  assert (G : forall l : list (option A), first_some l = None -> first_some (rev l) = None).
  { induction l0 as [|[x|] l0 IH]; cbn; intros H; auto; try discriminate.
    rewrite first_some_app, IH by assumption. reflexivity. }
  split; [apply G|]. intros H. rewrite <- (rev_involutive l). apply G. assumption.
Qed.

Lemma prod_dims_cons d l : l <> [] ->
  prod_dims (d :: l) =
  match d, prod_dims l with
  | Some (p, q), Some (_, s) => Some (p, s)
  | Some d, None => Some d
  | None, x => x
  end.
Proof.
  intros _. unfold prod_dims. change (rev (d :: l)) with (rev l ++ [d]). rewrite first_some_app. cbn [first_some].
  destruct d as [[p q]|].
  - destruct (first_some l) as [[p' q']|] eqn:E.
    + destruct (first_some (rev l)) as [[p'' q'']|] eqn:E'; [reflexivity|].
      apply first_some_rev_none in E'. congruence.
    + rewrite (proj1 (first_some_rev_none l) E). reflexivity.
  - destruct (first_some l) as [[p' q']|] eqn:E; [|reflexivity].
    destruct (first_some (rev l)) as [[p'' q'']|]; reflexivity.
Qed.

Lemma create_dims_den neg e v : built e -> den neg e = Some v -> create_dims e = dims_of_val v.
Proof.
  revert v.
  induction e as [m|a|l IH|a b IHa IHb|a b IHa IHb|a IHa|w|m|m n act|] using expr_ind';
    intros v B D; cbn [den] in D; try (inversion D; subst; reflexivity).
  - inversion B as [| |? _ Bf _| | | | | | |]; subst. clear B.
    change (prod_dims (map create_dims l) = dims_of_val v).
    revert v D. induction l as [|x l IHl]; intros v D; [discriminate|].
    inversion IH as [|? ? Hx Hl]; subst. inversion Bf as [|? ? Bx Bl]; subst.
    destruct l as [|y l].
    + cbn [map oprod] in D. cbn [map]. unfold prod_dims. cbn [first_some rev app]. rewrite (Hx v Bx D).
      destruct v; reflexivity.
    + cbn [map] in D. rewrite oprod_cons in D by discriminate.
      apply omul_some in D as (p & q & Ep & Eq & Em).
      specialize (IHl Hl Bl q Eq). cbn [map]. rewrite prod_dims_cons by discriminate.
      cbn [map] in IHl. rewrite IHl, (Hx p Bx Ep).
      destruct p, q; cbn in Em |- *; inversion Em; subst; try reflexivity.
      destruct (nc m =? nr m0); [|discriminate]. inversion Em; reflexivity.
  - inversion B; subst. cbn [create_dims].
    destruct (den neg a) as [u|]; [|discriminate]. destruct (den neg b) as [w|]; [|discriminate].
    cbn [obind] in D. rewrite (IHa u), (IHb w) by auto.
    destruct u, w; cbn in D |- *;
      repeat match type of D with context [if ?c then _ else _] => destruct c eqn:? end; inversion D; subst; try reflexivity.
    cbn. match goal with H : (nr ?M =? nc ?M) = true |- _ => apply Nat.eqb_eq in H; rewrite H end; reflexivity.
  - inversion B; subst. cbn [create_dims].
    destruct (den neg a) as [u|]; [|discriminate]. destruct (den neg b) as [w|]; [|discriminate].
    cbn [obind] in D. rewrite (IHa u), (IHb w) by auto.
    destruct u, w; cbn in D |- *;
      repeat match type of D with context [if ?c then _ else _] => destruct c eqn:? end; inversion D; subst; try reflexivity.
    cbn. match goal with H : (nr ?M =? nc ?M) = true |- _ => apply Nat.eqb_eq in H; rewrite H end; reflexivity.
  - inversion B; subst. cbn [create_dims]. destruct (den neg a) as [u|]; [|discriminate].
    rewrite (IHa u) by auto. inversion D; subst. destruct u; reflexivity.
  - destruct (forallb _ _); inversion D; reflexivity.
Qed.

(** ** convert *)

Lemma bmat_sizes_ok b rs cs :
  (forall i j, i < nbrows b -> j < nbcols b -> built (blk b i j)) ->
  (forall i j, i < nbrows b -> j < nbcols b -> exists v, den tiny (blk b i j) = Some v) ->
  sized b rs cs -> anchored b -> bmat_sizes b = Ok (rs, cs).
Proof.
  intros HB HD (L1 & L2 & HS) (AR & AC). unfold bmat_sizes.
  rewrite (mapM_seq _ _ (fun i => nth i rs 0)).
  - cbn [bind]. rewrite (mapM_seq _ _ (fun j => nth j cs 0)).
    + cbn [bind]. f_equal. f_equal; (apply (nth_ext _ _ 0 0); [rewrite map_length, seq_length; auto|]);
        rewrite map_length, seq_length; intros; rewrite nth_map_seq by assumption; reflexivity.
    + intros j Hj. destruct (first_some _) as [q|] eqn:E.
      * apply first_some_in, in_map_iff in E as (i & E & Hi). apply in_seq in Hi.
        destruct (HD i j) as [v Hv]; [lia|lia|]. rewrite (create_dims_den tiny _ v) in E by (auto; apply HB; lia).
        destruct v as [A|]; [|discriminate]. cbn in E. inversion E; subst.
        destruct (HS i j A) as [_ ->]; [lia|lia|assumption|]. reflexivity.
      * exfalso. destruct (AC j Hj) as (i & Hi & Ho). destruct (HD i j Hi Hj) as [v Hv].
        destruct (has_op_mat tiny _ v (HB i j Hi Hj) Ho Hv) as [A ->].
        assert (Hn : forall l, In i l -> first_some (map (fun i => option_map snd (create_dims (blk b i j))) l) <> None).
        { induction l as [|k l IHl]; [intros []|]. intros [->|Hin]; cbn.
          - rewrite (create_dims_den tiny _ (VMat A)) by (auto; apply HB; lia). discriminate.
          - destruct (option_map _ _); [discriminate|]. apply IHl; assumption. }
        apply (Hn (seq 0 (nbrows b))); [apply in_seq; lia|assumption].
  - intros i Hi. destruct (first_some _) as [q|] eqn:E.
    + apply first_some_in, in_map_iff in E as (j & E & Hj). apply in_seq in Hj.
      destruct (HD i j) as [v Hv]; [lia|lia|]. rewrite (create_dims_den tiny _ v) in E by (auto; apply HB; lia).
      destruct v as [A|]; [|discriminate]. cbn in E. inversion E; subst.
      destruct (HS i j A) as [-> _]; [lia|lia|assumption|]. reflexivity.
    + exfalso. destruct (AR i Hi) as (j & Hj & Ho). destruct (HD i j Hi Hj) as [v Hv].
      destruct (has_op_mat tiny _ v (HB i j Hi Hj) Ho Hv) as [A ->].
      assert (Hn : forall l, In j l -> first_some (map (fun j => option_map fst (create_dims (blk b i j))) l) <> None).
      { induction l as [|k l IHl]; [intros []|]. intros [->|Hin]; cbn.
        - rewrite (create_dims_den tiny _ (VMat A)) by (auto; apply HB; lia). discriminate.
        - destruct (option_map _ _); [discriminate|]. apply IHl; assumption. }
      apply (Hn (seq 0 (nbcols b))); [apply in_seq; lia|assumption].
Qed.

Lemma convert_block_sound fuel rs cs i j e v A :
  wf_chains e -> den tiny e = Some v ->
  (forall M, v = VMat M -> nr M = nth i rs 0 /\ nc M = nth j cs 0) ->
  convert_block fuel i j (nth i rs 0) (nth j cs 0) e = Ok A ->
  nr A = nth i rs 0 /\ nc A = nth j cs 0 /\
  forall r c, r < nth i rs 0 -> c < nth j cs 0 -> ent A r c = block_entry rs cs i j v r c.
Proof.
  intros W D S. unfold convert_block.
  destruct (collapse fuel e) as [r|] eqn:E; cbn [bind]; [|discriminate].
  destruct (collapse_sound fuel e r W E) as (u & u' & H1 & H2 & H3).
  rewrite D in H2. inversion H2; subst u'.
  destruct (val_cases _ _ H1) as [(M & -> & ->)|(a & -> & ->)].
  - intros K; inversion K; subst A. destruct v as [V|]; [|contradiction].
    destruct (S V eq_refl) as [S1 S2]. destruct H3 as (X1 & X2 & X3).
    split; [congruence|]. split; [congruence|].
    intros r c Hr Hc. cbn. apply X3; lia.
  - destruct v as [|a']; [contradiction|]. cbn in H3. subst a'. cbn [block_entry].
    destruct ((i =? j) && (nth i rs 0 =? nth j cs 0)) eqn:Q.
    + intros K; inversion K; subst A. apply andb_true_iff in Q as [Q1 Q2]. apply Nat.eqb_eq in Q2.
      cbn. auto.
    + unfold zero_matrix. destruct ((nth j cs 0 =? 0) && (0 <? nth i rs 0)); [discriminate|].
      intros K; inversion K; subst A. cbn. auto.
Qed.

(** Everything [convert] returns is the block matrix with the blocks at their
    offsets. *)
Theorem convert_sound fuel b rs cs M :
  (forall i j, i < nbrows b -> j < nbcols b -> built (blk b i j)) ->
  (forall i j, i < nbrows b -> j < nbcols b -> exists v, den tiny (blk b i j) = Some v) ->
  0 < nbrows b -> 0 < nbcols b ->
  sized b rs cs -> anchored b -> convert_bmat fuel b = Ok M ->
  nr M = list_sum rs /\ nc M = list_sum cs /\
  forall i j v r c, i < nbrows b -> j < nbcols b -> den tiny (blk b i j) = Some v ->
    r < nth i rs 0 -> c < nth j cs 0 ->
    ent M (off rs i + r) (off cs j + c) = block_entry rs cs i j v r c.
Proof.
  intros HB HD Hm Hn HS HA. unfold convert_bmat, convert_blocks.
  rewrite (bmat_sizes_ok b rs cs) by assumption. cbn [bind].
  destruct (mapM _ (seq 0 (nbrows b))) as [bs|] eqn:E; cbn [bind]; [|discriminate].
  destruct (mapM_seq_ok _ _ _ [] E) as [Lb Hb]. clear E.
  assert (Hblk : forall i j, i < nbrows b -> j < nbcols b ->
            convert_block fuel i j (nth i rs 0) (nth j cs 0) (blk b i j) = Ok (mnth bs i j)).
  { intros i j Hi Hj. specialize (Hb i Hi). destruct (mapM_seq_ok _ _ _ (mzero 0 0) Hb) as [_ Hj'].
    apply Hj'. assumption. }
  destruct HS as (L1 & L2 & HS).
  assert (Hs : forall i j v, i < nbrows b -> j < nbcols b -> den tiny (blk b i j) = Some v ->
     nr (mnth bs i j) = nth i rs 0 /\ nc (mnth bs i j) = nth j cs 0 /\
     forall r c, r < nth i rs 0 -> c < nth j cs 0 -> ent (mnth bs i j) r c = block_entry rs cs i j v r c).
  { intros i j v Hi Hj Hv. apply (convert_block_sound fuel rs cs i j (blk b i j) v).
    - apply built_wf, HB; assumption.
    - assumption.
    - intros A ->. apply HS; assumption.
    - apply Hblk; assumption. }
  unfold numpy_block_mat.
  assert (R : map (fun i => nr (mnth bs i 0)) (seq 0 (nbrows b)) = rs).
  { apply (nth_ext _ _ 0 0); [rewrite map_length, seq_length; auto|].
    rewrite map_length, seq_length. intros i Hi. rewrite nth_map_seq by assumption.
    destruct (HD i 0 Hi Hn) as [v Hv]. apply (Hs i 0 v); assumption. }
  assert (C : map (fun j => nc (mnth bs 0 j)) (seq 0 (nbcols b)) = cs).
  { apply (nth_ext _ _ 0 0); [rewrite map_length, seq_length; auto|].
    rewrite map_length, seq_length. intros j Hj. rewrite nth_map_seq by assumption.
    destruct (HD 0 j Hm Hj) as [v Hv]. apply (Hs 0 j v); assumption. }
  rewrite R, C. destruct (forallb _ _); [|discriminate].
  intros K; inversion K; subst M; clear K. cbn [nr nc ent].
  split; [reflexivity|]. split; [reflexivity|].
  intros i j v r c Hi Hj Hv Hr Hc.
  rewrite (locate_off rs i r), (locate_off cs j c) by (rewrite ?L1, ?L2; assumption).
  apply (Hs i j v); assumption.
Qed.

(** ... and it does return on collapsible blocks. *)
Theorem convert_returns b rs cs :
  (forall i j, i < nbrows b -> j < nbcols b -> built (blk b i j) /\ collapsible (blk b i j)) ->
  (forall i j, i < nbrows b -> j < nbcols b -> exists v, den tiny (blk b i j) = Some v) ->
  0 < nbrows b -> 0 < nbcols b -> (forall j, j < nbcols b -> 0 < nth j cs 0) ->
  sized b rs cs -> anchored b ->
  exists N, forall fuel, N <= fuel -> exists M, convert_bmat fuel b = Ok M.
Proof.
  intros HBC HD Hm Hn Hpos HS HA.
  assert (HB : forall i j, i < nbrows b -> j < nbcols b -> built (blk b i j)) by (intros; apply HBC; assumption).
  (* one fuel for all blocks *)
  assert (HN : exists N, forall fuel, N <= fuel -> forall i, i < nbrows b -> forall j, j < nbcols b ->
            exists r, collapse fuel (blk b i j) = Ok r).
  { assert (H1 : forall i, i < nbrows b -> forall n, n <= nbcols b -> exists N, forall fuel, N <= fuel ->
        forall j, j < n -> exists r, collapse fuel (blk b i j) = Ok r).
    { intros i Hi. induction n as [|n IH]; intros Hle; [exists 0; intros; lia|].
      destruct IH as [N1 HN1]; [lia|]. destruct (HD i n) as [v Hv]; [lia|lia|].
      destruct (HBC i n) as [B' C']; [lia|lia|].
      destruct (collapse_halts _ v B' C' Hv) as (N2 & r & HN2).
      exists (N1 + N2). intros fuel Hf j Hj. destruct (Nat.eq_dec j n) as [->|Hne].
      - exists r. apply HN2. lia.
      - apply HN1; lia. }
    assert (H2 : forall m, m <= nbrows b -> exists N, forall fuel, N <= fuel -> forall i, i < m -> forall j, j < nbcols b ->
            exists r, collapse fuel (blk b i j) = Ok r).
    { induction m as [|m IH]; intros Hle; [exists 0; intros; lia|].
      destruct IH as [N1 HN1]; [lia|]. destruct (H1 m) with (n := nbcols b) as [N2 HN2]; [lia|lia|].
      exists (N1 + N2). intros fuel Hf i Hi j Hj. destruct (Nat.eq_dec i m) as [->|Hne].
      - apply HN2; lia.
      - apply HN1; lia. }
    apply (H2 (nbrows b)). lia. }
  destruct HN as [N HN]. exists N. intros fuel Hf. specialize (HN fuel Hf).
  unfold convert_bmat, convert_blocks. rewrite (bmat_sizes_ok b rs cs) by assumption. cbn [bind].
  destruct HS as (L1 & L2 & HS).
  assert (Hok : forall i j, i < nbrows b -> j < nbcols b ->
     exists A, convert_block fuel i j (nth i rs 0) (nth j cs 0) (blk b i j) = Ok A /\
               nr A = nth i rs 0 /\ nc A = nth j cs 0).
  { intros i j Hi Hj. destruct (HN i Hi j Hj) as [r Hr]. destruct (HD i j Hi Hj) as [v Hv].
    destruct (collapse_sound fuel _ r (built_wf _ (HB i j Hi Hj)) Hr) as (u & u' & K1 & K2 & K3).
    assert (exists A, convert_block fuel i j (nth i rs 0) (nth j cs 0) (blk b i j) = Ok A) as [A HA'].
    { unfold convert_block. rewrite Hr. cbn [bind].
      destruct (val_cases _ _ K1) as [(M & -> & ->)|(a & -> & ->)]; [eauto|].
      destruct ((i =? j) && _); [eauto|]. unfold zero_matrix.
      destruct (Nat.eqb_spec (nth j cs 0) 0) as [Z|Z]; [specialize (Hpos j Hj); lia|]. cbn. eauto. }
    exists A. split; [assumption|].
    destruct (convert_block_sound fuel rs cs i j _ v A (built_wf _ (HB i j Hi Hj)) Hv) as (X & Y & _); auto.
    intros M ->. apply HS; assumption. }
  set (f := fun i j => match convert_block fuel i j (nth i rs 0) (nth j cs 0) (blk b i j) with Ok A => A | Err _ => mzero 0 0 end).
  assert (Hf' : forall i j, i < nbrows b -> j < nbcols b ->
     convert_block fuel i j (nth i rs 0) (nth j cs 0) (blk b i j) = Ok (f i j) /\ nr (f i j) = nth i rs 0 /\ nc (f i j) = nth j cs 0).
  { intros i j Hi Hj. destruct (Hok i j Hi Hj) as (A & HA' & X & Y). unfold f. rewrite HA'. auto. }
  rewrite (mapM_seq _ _ (fun i => map (f i) (seq 0 (nbcols b)))).
  2: { intros i Hi. rewrite (mapM_seq _ _ (f i)); [reflexivity|]. intros j Hj. apply Hf'; assumption. }
  cbn [bind]. unfold numpy_block_mat.
  assert (Hnth : forall i j, i < nbrows b -> j < nbcols b ->
     mnth (map (fun i => map (f i) (seq 0 (nbcols b))) (seq 0 (nbrows b))) i j = f i j).
  { intros i j Hi Hj. unfold mnth. rewrite nth_map_seq by assumption. rewrite nth_map_seq by assumption. reflexivity. }
  set (bs := map (fun i => map (f i) (seq 0 (nbcols b))) (seq 0 (nbrows b))) in *.
  replace (forallb _ _) with true; [eauto|]. symmetry.
  apply forallb_forall. intros i Hi. apply in_seq in Hi. apply forallb_forall. intros j Hj. apply in_seq in Hj.
  rewrite !nth_map_seq by lia. rewrite !Hnth by lia.
  destruct (Hf' i j) as (_ & X & Y); [lia|lia|]. destruct (Hf' i 0) as (_ & X' & _); [lia|lia|].
  destruct (Hf' 0 j) as (_ & _ & Y'); [lia|lia|]. rewrite X, X', Y, Y', !Nat.eqb_refl. reflexivity.
Qed.
