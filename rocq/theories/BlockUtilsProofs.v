(** Specification vocabulary and proofs for BlockUtilsModel.v. *)
From Coq Require Import Sorting.Sorted Permutation.
From Verif Require Import Base BaseProofs Mat MatProofs BlockUtilsModel.

(** ** Specification vocabulary *)

(** Strictly increasing, ending at [n]. *)
Definition valid_offsets (o : list Z) (n : nat) : Prop :=
  o <> [] /\ StronglySorted Z.lt o /\ last o 0%Z = Z.of_nat n.

(** Blocks number a .. b-1. *)
Definition seg {X} (bs : list X) (a b : Z) : list X := firstn (Z.to_nat b - Z.to_nat a) (skipn (Z.to_nat a) bs).
(** Lower end of group [k]: the offset before, 0 for the first. *)
Definition low (o : list Z) (k : nat) : Z := nth k (0%Z :: o) 0%Z.

(** A group with a single member is that member. *)
Definition grp (l : list vec) : bobj := match l with [v] => BV v | _ => BB (map BV l) end.
(** A single group is returned without a list around it. *)
Definition wrap (l : list bobj) : bobj := match l with [b] => b | _ => BB l end.

(** Sum of the inner products of corresponding blocks. *)
Definition bdot (xs ys : list vec) : Qc := sumn (length xs) (fun k => vdot (nth k xs []) (nth k ys [])).

(** ** Python sequences *)

Lemma py_get_nat {X} (l : list X) k d : k < length l -> py_get l (Z.of_nat k) = Ok (nth k l d).
Proof.
  intros H. unfold py_get, norm_index. destruct (Z.ltb_spec (Z.of_nat k) 0); [lia|].
  destruct (Z.ltb_spec (Z.of_nat k) 0); [lia|]. rewrite Nat2Z.id.
  rewrite (nth_error_nth' l d) by assumption. reflexivity.
Qed.

Lemma py_get_norm {X} (l : list X) i k d :
  norm_index (length l) i = Z.of_nat k -> k < length l -> py_get l i = Ok (nth k l d).
Proof.
  intros E H. unfold py_get. rewrite E. destruct (Z.ltb_spec (Z.of_nat k) 0); [lia|]. rewrite Nat2Z.id.
  rewrite (nth_error_nth' l d) by assumption. reflexivity.
Qed.

Lemma clamp_nat n k : k <= n -> clamp n (Z.of_nat k) = k.
Proof. intros H. unfold clamp, norm_index. destruct (Z.ltb_spec (Z.of_nat k) 0); lia. Qed.

Lemma clamp_pos n z : (0 <= z <= Z.of_nat n)%Z -> clamp n z = Z.to_nat z.
Proof. intros H. unfold clamp, norm_index. destruct (Z.ltb_spec z 0); lia. Qed.

Lemma py_slice_seg {X} (l : list X) a b :
  (0 <= a <= b)%Z -> (b <= Z.of_nat (length l))%Z -> py_slice l a b = seg l a b.
Proof. intros H1 H2. unfold py_slice, seg. rewrite !clamp_pos by lia. reflexivity. Qed.

Lemma replace_nth_length {X} (l : list X) k x : k < length l -> length (replace_nth l k x) = length l.
Proof. intros H. unfold replace_nth. rewrite app_length, firstn_length. cbn [length]. rewrite skipn_length. lia. Qed.

Lemma nth_replace_nth {X} (l : list X) k x i d :
  k < length l -> nth i (replace_nth l k x) d = if i =? k then x else nth i l d.
Proof.
  intros H. unfold replace_nth. destruct (Nat.eqb_spec i k) as [->|N].
  - rewrite app_nth2; rewrite firstn_length; [|lia]. replace (k - Nat.min k (length l)) with 0 by lia. reflexivity.
  - destruct (Nat.lt_ge_cases i k).
    + rewrite app_nth1 by (rewrite firstn_length; lia).
      rewrite <- (firstn_skipn k l) at 2. rewrite app_nth1 by (rewrite firstn_length; lia). reflexivity.
    + rewrite app_nth2; rewrite firstn_length; [|lia].
      replace (i - Nat.min k (length l)) with (S (i - S k)) by lia. cbn [nth].
      rewrite <- (firstn_skipn (S k) l) at 2. rewrite app_nth2; rewrite firstn_length; [|lia].
      f_equal. lia.
Qed.

Lemma py_set_norm {X} (l : list X) i k x :
  norm_index (length l) i = Z.of_nat k -> k < length l -> py_set l i x = Ok (replace_nth l k x).
Proof.
  intros E H. unfold py_set. rewrite E.
  destruct (Z.ltb_spec (Z.of_nat k) 0); [lia|]. destruct (Z.leb_spec (Z.of_nat (length l)) (Z.of_nat k)); [lia|].
  cbn [orb]. rewrite Nat2Z.id. reflexivity.
Qed.

Lemma norm_nat n k : norm_index n (Z.of_nat k) = Z.of_nat k.
Proof. unfold norm_index. destruct (Z.ltb_spec (Z.of_nat k) 0); lia. Qed.

(** ** Offsets *)

Lemma increasing_sorted s : is_increasing s = true <-> s <> [] /\ StronglySorted Z.lt s.
Proof.
  split.
  - intros H. split; [intros ->; discriminate|]. apply Sorted_StronglySorted; [intros x y z; lia|].
    induction s as [|x [|y s] IH]; [constructor|repeat constructor|].
    cbn [is_increasing] in H. apply andb_true_iff in H. destruct H as [H1 H2]. apply Z.ltb_lt in H1.
    constructor; [apply IH; exact H2|constructor; exact H1].
  - intros [N H]. induction s as [|x [|y s] IH]; [congruence|reflexivity|].
    inversion H as [|? ? HS HF]; subst. inversion HF; subst. cbn [is_increasing]. apply andb_true_iff. split.
    + apply Z.ltb_lt. assumption.
    + apply IH; [discriminate|assumption].
Qed.

Lemma last_offset_last s : s <> [] -> last_offset s = Ok (last s 0%Z).
Proof.
  intros H. destruct (exists_last H) as (s' & x & ->). unfold last_offset. rewrite rev_app_distr. cbn [rev app].
  rewrite last_last. reflexivity.
Qed.

Lemma regroup_init_iff o n : (exists offs, regroup_init o n = Ok offs) <-> valid_offsets o n.
Proof.
  unfold regroup_init, valid_offsets. split.
  - intros [offs H]. assert (N : o <> []) by (intros ->; discriminate).
    rewrite (last_offset_last o N) in H. cbn [bind] in H.
    destruct (Z.eqb_spec (Z.of_nat n) (last o 0%Z)) as [E|E]; cbn [py_assert bind] in H; [|discriminate].
    destruct (is_increasing o) eqn:I; cbn [py_assert bind] in H; [|discriminate].
    apply increasing_sorted in I. split; [assumption|]. split; [apply I|congruence].
  - intros (N & S & L). rewrite (last_offset_last o N). cbn [bind]. rewrite L, Z.eqb_refl. cbn [py_assert bind].
    rewrite (proj2 (increasing_sorted o) (conj N S)). cbn [py_assert bind]. eexists; reflexivity.
Qed.

Lemma regroup_init_value o n offs : regroup_init o n = Ok offs -> offs = 0%Z :: o.
Proof.
  unfold regroup_init. destruct (last_offset o); cbn [bind]; [|discriminate].
  destruct (Z.eqb _ _); cbn [py_assert bind]; [|discriminate].
  destruct (is_increasing o); cbn [py_assert bind]; [|discriminate]. congruence.
Qed.

Lemma pairs_of_length x s : length (pairs_of (x :: s)) = length s.
Proof. revert x. induction s as [|y s IH]; intros x; [reflexivity|]. cbn [pairs_of length]. f_equal. apply IH. Qed.

Lemma pairs_of_nth s k d : S k < length s -> nth k (pairs_of s) (d, d) = (nth k s d, nth (S k) s d).
Proof.
  revert k. induction s as [|x [|y s] IH]; intros k H; cbn [length] in H; try lia.
  destruct k as [|k]; [reflexivity|]. cbn [pairs_of nth]. rewrite IH by (cbn; lia). reflexivity.
Qed.

Lemma sorted_bounds x s : StronglySorted Z.lt (x :: s) -> forall a b, In (a, b) (pairs_of (x :: s)) ->
  (x <= a < b)%Z /\ (b <= last s 0)%Z.
Proof.
  revert x. induction s as [|y s IH]; intros x H a b Hin; [contradiction|].
  inversion H as [|? ? HS HF]; subst. inversion HF; subst.
  destruct Hin as [E|Hin].
  - inversion E; subst. split; [lia|].
    destruct s as [|z s]; [cbn; lia|]. 
    assert (forall t u, StronglySorted Z.lt (u :: t) -> (u <= last (u :: t) 0)%Z) as G.
    { induction t as [|v t IHt]; intros u Hu; [cbn; lia|]. inversion Hu; subst. inversion H5; subst.
      change (u <= last (v :: t) 0)%Z. specialize (IHt v H4). lia. }
    apply (G (z :: s) b HS).
  - destruct (IH y HS a b Hin) as [H5 H6]. split; [lia|].
    destruct s as [|z s]; [contradiction|]. exact H6.
Qed.

Lemma skipn_skipn' {X} a b (l : list X) : skipn a (skipn b l) = skipn (b + a) l.
Proof.
  revert l. induction b as [|b IH]; intros l; [reflexivity|].
  destruct l as [|x l]; [rewrite !skipn_nil; reflexivity|]. cbn [skipn Nat.add]. apply IH.
Qed.

Lemma concat_segs {X} (bs : list X) x s :
  StronglySorted Z.lt (x :: s) -> (0 <= x)%Z ->
  concat (map (fun p => seg bs (fst p) (snd p)) (pairs_of (x :: s))) =
  match s with [] => [] | _ => seg bs x (last s 0%Z) end.
Proof.
  revert x. induction s as [|y s IH]; intros x H Hx; [reflexivity|].
  inversion H as [|? ? HS HF]; subst. inversion HF; subst.
  change (pairs_of (x :: y :: s)) with ((x, y) :: pairs_of (y :: s)).
  cbn [map concat fst snd]. rewrite (IH y) by (try assumption; lia).
  destruct s as [|z s]; [cbn [last]; apply app_nil_r|].
  change (last (y :: z :: s) 0%Z) with (last (z :: s) 0%Z).
  assert (B := sorted_bounds y (z :: s) HS y z (or_introl eq_refl)).
  set (L := last (z :: s) 0%Z) in *. unfold seg.
  rewrite <- (firstn_skipn (Z.to_nat y - Z.to_nat x) (firstn (Z.to_nat L - Z.to_nat x) (skipn (Z.to_nat x) bs))).
  rewrite firstn_firstn, skipn_firstn_comm, skipn_skipn'.
  f_equal; [f_equal; lia|]. f_equal; [lia|]. f_equal. lia.
Qed.

(** ** Regroup *)

Lemma valid_sorted0 o n : valid_offsets o n -> (0 < hd 0 o)%Z -> StronglySorted Z.lt (0%Z :: o).
Proof.
  intros (N & S & _) H. constructor; [assumption|]. destruct o as [|x o]; [congruence|]. cbn [hd] in H.
  inversion S; subst. constructor; [assumption|]. eapply Forall_impl; [|eassumption]. intros; lia.
Qed.

Lemma seg_length {X} (bs : list X) a b : (0 <= a <= b)%Z -> (b <= Z.of_nat (length bs))%Z ->
  length (seg bs a b) = Z.to_nat b - Z.to_nat a.
Proof. intros. unfold seg. rewrite firstn_length, skipn_length. lia. Qed.

Lemma nth_seg {X} (bs : list X) a b k d : k < Z.to_nat b - Z.to_nat a ->
  nth k (seg bs a b) d = nth (Z.to_nat a + k) bs d.
Proof.
  intros H. unfold seg. rewrite <- (firstn_skipn (Z.to_nat a) bs) at 2.
  destruct (Nat.lt_ge_cases (length bs) (Z.to_nat a)) as [G|G].
  - rewrite skipn_all2 by lia. rewrite firstn_nil, app_nil_r. rewrite (nth_overflow (firstn _ _)) by (rewrite firstn_length; lia).
    destruct k; reflexivity.
  - rewrite app_nth2; rewrite firstn_length; [|lia]. replace (_ + k - _) with k by lia.
    rewrite <- (firstn_skipn (Z.to_nat b - Z.to_nat a) (skipn (Z.to_nat a) bs)) at 2.
    destruct (Nat.lt_ge_cases k (length (firstn (Z.to_nat b - Z.to_nat a) (skipn (Z.to_nat a) bs)))) as [K|K].
    + rewrite app_nth1 by assumption. reflexivity.
    + rewrite nth_overflow by assumption. rewrite firstn_length, skipn_length in K.
      rewrite app_nth2 by (rewrite firstn_length, skipn_length; lia).
      rewrite nth_overflow; [reflexivity|]. rewrite firstn_length, !skipn_length. lia.
Qed.

Lemma seg_map {X Y} (f : X -> Y) bs a b : seg (map f bs) a b = map f (seg bs a b).
Proof. unfold seg. rewrite skipn_map, firstn_map. reflexivity. Qed.

Lemma seg_one {X} (bs : list X) a d : (0 <= a < Z.of_nat (length bs))%Z -> seg bs a (a + 1) = [nth (Z.to_nat a) bs d].
Proof.
  intros H. assert (L : length (seg bs a (a + 1)) = 1) by (rewrite seg_length; lia).
  destruct (seg bs a (a + 1)) as [|x [|y l]] eqn:E; cbn in L; try lia.
  f_equal. change x with (nth 0 [x] d). rewrite <- E, nth_seg by lia. f_equal. lia.
Qed.

Lemma regroup_groups o n bs offs :
  valid_offsets o n -> (0 < hd 0 o)%Z -> length bs = n -> regroup_init o n = Ok offs ->
  regroup_matvec offs (map BV bs) =
  Ok (wrap (map (fun p => grp (seg bs (fst p) (snd p))) (pairs_of (0%Z :: o)))).
Proof.
  intros V H0 L HI. rewrite (regroup_init_value _ _ _ HI).
  assert (S := valid_sorted0 o n V H0). destruct V as (N & _ & LN).
  unfold regroup_matvec.
  rewrite (mapM_map _ (fun p => grp (seg bs (fst p) (snd p)))).
  - cbn [bind]. rewrite map_length, pairs_of_length. destruct o as [|x [|y o]]; [congruence| |].
    + reflexivity.
    + cbn [length Nat.ltb Nat.leb wrap pairs_of map]. reflexivity.
  - apply Forall_forall. intros [a b] Hin. cbn [fst snd].
    destruct (sorted_bounds _ _ S a b Hin) as [B1 B2]. rewrite LN in B2.
    destruct (Z.eqb_spec (b - a) 1) as [E|E].
    + replace b with (a + 1)%Z by lia. rewrite (seg_one bs a []) by lia. cbn [grp].
      rewrite <- (Z2Nat.id a) at 1 by lia. rewrite (py_get_nat _ _ (BV [])) by (rewrite map_length; lia).
      rewrite map_nth. reflexivity.
    + rewrite py_slice_seg by (rewrite ?map_length; lia). rewrite seg_map.
      assert (LS : length (seg bs a b) = Z.to_nat b - Z.to_nat a) by (apply seg_length; lia).
      destruct (seg bs a b) as [|v [|w l]]; cbn [length] in LS; [lia|lia|reflexivity].
Qed.

Lemma wrap_many l : 1 < length l -> wrap l = BB l.
Proof. destruct l as [|x [|y l]]; cbn; intros; [lia|lia|reflexivity]. Qed.

Lemma flat_grp l :
  l <> [] -> (match grp l with BV v => [BV v] | BB l' => l' end) = map BV l.
Proof. destruct l as [|v [|w l]]; intros H; [congruence|reflexivity|reflexivity]. Qed.

Lemma regroup_inverse o n bs offs r :
  valid_offsets o n -> (0 < hd 0 o)%Z -> length bs = n -> 1 < n -> regroup_init o n = Ok offs ->
  regroup_matvec offs (map BV bs) = Ok r -> regroup_transpmult r = Ok (BB (map BV bs)).
Proof.
  intros V H0 L Hn HI HM. rewrite (regroup_groups o n bs offs V H0 L HI) in HM. inversion HM; subst r. clear HM.
  assert (S := valid_sorted0 o n V H0). destruct V as (N & _ & LN).
  assert (C := concat_segs bs 0%Z o S (Z.le_refl 0)).
  destruct o as [|x o]; [congruence|]. rewrite LN in C.
  assert (F : seg bs 0 (Z.of_nat n) = bs).
  { unfold seg. cbn [Z.to_nat skipn]. rewrite Nat2Z.id, Nat.sub_0_r. cbn [skipn]. apply firstn_all2. lia. }
  rewrite F in C.
  destruct o as [|y o].
  - cbn [pairs_of map concat fst snd wrap] in *. rewrite app_nil_r in C. rewrite C.
    destruct bs as [|v [|w bs]]; cbn [length] in L; try lia. cbn [grp regroup_transpmult]. do 2 f_equal.
    clear. induction (v :: w :: bs) as [|z l IH]; [reflexivity|]. cbn. f_equal. exact IH.
  - transitivity (Ok (BB (concat (map (map BV)
      (map (fun p : Z * Z => seg bs (fst p) (snd p)) (pairs_of (0%Z :: x :: y :: o))))))).
    2: { rewrite <- concat_map, C. reflexivity. }
    rewrite wrap_many by (rewrite map_length; cbn; lia).
    unfold regroup_transpmult. do 3 f_equal. rewrite !map_map.
    apply map_ext_in. intros [a b] Hin. cbn [fst snd].
    destruct (sorted_bounds _ _ S a b Hin) as [B1 B2]. rewrite LN in B2.
    apply flat_grp. intros E. apply (f_equal (@length _)) in E. rewrite seg_length in E by lia. cbn in E. lia.
Qed.

(** Group by group. *)
Lemma regroup_group_k o n bs offs r k :
  valid_offsets o n -> (0 < hd 0 o)%Z -> length bs = n -> 1 < length o -> regroup_init o n = Ok offs ->
  regroup_matvec offs (map BV bs) = Ok r -> k < length o ->
  exists gs, r = BB gs /\ length gs = length o /\
    nth k gs (BB []) = grp (seg bs (low o k) (nth k o 0%Z)).
Proof.
  intros V H0 L Ho HI HM Hk. rewrite (regroup_groups o n bs offs V H0 L HI) in HM. inversion HM; subst r. clear HM.
  exists (map (fun p => grp (seg bs (fst p) (snd p))) (pairs_of (0%Z :: o))). split; [|split].
  - destruct o as [|x [|y o]]; cbn [length] in Ho; try lia. reflexivity.
  - rewrite map_length, pairs_of_length. reflexivity.
  - rewrite (nth_indep _ (BB []) ((fun p : Z * Z => grp (seg bs (fst p) (snd p))) (0%Z, 0%Z)))
      by (rewrite map_length, pairs_of_length; assumption).
    rewrite (map_nth (fun p : Z * Z => grp (seg bs (fst p) (snd p)))), pairs_of_nth by (cbn; lia).
    reflexivity.
Qed.

(** ** Rearange *)

(** The monolithic index sets read the blocks back. *)
Lemma subvecs vs : forall p : vec,
  map (fun d => getv (p ++ concat vs) d)
      (map (fun od => seq (fst od) (snd od))
           (combine (cumsum_from (length p) (map (@length Qc) vs)) (map (@length Qc) vs))) = vs.
Proof.
  induction vs as [|v vs IH]; intros p; [reflexivity|].
  cbn [map cumsum_from combine concat fst snd]. f_equal.
  - apply vec_ext; unfold getv; rewrite map_length, seq_length; [reflexivity|].
    intros i Hi. unfold vnth at 1. rewrite (nth_indep _ q0 (vnth (p ++ v ++ concat vs) 0)) by (rewrite map_length, seq_length; assumption).
    rewrite map_nth, seq_nth by assumption. rewrite vnth_app_r, vnth_app_l by assumption. reflexivity.
  - specialize (IH (p ++ v)). rewrite app_length in IH. rewrite <- app_assoc in IH. exact IH.
Qed.

Definition blocks_of (bs : list vec) (is : list nat) : list vec := map (fun i => nth i bs []) is.

Lemma rearange_value ms bs sizes :
  map (@length Qc) bs = sizes -> ms <> [] -> (forall l i, In l ms -> In i l -> i < length bs) ->
  rearange_matvec (map (map Z.of_nat) ms) sizes (BB (map BV bs)) =
  Ok (wrap (map (fun l => BV (concat (blocks_of bs l))) ms)).
Proof.
  intros Hs Hn Hr. unfold rearange_matvec. cbn [bind].
  rewrite (mapM_map _ (fun l => BV (concat (blocks_of bs (map Z.to_nat l))))).
  - cbn [bind]. rewrite !map_map.
    rewrite (map_ext (fun l => BV (concat (blocks_of bs (map Z.to_nat (map Z.of_nat l))))) (fun l => BV (concat (blocks_of bs l)))).
    2: { intros l. rewrite map_map. rewrite (map_ext _ (fun x => x)) by (intros; apply Nat2Z.id). rewrite map_id. reflexivity. }
    destruct ms as [|l1 [|l2 ms]]; [congruence|reflexivity|reflexivity].
  - apply Forall_forall. intros zl Hzl. apply in_map_iff in Hzl. destruct Hzl as (l & <- & Hl).
    rewrite map_map. rewrite (map_ext (fun x => Z.to_nat (Z.of_nat x)) (fun x => x)) by (intros; apply Nat2Z.id). rewrite map_id.
    assert (G : forall l', (forall i, In i l' -> i < length bs) ->
       mapM (fun i => do x <- py_get (map BV bs) i; the_vec x) (map Z.of_nat l') = Ok (blocks_of bs l')).
    { clear. induction l' as [|i l' IH]; intros H; [reflexivity|]. cbn [map]. rewrite mapM_cons.
      rewrite (py_get_nat _ _ (BV [])) by (rewrite map_length; apply H; left; reflexivity).
      rewrite map_nth. cbn [bind the_vec]. rewrite IH by (intros; apply H; right; assumption). reflexivity. }
    destruct l as [|i [|j l]].
    + reflexivity.
    + cbn [map blocks_of concat]. rewrite app_nil_r.
      rewrite (py_get_nat _ _ (BV [])) by (rewrite map_length; apply (Hr [i]); [assumption|left; reflexivity]).
      rewrite map_nth. reflexivity.
    + cbn [map]. change (Z.of_nat i :: Z.of_nat j :: map Z.of_nat l) with (map Z.of_nat (i :: j :: l)).
      rewrite (G (i :: j :: l)) by (intros; eapply Hr; eassumption). reflexivity.
Qed.

Lemma rearange_init_value ms sizes :
  (forall l i, In l ms -> In i l -> i < length sizes) ->
  rearange_init (map (map Z.of_nat) ms) sizes =
  Ok (map (fun l => let dims := map (fun i => nth i sizes 0) l in
                    map (fun od => seq (fst od) (snd od)) (combine (cumsum_from 0 dims) dims)) ms).
Proof.
  intros H. unfold rearange_init.
  induction ms as [|l ms IH]; [reflexivity|]. cbn [map]. rewrite mapM_cons.
  assert (E : mapM (py_get sizes) (map Z.of_nat l) = Ok (map (fun i => nth i sizes 0) l)).
  { assert (Hl : forall i, In i l -> i < length sizes) by (intros; eapply H; [left; reflexivity|assumption]).
    clear - Hl. induction l as [|i l IH]; [reflexivity|]. cbn [map]. rewrite mapM_cons.
    rewrite (py_get_nat _ _ 0) by (apply Hl; left; reflexivity). cbn [bind].
    rewrite IH by (intros; apply Hl; right; assumption). reflexivity. }
  unfold group_index_sets at 1. rewrite E. cbn [bind].
  rewrite IH by (intros; eapply H; [right; eassumption|assumption]). reflexivity.
Qed.

Lemma bind_id {X} (x : res X) : (do y <- x; Ok y) = x.
Proof. destruct x; reflexivity. Qed.

(** A state of [unpacked]: the visited positions hold their block. *)
Definition holds (bs : list vec) (u : list bobj) (done : list nat) : Prop :=
  length u = length bs /\ forall i, In i done -> nth i u (BV []) = BV (nth i bs []).

Lemma holds_set bs u done i : i < length bs -> holds bs u done ->
  exists u', py_set u (Z.of_nat i) (BV (nth i bs [])) = Ok u' /\ holds bs u' (i :: done).
Proof.
  intros Hi (L & H). rewrite (py_set_norm u (Z.of_nat i) i) by (rewrite ?norm_nat; lia).
  eexists. split; [reflexivity|]. split; [rewrite replace_nth_length; lia|].
  intros k Hk. rewrite nth_replace_nth by lia. destruct (Nat.eqb_spec k i) as [->|N]; [reflexivity|].
  apply H. destruct Hk; [congruence|assumption].
Qed.

Lemma holds_set_all bs l : forall u done, (forall i, In i l -> i < length bs) -> holds bs u done ->
  exists u', set_all u (combine (map Z.of_nat l) (map BV (blocks_of bs l))) = Ok u' /\ holds bs u' (l ++ done).
Proof.
  induction l as [|i l IH]; intros u done Hl Hu.
  - exists u. auto.
  - cbn [map blocks_of combine set_all].
    destruct (holds_set bs u done i) as (u1 & E1 & H1); [apply Hl; left; reflexivity|assumption|].
    rewrite E1. cbn [bind]. destruct (IH u1 (i :: done)) as (u2 & E2 & H2); [intros; apply Hl; right; assumption|assumption|].
    exists u2. split; [exact E2|]. destruct H2 as (L2 & H2). split; [assumption|].
    intros k Hk. apply H2. apply in_or_app. cbn [app] in Hk. destruct Hk as [->|Hk]; [right; left; reflexivity|].
    apply in_app_or in Hk. destruct Hk; [left|right; right]; assumption.
Qed.

Lemma unpack_all bs sizes ms : map (@length Qc) bs = sizes ->
  forall u done, (forall l i, In l ms -> In i l -> i < length bs) -> holds bs u done ->
  exists u', unpack_loop u (combine (combine (map (fun l => BV (concat (blocks_of bs l))) ms)
      (map (fun l => let dims := map (fun i => nth i sizes 0) l in
                    map (fun od => seq (fst od) (snd od)) (combine (cumsum_from 0 dims) dims)) ms))
      (map (map Z.of_nat) ms)) = Ok u' /\ holds bs u' (concat ms ++ done).
Proof.
  intros Hs. induction ms as [|l ms IH]; intros u done Hr Hu.
  - exists u. auto.
  - cbn [map combine unpack_loop].
    assert (Hl : forall i, In i l -> i < length bs) by (intros; eapply Hr; [left; reflexivity|assumption]).
    assert (SV : map (fun d => BV (getv (concat (blocks_of bs l)) d))
       (map (fun od => seq (fst od) (snd od))
          (combine (cumsum_from 0 (map (fun i => nth i sizes 0) l)) (map (fun i => nth i sizes 0) l)))
       = map BV (blocks_of bs l)).
    { assert (D : map (fun i => nth i sizes 0) l = map (@length Qc) (blocks_of bs l)).
      { unfold blocks_of. rewrite map_map. apply map_ext. intros i. rewrite <- Hs.
        change 0 with (length (@nil Qc)). rewrite map_nth. reflexivity. }
      rewrite D. pose proof (subvecs (blocks_of bs l) []) as SV. cbn [app length] in SV.
      rewrite <- map_map with (f := fun d => getv (concat (blocks_of bs l)) d). cbn beta in SV. rewrite SV. reflexivity. }
    assert (ST : exists u1, unpack_step u (BV (concat (blocks_of bs l)),
        map (fun od => seq (fst od) (snd od))
          (combine (cumsum_from 0 (map (fun i => nth i sizes 0) l)) (map (fun i => nth i sizes 0) l)), map Z.of_nat l) = Ok u1
        /\ holds bs u1 (l ++ done)).
    { destruct (holds_set_all bs l u done Hl Hu) as (u1 & E1 & H1).
      destruct l as [|i [|j l]].
      - exists u1. split; [exact E1|exact H1].
      - exists u1. split; [|exact H1]. cbn [unpack_step map blocks_of concat] in *. rewrite app_nil_r.
        cbn [combine set_all] in E1. exact (eq_trans (eq_sym (bind_id _)) E1).
      - exists u1. split; [|exact H1]. cbn [unpack_step]. cbn [map] in *. cbn [the_vec bind].
        cbn [map] in SV. rewrite SV. exact E1. }
    destruct ST as (u1 & E1 & H1). cbn zeta in *. rewrite E1. cbn [bind].
    destruct (IH u1 (l ++ done)) as (u2 & E2 & H2); [intros; eapply Hr; [right; eassumption|assumption]|assumption|].
    exists u2. split; [exact E2|]. destruct H2 as (L2 & H2). split; [assumption|].
    intros k Hk. apply H2. cbn [concat] in Hk. rewrite !in_app_iff in *. tauto.
Qed.

Lemma repeat_holds bs n : n = length bs -> holds bs (repeat (BV []) n) [].
Proof. intros ->. split; [apply repeat_length|]. intros i []. Qed.

(** The transpose undoes the rearrangement. *)
Lemma rearange_inverse ms bs sizes isets r :
  map (@length Qc) bs = sizes -> ms <> [] -> Permutation (concat ms) (seq 0 (length bs)) ->
  rearange_init (map (map Z.of_nat) ms) sizes = Ok isets ->
  rearange_matvec (map (map Z.of_nat) ms) sizes (BB (map BV bs)) = Ok r ->
  rearange_transpmult (map (map Z.of_nat) ms) isets r = Ok (BB (map BV bs)).
Proof.
  intros Hs Hn HP HI HM.
  assert (Hr : forall l i, In l ms -> In i l -> i < length bs).
  { intros l i Hl Hi. assert (In i (concat ms)) by (apply in_concat; eauto).
    apply (Permutation_in _ HP) in H. apply in_seq in H. lia. }
  rewrite rearange_init_value in HI by (intros; rewrite <- Hs, map_length; eapply Hr; eassumption).
  inversion HI; subst isets. clear HI.
  rewrite (rearange_value ms bs sizes Hs Hn Hr) in HM. inversion HM; subst r. clear HM.
  unfold rearange_transpmult.
  assert (BL : match wrap (map (fun l => BV (concat (blocks_of bs l))) ms) with BV v => [BV v] | BB l => l end
               = map (fun l => BV (concat (blocks_of bs l))) ms).
  { destruct ms as [|l1 [|l2 ms]]; [congruence|reflexivity|reflexivity]. }
  rewrite BL. clear BL.
  assert (N : list_sum (map (@length (list nat))
     (map (fun l => let dims := map (fun i => nth i sizes 0) l in
                    map (fun od => seq (fst od) (snd od)) (combine (cumsum_from 0 dims) dims)) ms)) = length bs).
  { apply Permutation_length in HP. rewrite seq_length in HP. rewrite <- HP. clear.
    assert (CL : forall l o, length (cumsum_from o l) = S (length l)).
    { induction l as [|x l IH]; intros o; cbn; [reflexivity|rewrite IH; reflexivity]. }
    induction ms as [|l ms IH]; [reflexivity|]. cbn [map concat]. rewrite app_length, <- IH.
    change (list_sum (?x :: ?y)) with (x + list_sum y). f_equal.
    rewrite map_length, combine_length, CL, map_length. lia. }
  cbn zeta in N |- *. rewrite N.
  destruct (unpack_all bs sizes ms Hs (repeat (BV []) (length bs)) [] Hr (repeat_holds bs _ eq_refl)) as (u & E & L & H).
  cbn zeta in E. rewrite E. cbn [bind]. do 2 f_equal. apply (nth_ext _ _ (BV []) (BV [])); [rewrite map_length; assumption|].
  intros i Hi. rewrite L in Hi. rewrite map_nth. apply H. rewrite app_nil_r.
  apply (Permutation_in _ (Permutation_sym HP)). apply in_seq. split; [apply Nat.le_0_l|exact Hi].
Qed.

(** A monolithic vector is first split into blocks. *)
Lemma rearange_monolithic mapping bs sizes :
  map (@length Qc) bs = sizes ->
  rearange_matvec mapping sizes (BV (concat bs)) = rearange_matvec mapping sizes (BB (map BV bs)).
Proof.
  intros <-. unfold rearange_matvec.
  assert (L : length (concat bs) = list_sum (map (@length Qc) bs)).
  { induction bs as [|x bs IH]; [reflexivity|]. cbn [concat map].
    change (list_sum (length x :: map (@length Qc) bs)) with (length x + list_sum (map (@length Qc) bs)).
    rewrite app_length, IH. reflexivity. }
  rewrite L, Nat.eqb_refl. unfold petsc_index_sets.
  rewrite <- (map_map (fun s => getv (concat bs) s) BV).
  pose proof (subvecs bs []) as SV. cbn [app length] in SV. rewrite SV. reflexivity.
Qed.

(** ** Reduction *)

Lemma py_range_nat a b : (0 <= a <= b)%Z -> py_range a b = map Z.of_nat (seq (Z.to_nat a) (Z.to_nat b - Z.to_nat a)).
Proof.
  intros H. unfold py_range. replace (Z.to_nat (b - a)) with (Z.to_nat b - Z.to_nat a) by lia.
  generalize (Z.to_nat b - Z.to_nat a) as n. intros n.
  apply (nth_ext _ _ 0%Z 0%Z); [rewrite !map_length, !seq_length; reflexivity|].
  intros i Hi. rewrite map_length, seq_length in Hi.
  rewrite (nth_indep _ 0%Z ((fun k => (a + Z.of_nat k)%Z) 0)) by (rewrite map_length, seq_length; assumption).
  rewrite (map_nth (fun k => (a + Z.of_nat k)%Z)), seq_nth by assumption.
  change 0%Z with (Z.of_nat 0) at 1. rewrite map_nth, seq_nth by assumption. lia.
Qed.

Definition red_groups (o : list Z) : list (list nat) :=
  map (fun p => seq (Z.to_nat (fst p)) (Z.to_nat (snd p) - Z.to_nat (fst p))) (pairs_of (0%Z :: o)).

Lemma reduction_mapping_value o n : valid_offsets o n -> (0 < hd 0 o)%Z ->
  reduction_mapping o n = Ok (map (map Z.of_nat) (red_groups o)).
Proof.
  intros V H0. assert (S := valid_sorted0 o n V H0). destruct V as (N & SS & L).
  unfold reduction_mapping. rewrite (last_offset_last o N). cbn [bind]. rewrite L, Z.eqb_refl. cbn [py_assert bind].
  rewrite (proj2 (increasing_sorted o) (conj N SS)). cbn [py_assert bind]. f_equal.
  unfold red_groups. rewrite map_map. apply map_ext_in. intros [a b] Hin. cbn [fst snd].
  destruct (sorted_bounds _ _ S a b Hin). apply py_range_nat. lia.
Qed.

Lemma reduction_mapping_iff o n : (exists m, reduction_mapping o n = Ok m) <-> valid_offsets o n.
Proof.
  rewrite <- regroup_init_iff. unfold reduction_mapping, regroup_init.
  destruct (last_offset o); cbn [bind]; [|split; intros [? H]; discriminate].
  destruct (Z.eqb _ _); cbn [py_assert bind]; [|split; intros [? H]; discriminate].
  destruct (is_increasing o); cbn [py_assert bind]; [|split; intros [? H]; discriminate].
  split; intros _; eexists; reflexivity.
Qed.

Lemma seg_seq a b n : (0 <= a <= b)%Z -> (b <= Z.of_nat n)%Z ->
  seg (seq 0 n) a b = seq (Z.to_nat a) (Z.to_nat b - Z.to_nat a).
Proof.
  intros H1 H2. apply (nth_ext _ _ 0 0).
  - rewrite seg_length by (rewrite ?seq_length; lia). rewrite seq_length. reflexivity.
  - intros k Hk. rewrite seg_length in Hk by (rewrite ?seq_length; lia).
    rewrite nth_seg by assumption. rewrite !seq_nth by lia. lia.
Qed.

Lemma red_groups_concat o n : valid_offsets o n -> (0 < hd 0 o)%Z -> concat (red_groups o) = seq 0 n.
Proof.
  intros V H0. assert (S := valid_sorted0 o n V H0). destruct V as (N & SS & L).
  pose proof (concat_segs (seq 0 n) 0%Z o S (Z.le_refl 0)) as C. destruct o as [|x o]; [congruence|].
  rewrite L in C. rewrite seg_seq in C by lia. rewrite Nat2Z.id, Nat.sub_0_r in C. cbn [Z.to_nat] in C.
  rewrite <- C. unfold red_groups. f_equal. apply map_ext_in. intros [a b] Hin. cbn [fst snd].
  destruct (sorted_bounds _ _ S a b Hin) as [B1 B2]. rewrite L in B2. symmetry. apply seg_seq; lia.
Qed.

Lemma blocks_of_seg (bs : list vec) a b : (0 <= a <= b)%Z -> (b <= Z.of_nat (length bs))%Z ->
  blocks_of bs (seq (Z.to_nat a) (Z.to_nat b - Z.to_nat a)) = seg bs a b.
Proof.
  intros H1 H2. apply (nth_ext _ _ [] []).
  - unfold blocks_of. rewrite map_length, seq_length, seg_length by lia. reflexivity.
  - unfold blocks_of. rewrite map_length, seq_length. intros k Hk.
    rewrite nth_seg by assumption.
    rewrite (nth_indep _ [] ((fun i => nth i bs []) 0)) by (rewrite map_length, seq_length; assumption).
    rewrite (map_nth (fun i => nth i bs [])), seq_nth by assumption. reflexivity.
Qed.

Lemma pairs_low o : pairs_of (0%Z :: o) = map (fun k => (low o k, nth k o 0%Z)) (seq 0 (length o)).
Proof.
  apply (nth_ext _ _ (0%Z, 0%Z) (0%Z, 0%Z)); [rewrite pairs_of_length, map_length, seq_length; reflexivity|].
  intros k Hk. rewrite pairs_of_length in Hk. rewrite pairs_of_nth by (cbn; lia).
  rewrite (nth_indep (map (fun k => (low o k, nth k o 0%Z)) (seq 0 (length o))) (0%Z, 0%Z) ((fun k => (low o k, nth k o 0%Z)) 0))
    by (rewrite map_length, seq_length; assumption).
  rewrite (map_nth (fun k => (low o k, nth k o 0%Z))), seq_nth by assumption. reflexivity.
Qed.

Lemma reduction_correct o n bs mapping isets :
  valid_offsets o n -> (0 < hd 0 o)%Z -> length bs = n ->
  reduction_mapping o n = Ok mapping -> rearange_init mapping (map (@length Qc) bs) = Ok isets ->
  let r := wrap (map (fun k => BV (concat (seg bs (low o k) (nth k o 0%Z)))) (seq 0 (length o))) in
  rearange_matvec mapping (map (@length Qc) bs) (BB (map BV bs)) = Ok r /\
  rearange_transpmult mapping isets r = Ok (BB (map BV bs)).
Proof.
  intros V H0 L HM HI r. pose proof (reduction_mapping_value o n V H0) as E. rewrite E in HM. inversion HM; subst mapping.
  pose proof (red_groups_concat o n V H0) as C.
  assert (S := valid_sorted0 o n V H0).
  assert (NE : red_groups o <> []).
  { destruct V as (N & _). destruct o; [congruence|]. discriminate. }
  assert (Hr : forall l i, In l (red_groups o) -> In i l -> i < length bs).
  { intros l i Hl Hi. assert (Hin : In i (concat (red_groups o))) by (apply in_concat; eauto).
    rewrite C in Hin. apply in_seq in Hin. lia. }
  assert (HMV : rearange_matvec (map (map Z.of_nat) (red_groups o)) (map (@length Qc) bs) (BB (map BV bs)) = Ok r).
  { replace r with (wrap (map (fun p => BV (concat (seg bs (fst p) (snd p)))) (pairs_of (0%Z :: o))))
      by (unfold r; rewrite pairs_low, map_map; reflexivity).
    rewrite (rearange_value (red_groups o) bs _ eq_refl NE Hr). do 2 f_equal. unfold red_groups. rewrite map_map.
    apply map_ext_in. intros [a b] Hin. cbn [fst snd]. destruct V as (_ & _ & LN).
    destruct (sorted_bounds _ _ S a b Hin) as [B1 B2]. rewrite LN in B2. rewrite blocks_of_seg by lia. reflexivity. }
  split; [exact HMV|].
  eapply rearange_inverse; [reflexivity|exact NE| |exact HI|exact HMV].
  rewrite C, L. apply Permutation_refl.
Qed.

(** ** SubSelect *)

(** The positions meant by Python indices (negative ones count from the end). *)
Definition positions (n : nat) (idx : list Z) (ks : list nat) : Prop :=
  Forall2 (fun i k => (i = Z.of_nat k \/ (i + Z.of_nat n)%Z = Z.of_nat k) /\ k < n) idx ks.

Lemma norm_position n i k : (i = Z.of_nat k \/ (i + Z.of_nat n)%Z = Z.of_nat k) -> k < n -> norm_index n i = Z.of_nat k.
Proof. intros H Hk. unfold norm_index. destruct (Z.ltb_spec i 0); lia. Qed.

Lemma select_value idx ks xs : positions (length xs) idx ks ->
  subselect_matvec idx (BB (map BV xs)) = Ok (wrap (map (fun k => BV (nth k xs [])) ks)).
Proof.
  intros H. unfold subselect_matvec.
  assert (G : forall idx ks, positions (length xs) idx ks ->
     mapM (py_get (map BV xs)) idx = Ok (map (fun k => BV (nth k xs [])) ks)).
  { clear. intros idx ks H. induction H as [|i k idx ks (E & Hk) H IH]; [reflexivity|].
    rewrite mapM_cons, (py_get_norm (map BV xs) i k (BV [])) by (rewrite map_length; first [apply norm_position; assumption | assumption]).
    cbn [bind]. rewrite IH. cbn [bind map]. rewrite map_nth. reflexivity. }
  destruct H as [|i k idx ks (E & Hk) H]; [reflexivity|]. destruct H as [|i2 k2 idx ks (E2 & Hk2) H].
  - rewrite (py_get_norm (map BV xs) i k (BV [])) by (rewrite map_length; first [apply norm_position; assumption | assumption]). rewrite map_nth. reflexivity.
  - rewrite (G (i :: i2 :: idx) (k :: k2 :: ks)) by (constructor; [split|constructor; [split|]]; assumption). reflexivity.
Qed.

(** Write ys one by one, starting at number [s], to the positions. *)
Fixpoint place (zs ys : list vec) (s : nat) (ks : list nat) : list vec :=
  match ks with [] => zs | k :: ks' => place (replace_nth zs k (nth s ys [])) ys (S s) ks' end.

Lemma map_replace_nth {X Y} (f : X -> Y) l k x : map f (replace_nth l k x) = replace_nth (map f l) k (f x).
Proof. unfold replace_nth. rewrite map_app, firstn_map. cbn [map]. rewrite skipn_map. reflexivity. Qed.

Lemma scatter_place idx ks n : positions n idx ks -> forall zs ys s,
  length zs = n -> s + length idx <= length ys ->
  scatter (map BV zs) (map BV ys) s idx = Ok (map BV (place zs ys s ks)).
Proof.
  intros H. induction H as [|i k idx ks (E & Hk) H IH]; intros zs ys s L LY; [reflexivity|].
  cbn [length] in LY. cbn [scatter place].
  rewrite (py_get_nat _ _ (BV [])) by (rewrite map_length; lia). cbn [bind]. rewrite map_nth.
  rewrite (py_set_norm (map BV zs) i k) by (rewrite map_length, ?L; first [apply norm_position; assumption | lia]). cbn [bind].
  rewrite <- map_replace_nth. apply IH; [rewrite replace_nth_length; lia|lia].
Qed.

Lemma place_length ks : forall zs ys s, Forall (fun k => k < length zs) ks -> length (place zs ys s ks) = length zs.
Proof.
  induction ks as [|k ks IH]; intros zs ys s H; [reflexivity|]. inversion H; subst. cbn [place].
  rewrite IH; [apply replace_nth_length; assumption|].
  eapply Forall_impl; [|eassumption]. intros. rewrite replace_nth_length; assumption.
Qed.

Lemma place_other ks : forall zs ys s i, Forall (fun k => k < length zs) ks -> ~ In i ks ->
  nth i (place zs ys s ks) [] = nth i zs [].
Proof.
  induction ks as [|k ks IH]; intros zs ys s i H N; [reflexivity|]. inversion H; subst. cbn [place].
  rewrite IH.
  - rewrite nth_replace_nth by assumption. destruct (Nat.eqb_spec i k); [|reflexivity]. subst. elim N. left. reflexivity.
  - eapply Forall_impl; [|eassumption]. intros. rewrite replace_nth_length; assumption.
  - intros Hin. apply N. right. assumption.
Qed.

Lemma place_at ks : forall zs ys s j, Forall (fun k => k < length zs) ks -> NoDup ks -> j < length ks ->
  nth (nth j ks 0) (place zs ys s ks) [] = nth (s + j) ys [].
Proof.
  induction ks as [|k ks IH]; intros zs ys s j H ND Hj; [cbn in Hj; lia|]. inversion H; subst. inversion ND; subst.
  assert (F : Forall (fun k0 => k0 < length (replace_nth zs k (nth s ys []))) ks).
  { eapply Forall_impl; [|eassumption]. intros. rewrite replace_nth_length; assumption. }
  cbn [place]. destruct j as [|j]; cbn [nth].
  - rewrite place_other by assumption. rewrite nth_replace_nth, Nat.eqb_refl by assumption. f_equal. lia.
  - cbn [length] in Hj. rewrite IH by (assumption || lia). f_equal. lia.
Qed.

Lemma vdot_zeros x n : vdot x (vtab n (fun _ => q0)) = q0.
Proof.
  unfold vdot. apply sumn_zero. intros i _. destruct (Nat.lt_ge_cases i n).
  - rewrite vnth_vtab by assumption. unfold q0. ring.
  - unfold vnth at 2. rewrite nth_overflow by (rewrite vtab_length; assumption). unfold q0. ring.
Qed.

Lemma bdot_replace xs zs k y : length zs = length xs -> k < length xs ->
  vdot (nth k xs []) (nth k zs []) = q0 ->
  bdot xs (replace_nth zs k y) = (bdot xs zs + vdot (nth k xs []) y)%Qc.
Proof.
  intros L Hk Z. unfold bdot.
  rewrite (sumn_ext (length xs) _ (fun i => vdot (nth i xs []) (nth i zs []) + (if i =? k then vdot (nth i xs []) y else q0))%Qc).
  - rewrite sumn_plus. f_equal. rewrite (sumn_single (length xs) k).
    + rewrite Nat.eqb_refl. reflexivity.
    + assumption.
    + intros i Hi Hne. destruct (Nat.eqb_spec i k); [contradiction|reflexivity].
  - intros i Hi. rewrite nth_replace_nth by lia. destruct (Nat.eqb_spec i k) as [->|N].
    + rewrite Z. unfold q0. ring.
    + unfold q0. ring.
Qed.

Lemma bdot_place ks : forall xs zs ys s, length zs = length xs -> Forall (fun k => k < length xs) ks -> NoDup ks ->
  (forall k, In k ks -> vdot (nth k xs []) (nth k zs []) = q0) ->
  bdot xs (place zs ys s ks) =
  (bdot xs zs + sumn (length ks) (fun j => vdot (nth (nth j ks 0%nat) xs []) (nth (s + j)%nat ys [])))%Qc.
Proof.
  induction ks as [|k ks IH]; intros xs zs ys s L F ND Z.
  - cbn [place length]. change (sumn 0 (fun j => vdot (nth (nth j [] 0) xs []) (nth (s + j) ys []))) with q0. unfold q0. ring.
  - inversion F; subst. inversion ND; subst. cbn [place]. rewrite IH.
    + rewrite bdot_replace by (try assumption; apply Z; left; reflexivity).
      cbn [length]. rewrite sumn_first. cbn [nth]. rewrite Nat.add_0_r.
      rewrite (sumn_ext (length ks) (fun j => vdot (nth (nth j ks 0) xs []) (nth (S s + j) ys []))
                (fun i => vdot (nth (nth i ks 0) xs []) (nth (s + S i) ys []))).
      * ring.
      * intros i _. do 2 f_equal. lia.
    + rewrite replace_nth_length; lia.
    + assumption.
    + assumption.
    + intros k0 Hk0. rewrite nth_replace_nth by lia. destruct (Nat.eqb_spec k0 k) as [->|_]; [contradiction|].
      apply Z. right. assumption.
Qed.

Lemma positions_facts n idx ks : positions n idx ks -> length idx = length ks /\ Forall (fun k => k < n) ks.
Proof.
  intros H. induction H as [|i k idx ks (E & Hk) H (IH1 & IH2)]; [split; [reflexivity|constructor]|].
  cbn. split; [congruence|constructor; assumption].
Qed.

Definition zero_blocks (sizes : list nat) : list vec := map (fun n => vtab n (fun _ => q0)) sizes.

Lemma nth_zero_blocks sizes i : i < length sizes ->
  nth i (zero_blocks sizes) [] = vtab (nth i sizes 0) (fun _ => q0).
Proof.
  intros H. unfold zero_blocks.
  rewrite (nth_indep (map (fun n => vtab n (fun _ => q0)) sizes) [] ((fun n => vtab n (fun _ => q0)) 0)) by (rewrite map_length; assumption).
  rewrite (map_nth (fun n => vtab n (fun _ => q0))). reflexivity.
Qed.

Lemma nth_blocks_of bs ks j : j < length ks -> nth j (blocks_of bs ks) [] = nth (nth j ks 0) bs [].
Proof.
  intros H. unfold blocks_of.
  rewrite (nth_indep (map (fun i => nth i bs []) ks) [] ((fun i => nth i bs []) 0)) by (rewrite map_length; assumption).
  rewrite (map_nth (fun i => nth i bs [])). reflexivity.
Qed.

Lemma select_transp_value idx ks sizes ys : positions (length sizes) idx ks -> length ys = length idx ->
  subselect_transpmult idx sizes (wrap (map BV ys)) = Ok (BB (map BV (place (zero_blocks sizes) ys 0 ks))).
Proof.
  intros H LY. unfold subselect_transpmult.
  replace (map (fun n => BV (vtab n (fun _ => q0))) sizes) with (map BV (zero_blocks sizes))
    by (unfold zero_blocks; rewrite map_map; reflexivity).
  assert (SC : scatter (map BV (zero_blocks sizes)) (map BV ys) 0 idx = Ok (map BV (place (zero_blocks sizes) ys 0 ks))).
  { apply (scatter_place idx ks (length sizes) H); [unfold zero_blocks; apply map_length|lia]. }
  destruct idx as [|i [|j idx]]; destruct ys as [|y [|y' ys]]; cbn [length] in LY; try lia.
  - cbn [map wrap length Nat.eqb bind]. cbn [map] in SC. rewrite SC. reflexivity.
  - cbn [map wrap length Nat.eqb bind]. cbn [map] in SC. rewrite SC. reflexivity.
  - cbn [map wrap length Nat.eqb bind]. cbn [map] in SC. rewrite SC. reflexivity.
Qed.

Lemma subselect_adjoint idx ks xs ys sizes :
  map (@length Qc) xs = sizes -> positions (length xs) idx ks -> NoDup ks -> length ys = length idx ->
  exists zs,
    subselect_matvec idx (BB (map BV xs)) = Ok (wrap (map BV (blocks_of xs ks))) /\
    subselect_transpmult idx sizes (wrap (map BV ys)) = Ok (BB (map BV zs)) /\
    bdot (blocks_of xs ks) ys = bdot xs zs /\
    subselect_matvec idx (BB (map BV zs)) = Ok (wrap (map BV ys)).
Proof.
  intros Hs H ND LY. destruct (positions_facts _ _ _ H) as [LI F].
  assert (LS : length sizes = length xs) by (rewrite <- Hs; apply map_length).
  assert (LZ : length (zero_blocks sizes) = length xs) by (unfold zero_blocks; rewrite map_length; assumption).
  exists (place (zero_blocks sizes) ys 0 ks).
  assert (FZ : Forall (fun k => k < length (zero_blocks sizes)) ks) by (rewrite LZ; assumption).
  split; [|split; [|split]].
  - rewrite (select_value idx ks xs H). unfold blocks_of. rewrite map_map. reflexivity.
  - apply select_transp_value; [rewrite LS; assumption|assumption].
  - rewrite bdot_place; try assumption.
    + assert (Z0 : bdot xs (zero_blocks sizes) = q0).
      { unfold bdot. apply sumn_zero. intros i Hi. unfold zero_blocks.
        fold (zero_blocks sizes). rewrite nth_zero_blocks by lia. apply vdot_zeros. }
      rewrite Z0. unfold bdot, blocks_of. rewrite map_length.
      rewrite (sumn_ext (length ks) _ (fun j => vdot (nth (nth j ks 0) xs []) (nth (0 + j) ys []))).
      * unfold q0. ring.
      * intros j Hj. fold (blocks_of xs ks). rewrite nth_blocks_of by assumption. reflexivity.
    + intros k Hk. rewrite Forall_forall in F. specialize (F k Hk). unfold zero_blocks.
      fold (zero_blocks sizes). rewrite nth_zero_blocks by lia. apply vdot_zeros.
  - rewrite (select_value idx ks (place (zero_blocks sizes) ys 0 ks)).
    + do 2 f_equal. rewrite <- (map_map (fun k => nth k (place (zero_blocks sizes) ys 0 ks) []) BV). f_equal.
      apply (nth_ext _ _ [] []); [rewrite map_length; lia|]. intros j Hj. rewrite map_length in Hj.
      fold (blocks_of (place (zero_blocks sizes) ys 0 ks) ks). rewrite nth_blocks_of by assumption.
      rewrite place_at by assumption. reflexivity.
    + rewrite place_length by assumption. rewrite LZ. assumption.
Qed.

(** ** block_reshape *)

(** Entry (a, b) of a group. *)
Definition gentry {X} (g : bgroup X) (a b : nat) : option X :=
  match g with
  | GOne x => match a, b with 0, 0 => Some x | _, _ => None end
  | GMany l => match nth_error l a with Some row => nth_error row b | None => None end
  end.
Definition gshape {X} (g : bgroup X) (m n : nat) : Prop :=
  match g with
  | GOne _ => m = 1 /\ n = 1
  | GMany l => length l = m /\ (forall row, In row l -> length row = n) /\ ~ (m = 1 /\ n = 1)
  end.

Lemma nth_error_seg {X} (l : list X) a b k : k < Z.to_nat b - Z.to_nat a ->
  nth_error (seg l a b) k = nth_error l (Z.to_nat a + k).
Proof.
  intros H. unfold seg. revert k H. generalize (Z.to_nat b - Z.to_nat a) as m. generalize (Z.to_nat a) as n.
  intros n. revert l. induction n as [|n IH]; intros l m k H.
  - cbn [skipn Nat.add]. revert m k H. induction l as [|x l IHl]; intros m k H.
    + rewrite firstn_nil. reflexivity.
    + destruct m as [|m]; [lia|]. destruct k; [reflexivity|]. cbn [firstn nth_error]. apply IHl. lia.
  - destruct l as [|x l]; [rewrite skipn_nil, firstn_nil; destruct k; reflexivity|].
    cbn [skipn Nat.add nth_error]. apply IH. assumption.
Qed.

Lemma mapM_ok {X Y} (f : X -> res Y) (P : X -> Y -> Prop) l :
  (forall x, In x l -> exists y, f x = Ok y /\ P x y) -> exists ys, mapM f l = Ok ys /\ Forall2 P l ys.
Proof.
  induction l as [|x l IH]; intros H; [exists []; split; [reflexivity|constructor]|].
  destruct (H x (or_introl eq_refl)) as (y & E & Hp). destruct IH as (ys & E2 & F); [intros; apply H; right; assumption|].
  exists (y :: ys). rewrite mapM_cons, E. cbn [bind]. rewrite E2. split; [reflexivity|constructor; assumption].
Qed.

Lemma Forall2_len {X Y} (P : X -> Y -> Prop) l1 l2 : Forall2 P l1 l2 -> length l1 = length l2.
Proof. intros H. induction H; cbn; congruence. Qed.

Lemma Forall2_nth' {X Y} (P : X -> Y -> Prop) l1 l2 k x :
  Forall2 P l1 l2 -> nth_error l1 k = Some x -> exists y, nth_error l2 k = Some y /\ P x y.
Proof.
  intros H. revert k. induction H as [|a b l1 l2 Hp H IH]; intros k E; [destruct k; discriminate|].
  destruct k as [|k]; cbn in *; [inversion E; subst; eauto|apply IH; assumption].
Qed.

Lemma pairs_nth_error o k : k < length o -> nth_error (pairs_of (0%Z :: o)) k = Some (low o k, nth k o 0%Z).
Proof.
  intros H. rewrite (nth_error_nth' _ (0%Z, 0%Z)) by (rewrite pairs_of_length; assumption).
  f_equal. apply pairs_of_nth. cbn. lia.
Qed.

Lemma block_reshape_correct {X} (AA : list (list X)) o n :
  valid_offsets o n -> (0 < hd 0 o)%Z -> length AA = n -> (forall row, In row AA -> length row = n) ->
  exists R, block_reshape AA o = Ok R /\ length R = length o /\
  forall I J, I < length o -> J < length o -> exists row g,
    nth_error R I = Some row /\ length row = length o /\ nth_error row J = Some g /\
    gshape g (Z.to_nat (nth I o 0%Z) - Z.to_nat (low o I)) (Z.to_nat (nth J o 0%Z) - Z.to_nat (low o J)) /\
    forall i j, Z.to_nat (low o I) <= i < Z.to_nat (nth I o 0%Z) -> Z.to_nat (low o J) <= j < Z.to_nat (nth J o 0%Z) ->
      gentry g (i - Z.to_nat (low o I)) (j - Z.to_nat (low o J)) =
      match nth_error AA i with Some r => nth_error r j | None => None end.
Proof.
  intros V H0 LA LR. assert (S := valid_sorted0 o n V H0). destruct V as (N & _ & LN).
  set (P := fun (r c : Z * Z) (g : bgroup X) =>
    gshape g (Z.to_nat (snd r) - Z.to_nat (fst r)) (Z.to_nat (snd c) - Z.to_nat (fst c)) /\
    forall i j, Z.to_nat (fst r) <= i < Z.to_nat (snd r) -> Z.to_nat (fst c) <= j < Z.to_nat (snd c) ->
      gentry g (i - Z.to_nat (fst r)) (j - Z.to_nat (fst c)) =
      match nth_error AA i with Some row => nth_error row j | None => None end).
  assert (G : exists R, block_reshape AA o = Ok R /\
     Forall2 (fun r row => Forall2 (P r) (pairs_of (0%Z :: o)) row) (pairs_of (0%Z :: o)) R).
  { unfold block_reshape. apply mapM_ok. intros [a b] Hr. apply mapM_ok. intros [c d] Hc. cbn [fst snd].
    destruct (sorted_bounds _ _ S a b Hr) as [B1 B2]. destruct (sorted_bounds _ _ S c d Hc) as [B3 B4]. rewrite LN in *.
    destruct (Z.eqb_spec (b - a) 1) as [E1|E1]; [destruct (Z.eqb_spec (d - c) 1) as [E2|E2]|]; cbn [andb].
    - destruct (nth_error AA (Z.to_nat a)) as [row|] eqn:ER; [|apply nth_error_None in ER; lia].
      assert (LRow : length row = n) by (apply LR; eapply nth_error_In; eassumption).
      destruct (nth_error row (Z.to_nat c)) as [x|] eqn:EX; [|apply nth_error_None in EX; lia].
      exists (GOne x). split.
      + rewrite <- (Z2Nat.id a) by lia. rewrite (py_get_nat _ _ row) by lia.
        rewrite (nth_error_nth _ _ _ ER). cbn [bind].
        rewrite <- (Z2Nat.id c) by lia. rewrite (py_get_nat _ _ x) by lia.
        rewrite (nth_error_nth _ _ _ EX). reflexivity.
      + unfold P. cbn [fst snd gshape]. split; [lia|]. intros i j Hi Hj.
        replace i with (Z.to_nat a) by lia. replace j with (Z.to_nat c) by lia. rewrite ER, EX, !Nat.sub_diag. reflexivity.
    - eexists. split; [reflexivity|]. unfold P. cbn [fst snd]. rewrite py_slice_seg by lia.
      assert (SL : map (fun row => py_slice row c d) (seg AA a b) = map (fun row => seg row c d) (seg AA a b)).
      { apply map_ext_in. intros row Hrow. apply py_slice_seg; [lia|]. rewrite (LR row); [lia|].
        unfold seg in Hrow. rewrite <- (firstn_skipn (Z.to_nat a) AA), in_app_iff. right.
        rewrite <- (firstn_skipn (Z.to_nat b - Z.to_nat a) (skipn (Z.to_nat a) AA)), in_app_iff. left. assumption. }
      rewrite SL. split.
      + cbn [gshape]. split; [rewrite map_length, seg_length; lia|]. split; [|lia].
        intros row Hrow. apply in_map_iff in Hrow. destruct Hrow as (row' & <- & Hrow').
        apply seg_length; [lia|]. rewrite (LR row'); [lia|].
        unfold seg in Hrow'. rewrite <- (firstn_skipn (Z.to_nat a) AA), in_app_iff. right.
        rewrite <- (firstn_skipn (Z.to_nat b - Z.to_nat a) (skipn (Z.to_nat a) AA)), in_app_iff. left. assumption.
      + intros i j Hi Hj. cbn [gentry]. rewrite nth_error_map, nth_error_seg by lia.
        replace (Z.to_nat a + (i - Z.to_nat a)) with i by lia.
        destruct (nth_error AA i) as [row|]; [|reflexivity]. cbn [option_map]. rewrite nth_error_seg by lia. f_equal. lia.
    - eexists. split; [reflexivity|]. unfold P. cbn [fst snd]. rewrite py_slice_seg by lia.
      assert (IN : forall row, In row (seg AA a b) -> length row = n).
      { intros row Hrow. apply LR. unfold seg in Hrow. rewrite <- (firstn_skipn (Z.to_nat a) AA), in_app_iff. right.
        rewrite <- (firstn_skipn (Z.to_nat b - Z.to_nat a) (skipn (Z.to_nat a) AA)), in_app_iff. left. assumption. }
      assert (SL : map (fun row => py_slice row c d) (seg AA a b) = map (fun row => seg row c d) (seg AA a b)).
      { apply map_ext_in. intros row Hrow. apply py_slice_seg; [lia|]. rewrite (IN row) by assumption. lia. }
      rewrite SL. split.
      + cbn [gshape]. split; [rewrite map_length, seg_length; lia|]. split; [|lia].
        intros row Hrow. apply in_map_iff in Hrow. destruct Hrow as (row' & <- & Hrow').
        apply seg_length; [lia|]. rewrite (IN row') by assumption. lia.
      + intros i j Hi Hj. cbn [gentry]. rewrite nth_error_map, nth_error_seg by lia.
        replace (Z.to_nat a + (i - Z.to_nat a)) with i by lia.
        destruct (nth_error AA i) as [row|]; [|reflexivity]. cbn [option_map]. rewrite nth_error_seg by lia. f_equal. lia. }
  destruct G as (R & E & F). exists R. split; [exact E|].
  split; [rewrite <- (Forall2_len _ _ _ F), pairs_of_length; reflexivity|].
  intros I J HI HJ.
  destruct (Forall2_nth' _ _ _ I _ F (pairs_nth_error o I HI)) as (row & ER & FR).
  destruct (Forall2_nth' _ _ _ J _ FR (pairs_nth_error o J HJ)) as (g & EG & PG).
  exists row, g. split; [exact ER|]. split; [rewrite <- (Forall2_len _ _ _ FR), pairs_of_length; reflexivity|].
  split; [exact EG|]. exact PG.
Qed.
