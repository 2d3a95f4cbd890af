(** Properties C15-C17, C51, C52: the block operators. *)
From Coq Require Import Sorting.Sorted Permutation.
From Verif Require Import Base BaseProofs Mat MatProofs BlockUtilsModel BlockUtilsProofs.

(** ** C15 RegroupOperator *)

(** The constructor accepts exactly the strictly increasing offsets that end
    at the number of spaces. *)
Theorem C15_accepts : forall o n, (exists offs, regroup_init o n = Ok offs) <-> valid_offsets o n.
Proof. exact regroup_init_iff. Qed.
Print Assumptions C15_accepts.

(** Anything else is an AssertionError or, for the empty list, an IndexError. *)
Theorem C15_rejects : forall o n, ~ valid_offsets o n ->
  regroup_init o n = Err AssertionError \/ (o = [] /\ regroup_init o n = Err IndexError).
Proof.
  intros o n H. destruct o as [|x o]; [right; split; reflexivity|left].
  unfold regroup_init, valid_offsets in *.
  rewrite (last_offset_last (x :: o)) by discriminate. cbn [bind].
  destruct (Z.eqb_spec (Z.of_nat n) (last (x :: o) 0%Z)) as [E|E]; [|reflexivity]. cbn [py_assert bind].
  destruct (is_increasing (x :: o)) eqn:I; [|reflexivity].
  elim H. apply increasing_sorted in I. destruct I. split; [discriminate|]. split; [assumption|congruence].
Qed.
Print Assumptions C15_rejects.

(** Group k holds the blocks from offset k-1 (0 for the first) up to offset k,
    in order; a group of one is the block itself. *)
Theorem C15_groups : forall o n bs offs r k,
  valid_offsets o n -> (0 < hd 0 o)%Z -> length bs = n -> 1 < length o -> regroup_init o n = Ok offs ->
  regroup_matvec offs (map BV bs) = Ok r -> k < length o ->
  exists gs, r = BB gs /\ length gs = length o /\
    nth k gs (BB []) = grp (seg bs (low o k) (nth k o 0%Z)).
Proof. exact regroup_group_k. Qed.
Print Assumptions C15_groups.

(** matvec succeeds, and transpmult restores the blocks; positive offsets and
    at least two spaces. *)
Theorem C15_inverse_partial : forall o n bs offs,
  valid_offsets o n -> (0 < hd 0 o)%Z -> length bs = n -> 1 < n -> regroup_init o n = Ok offs ->
  exists r, regroup_matvec offs (map BV bs) = Ok r /\ regroup_transpmult r = Ok (BB (map BV bs)).
Proof.
  intros o n bs offs V H0 L Hn HI. eexists. split; [apply (regroup_groups o n bs offs V H0 L HI)|].
  eapply regroup_inverse; [exact V|exact H0|exact L|exact Hn|exact HI|]. apply (regroup_groups o n bs offs V H0 L HI).
Qed.
Print Assumptions C15_inverse_partial.

(** With a single space the accepted offsets [1] give a Vector, whose transpose
    action raises. *)
Theorem C15_single_space_refuted : forall x v, exists offs r,
  regroup_init [1%Z] 1 = Ok offs /\ regroup_matvec offs (map BV [x :: v]) = Ok r /\
  regroup_transpmult r = Err AttributeError.
Proof. intros. do 2 eexists. split; [reflexivity|]. split; reflexivity. Qed.
Print Assumptions C15_single_space_refuted.

(** Negative offsets pass the checks, and blocks are then repeated. *)
Theorem C15_negative_refuted : forall a b c : vec, exists offs r,
  valid_offsets [-1; 1; 3]%Z 3 /\ regroup_init [-1; 1; 3]%Z 3 = Ok offs /\
  regroup_matvec offs (map BV [a; b; c]) = Ok r /\
  regroup_transpmult r = Ok (BB (map BV [a; b; b; c])).
Proof.
  intros. do 2 eexists. split; [|split; [reflexivity|split; reflexivity]].
  split; [discriminate|]. split; [repeat constructor; lia|reflexivity].
Qed.
Print Assumptions C15_negative_refuted.

Example C15_hyps : valid_offsets [1; 3]%Z 3 /\ (0 < hd 0 [1; 3]%Z)%Z /\ 1 < length [1; 3]%Z /\
  regroup_init [1; 3]%Z 3 = Ok [0; 1; 3]%Z /\
  forall a b c, regroup_matvec [0; 1; 3]%Z (map BV [a; b; c]) = Ok (BB [BV a; BB [BV b; BV c]]).
Proof.
  split; [split; [discriminate|split; [repeat constructor; lia|reflexivity]]|].
  split; [reflexivity|]. split; [cbn; lia|]. split; reflexivity.
Qed.

(** ** C16 ReductionOperator *)

Theorem C16_accepts : forall o n, (exists m, reduction_mapping o n = Ok m) <-> valid_offsets o n.
Proof. exact reduction_mapping_iff. Qed.
Print Assumptions C16_accepts.

(** matvec concatenates the blocks of each group in order; transpmult of the
    result gives the blocks back, also for a single group. *)
Theorem C16_reduces : forall o n bs mapping isets,
  valid_offsets o n -> (0 < hd 0 o)%Z -> length bs = n ->
  reduction_mapping o n = Ok mapping -> rearange_init mapping (map (@length Qc) bs) = Ok isets ->
  let r := wrap (map (fun k => BV (concat (seg bs (low o k) (nth k o 0%Z)))) (seq 0 (length o))) in
  rearange_matvec mapping (map (@length Qc) bs) (BB (map BV bs)) = Ok r /\
  rearange_transpmult mapping isets r = Ok (BB (map BV bs)).
Proof. exact reduction_correct. Qed.
Print Assumptions C16_reduces.

(** Negative offsets are accepted; the transpose then returns too many blocks. *)
Theorem C16_negative_refuted : forall a b c : Qc, exists mapping isets r,
  reduction_mapping [-1; 1; 3]%Z 3 = Ok mapping /\ rearange_init mapping [1; 1; 1] = Ok isets /\
  rearange_matvec mapping [1; 1; 1] (BB (map BV [[a]; [b]; [c]])) = Ok r /\
  rearange_transpmult mapping isets r = Ok (BB (map BV [[a]; [b]; [c]; [c]])).
Proof. intros. do 3 eexists. split; [reflexivity|]. split; [reflexivity|]. split; reflexivity. Qed.
Print Assumptions C16_negative_refuted.

Example C16_hyps : forall a b c : Qc, exists mapping isets,
  valid_offsets [1; 3]%Z 3 /\ reduction_mapping [1; 3]%Z 3 = Ok mapping /\ rearange_init mapping [1; 2; 1] = Ok isets /\
  rearange_matvec mapping [1; 2; 1] (BB (map BV [[a]; [b; b]; [c]])) = Ok (BB [BV [a]; BV [b; b; c]]) /\
  rearange_transpmult mapping isets (BB [BV [a]; BV [b; b; c]]) = Ok (BB (map BV [[a]; [b; b]; [c]])).
Proof.
  intros. do 2 eexists. split; [split; [discriminate|split; [repeat constructor; lia|reflexivity]]|].
  split; [reflexivity|]. split; [reflexivity|]. split; reflexivity.
Qed.

(** ** C17 SubSelectOperator *)

(** For distinct positions: (S x, y) = (x, S^T y) and S S^T y = y. *)
Theorem C17_adjoint : forall idx ks xs ys sizes,
  map (@length Qc) xs = sizes -> positions (length xs) idx ks -> NoDup ks -> length ys = length idx ->
  exists zs,
    subselect_matvec idx (BB (map BV xs)) = Ok (wrap (map BV (blocks_of xs ks))) /\
    subselect_transpmult idx sizes (wrap (map BV ys)) = Ok (BB (map BV zs)) /\
    bdot (blocks_of xs ks) ys = bdot xs zs /\
    subselect_matvec idx (BB (map BV zs)) = Ok (wrap (map BV ys)).
Proof. exact subselect_adjoint. Qed.
Print Assumptions C17_adjoint.

(** The scattered vector: y_j at position k_j, zeros of the right size elsewhere. *)
Theorem C17_scatter : forall idx ks sizes ys,
  positions (length sizes) idx ks -> NoDup ks -> length ys = length idx ->
  exists zs, subselect_transpmult idx sizes (wrap (map BV ys)) = Ok (BB (map BV zs)) /\ length zs = length sizes /\
    (forall j, j < length ks -> nth (nth j ks 0) zs [] = nth j ys []) /\
    (forall k, k < length sizes -> ~ In k ks -> nth k zs [] = vtab (nth k sizes 0) (fun _ => q0)).
Proof.
  intros idx ks sizes ys H ND LY. destruct (positions_facts _ _ _ H) as [LI F].
  assert (LZ : length (zero_blocks sizes) = length sizes) by (unfold zero_blocks; apply map_length).
  assert (FZ : Forall (fun k => k < length (zero_blocks sizes)) ks) by (rewrite LZ; exact F).
  eexists. split; [apply select_transp_value; eassumption|]. split; [rewrite place_length; assumption|].
  split.
  - intros j Hj. apply (place_at ks (zero_blocks sizes) ys 0 j FZ ND Hj).
  - intros k Hk N. rewrite place_other by assumption. apply nth_zero_blocks. assumption.
Qed.
Print Assumptions C17_scatter.

(** With one index a block vector goes in and a plain one comes out: the other kind is refused by both actions; a
    place that is not there is an IndexError *)
Theorem C17_kinds : forall i sizes v bs, subselect_matvec [i] (BV v) = Err AssertionError /\ subselect_transpmult [i] sizes (BB bs) = Err AssertionError /\
  ((i < - Z.of_nat (length bs))%Z \/ (Z.of_nat (length bs) <= i)%Z -> subselect_matvec [i] (BB bs) = Err IndexError) /\
  ((i < - Z.of_nat (length sizes))%Z \/ (Z.of_nat (length sizes) <= i)%Z -> subselect_transpmult [i] sizes (BV v) = Err IndexError).
Proof.
  intros i sizes v bs. split; [reflexivity|]. split; [reflexivity|]. split.
  - intros H. cbn [subselect_matvec]. unfold py_get, norm_index.
    destruct (Z.ltb_spec i 0) as [L|L].
    + replace (i + Z.of_nat (length bs) <? 0)%Z with true by (symmetry; apply Z.ltb_lt; lia). reflexivity.
    + destruct (Z.ltb_spec i 0) as [L'|_]; [lia|]. replace (nth_error bs (Z.to_nat i)) with (@None bobj) by (symmetry; apply nth_error_None; lia). reflexivity.
  - intros H. unfold subselect_transpmult. cbn [length Nat.eqb bind scatter]. change (py_get [BV v] (Z.of_nat 0)) with (Ok (BV v)). cbn [bind]. unfold py_set, norm_index. rewrite map_length.
    destruct (Z.ltb_spec i 0) as [L|L].
    + replace (i + Z.of_nat (length sizes) <? 0)%Z with true by (symmetry; apply Z.ltb_lt; lia). reflexivity.
    + replace (Z.of_nat (length sizes) <=? i)%Z with true by (symmetry; apply Z.leb_le; lia). rewrite orb_true_r. reflexivity.
Qed.
Print Assumptions C17_kinds.

(** With a repeated index the last value wins and S^T is not the adjoint. *)
Theorem C17_duplicate_refuted : exists xs ys sizes,
  subselect_matvec [0; 0]%Z (BB (map BV xs)) = Ok (BB (map BV (blocks_of xs [0; 0]))) /\
  exists zs, subselect_transpmult [0; 0]%Z sizes (BB (map BV ys)) = Ok (BB (map BV zs)) /\
  map (@length Qc) xs = sizes /\ length ys = 2 /\
  bdot (blocks_of xs [0; 0]) ys <> bdot xs zs.
Proof.
  exists [[q1]], [[q1]; [q1]], [1]. split; [reflexivity|]. exists [[q1]]. split; [reflexivity|].
  split; [reflexivity|]. split; [reflexivity|]. intros E. apply (f_equal this) in E. vm_compute in E. discriminate.
Qed.
Print Assumptions C17_duplicate_refuted.

Example C17_hyps : positions 3 [-1; 0]%Z [2; 0] /\ NoDup [2; 0].
Proof.
  split; [unfold positions; repeat constructor; lia|]. constructor; [intros [E|[]]; discriminate|]. constructor; [intros []|constructor].
Qed.

(** ** C51 RearangeOperator *)

Theorem C51_values : forall ms bs sizes,
  map (@length Qc) bs = sizes -> ms <> [] -> (forall l i, In l ms -> In i l -> i < length bs) ->
  rearange_matvec (map (map Z.of_nat) ms) sizes (BB (map BV bs)) =
  Ok (wrap (map (fun l => BV (concat (blocks_of bs l))) ms)).
Proof. exact rearange_value. Qed.
Print Assumptions C51_values.

(** When every block occurs once, the transpose restores the block vector. *)
Theorem C51_inverse : forall ms bs sizes isets r,
  map (@length Qc) bs = sizes -> ms <> [] -> Permutation (concat ms) (seq 0 (length bs)) ->
  rearange_init (map (map Z.of_nat) ms) sizes = Ok isets ->
  rearange_matvec (map (map Z.of_nat) ms) sizes (BB (map BV bs)) = Ok r ->
  rearange_transpmult (map (map Z.of_nat) ms) isets r = Ok (BB (map BV bs)).
Proof. exact rearange_inverse. Qed.
Print Assumptions C51_inverse.

(** A monolithic vector gives the same result as its blocks. *)
Theorem C51_monolithic : forall mapping bs sizes,
  map (@length Qc) bs = sizes ->
  rearange_matvec mapping sizes (BV (concat bs)) = rearange_matvec mapping sizes (BB (map BV bs)).
Proof. exact rearange_monolithic. Qed.
Print Assumptions C51_monolithic.

Example C51_hyps : Permutation (concat [[2; 0]; [1]]) (seq 0 3) /\
  forall a b c : Qc, rearange_matvec (map (map Z.of_nat) [[2; 0]; [1]]) [1; 1; 2] (BB (map BV [[a]; [b]; [c; c]]))
   = Ok (BB [BV [c; c; a]; BV [b]]).
Proof.
  split; [|reflexivity]. cbn. apply Permutation_trans with [0; 2; 1]; [apply perm_swap|]. apply perm_skip, perm_swap.
Qed.

(** ** C52 block_reshape *)

Theorem C52_reshape : forall {X} (AA : list (list X)) o n,
  valid_offsets o n -> (0 < hd 0 o)%Z -> length AA = n -> (forall row, In row AA -> length row = n) ->
  exists R, block_reshape AA o = Ok R /\ length R = length o /\
  forall I J, I < length o -> J < length o -> exists row g,
    nth_error R I = Some row /\ length row = length o /\ nth_error row J = Some g /\
    gshape g (Z.to_nat (nth I o 0%Z) - Z.to_nat (low o I)) (Z.to_nat (nth J o 0%Z) - Z.to_nat (low o J)) /\
    forall i j, Z.to_nat (low o I) <= i < Z.to_nat (nth I o 0%Z) -> Z.to_nat (low o J) <= j < Z.to_nat (nth J o 0%Z) ->
      gentry g (i - Z.to_nat (low o I)) (j - Z.to_nat (low o J)) =
      match nth_error AA i with Some r => nth_error r j | None => None end.
Proof. exact @block_reshape_correct. Qed.
Print Assumptions C52_reshape.

Example C52_hyps : block_reshape [[1; 2; 3]; [4; 5; 6]; [7; 8; 9]] [1; 3]%Z =
  Ok [[GOne 1; GMany [[2; 3]]]; [GMany [[4]; [7]]; GMany [[5; 6]; [8; 9]]]].
Proof. reflexivity. Qed.
