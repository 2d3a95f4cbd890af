(** C101: distances from segments *)
From Verif Require Import SegmentModel SegmentProofs EmbedModel.
From Coq Require Import Lra.
Local Open Scope R_scope.

(** segment_distance is the least distance of P from the points of the segment, for different ends in the plane or in space *)
Theorem C101_distance_partial : forall P A B, planar_or_spatial P -> length A = length P -> length B = length P -> A <> B ->
  exists d, segment_distance P A B = Ok (Some d) /\ least_distance P (on_segment A B) d.
Proof. exact distance_least. Qed.
Print Assumptions C101_distance_partial.

(** If the ends agree the result is nan, though the distance from the only point is a number *)
Theorem C101_lengths : forall P A B, ~ (length A = length P /\ length B = length P) -> segment_distance P A B = Err ValueError.
Proof.
  intros P A B H. unfold segment_distance. destruct (Nat.eqb_spec (length A) (length B)), (Nat.eqb_spec (length A) (length P)); cbn [andb negb]; try reflexivity. exfalso. apply H. lia.
Qed.
Print Assumptions C101_lengths.
Theorem C101_distance_refuted : forall P A, planar_or_spatial P -> length A = length P ->
  segment_distance P A A = Ok None /\ least_distance P (on_segment A A) (dist P A).
Proof.
  intros P A HP LA. split; [apply distance_degenerate; assumption|].
  assert (E : forall Q, on_segment A A Q -> Q = A).
  { intros Q (L & s & _ & H). apply nth_ext with 0 0; [exact L|]. intros i Hi. rewrite H by (rewrite <- L; exact Hi). ring. }
  split.
  - intros Q HQ. rewrite (E Q HQ). apply Rle_refl.
  - exists A. split; [|reflexivity]. split; [reflexivity|]. exists 0. split; [lra|]. intros. ring.
Qed.
Print Assumptions C101_distance_refuted.

(** Points of other dimensions are refused when the nearest point is an inner one *)
Theorem C101_dimension_refuted : forall P A B, length A = length P -> length B = length P -> length P <> 2%nat -> length P <> 3%nat ->
  rnorm (rsub B A) <> 0 -> 0 <= rdot (rsub B A) (rsub P A) <= rnorm (rsub B A) ^ 2 ->
  segment_distance P A B = Err ValueError.
Proof.
  intros P A B LA LB N2 N3 Hl [H0 H1]. unfold segment_distance. rewrite LA, LB, !Nat.eqb_refl. cbn [negb andb].
  destruct (Req_EM_T (rnorm (rsub B A)) 0) as [E|_]; [contradiction|].
  assert (Hp : 0 < rnorm (rsub B A) ^ 2) by (assert (0 <= rnorm (rsub B A)) by apply sqrt_pos; apply pow_lt; lra).
  set (L := rnorm (rsub B A) ^ 2) in *. set (d := rdot (rsub B A) (rsub P A)) in *.
  assert (Ed : d = d / L * L) by (field; lra).
  destruct (Rlt_dec (d / L) 0) as [H|_]; [nra|]. destruct (Rlt_dec 1 (d / L)) as [H|_]; [nra|].
  assert (LL : length (rsub B A) = length P).
  { clear - LA LB. rewrite <- LA in LB. rewrite <- LA. clear LA. revert A LB. induction B as [|b B IH]; intros [|a A] H; try discriminate H; [reflexivity|].
    cbn. f_equal. apply IH. cbn in H. lia. }
  destruct (rsub B A) as [|u0 [|u1 [|u2 [|u3 u]]]]; cbn in LL; try (exfalso; congruence); reflexivity.
Qed.
Print Assumptions C101_dimension_refuted.

(** The function: at every dof the least of 3 and the distances from all segments *)
Theorem C101_field_partial : forall n segs xs, (n = 2 \/ n = 3)%nat -> Forall (good_segment n) segs -> Forall (fun x => length x = n) xs ->
  exists ds, distance_field segs xs = Ok ds /\ Forall2 (fun x o => exists d, o = Some d /\ capped_distance segs x d) xs ds.
Proof.
  intros n segs xs Hn Hs Hx. apply (field_loop n xs Hn Hx segs []); [exact Hs|].
  clear. induction xs as [|x xs IH]; [constructor|]. constructor; [|exact IH]. exists (0 + 3). split; [reflexivity|].
  split; [lra|]. split; [intros s Q []|]. left. ring.
Qed.
Print Assumptions C101_field_partial.

(** The axis of the cube from the midpoints of its faces and a corner *)
Example C101_ex : exists d, segment_distance [0; 0; 0] [0; 1; 0] [1; 1; 0] = Ok (Some d) /\ d = 1.
Proof.
  destruct (C101_distance_partial [0; 0; 0] [0; 1; 0] [1; 1; 0]) as (d & E & (Hle & Q & (L & s & Hs & H) & Ed)).
  - right. reflexivity.
  - reflexivity.
  - reflexivity.
  - intros C. apply (f_equal (fun l => nth 0 l 0)) in C. cbn in C. lra.
  - exists d. split; [exact E|]. apply Rle_antisym.
    + assert (D : dist [0; 0; 0] [0; 1; 0] = 1). { unfold dist. cbn. replace (_ + _) with 1 by ring. apply sqrt_1. }
      rewrite <- D. apply Hle. split; [reflexivity|]. exists 0. split; [lra|]. intros [|[|[|i]]] Hi; cbn in *; try ring; lia.
    + rewrite Ed. rewrite <- sqrt_1 at 1. apply sqrt_le_1_alt. cbn [length rsum].
      rewrite (H 1%nat) by (cbn; lia). cbn [nth]. assert (0 <= (0 - nth 0 Q 0) ^ 2) by (cbn; rewrite Rmult_1_r; apply Rle_0_sqr).
      assert (0 <= (0 - nth 2 Q 0) ^ 2) by (cbn; rewrite Rmult_1_r; apply Rle_0_sqr). cbn [nth] in *. nra.
Qed.
Example C101_dimension_ex : segment_distance [0; 0; 0; 0] [1; 0; 0; 0] [0; 1; 0; 0] = Err ValueError.
Proof.
  apply C101_dimension_refuted; try reflexivity; try discriminate; unfold rnorm; cbn [rsub rdot].
  - replace (_ + _) with 2 by ring. assert (0 < sqrt 2) by (apply sqrt_lt_R0; lra). lra.
  - set (x := (0 - 1) * (0 - 1) + ((1 - 0) * (1 - 0) + _)). replace x with 2 by (unfold x; ring).
    replace (sqrt 2 ^ 2) with 2 by (cbn [pow]; rewrite Rmult_1_r; symmetry; apply sqrt_sqrt; lra). split; lra.
Qed.
