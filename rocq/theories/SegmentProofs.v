(** Distance of points from segments: the meaning and lemmas *)
From Verif Require Import SegmentModel EmbedModel.
From Coq Require Import Lra Psatz.
Local Open Scope R_scope.

(** Euclidean distance of two points *)
Definition dist (x y : list R) : R := sqrt (rsum (length x) (fun i => (nth i x 0 - nth i y 0) ^ 2)).
(** Q is a point of the segment from A to B *)
Definition on_segment (A B Q : list R) : Prop :=
  length Q = length A /\ exists s, 0 <= s <= 1 /\ forall i, (i < length A)%nat -> nth i Q 0 = nth i A 0 + s * (nth i B 0 - nth i A 0).
(** d is the least of the distances of P from the points satisfying S *)
Definition least_distance (P : list R) (S : list R -> Prop) (d : R) : Prop :=
  (forall Q, S Q -> d <= dist P Q) /\ exists Q, S Q /\ d = dist P Q.
(** Points of the plane or of the space *)
Definition planar_or_spatial (x : list R) : Prop := length x = 2%nat \/ length x = 3%nat.

(** The square of the distance at the parameter s, a parabola *)
Definition parabola (uu uv vv s : R) : R := s * s * uu - 2 * s * uv + vv.

Lemma parabola_low uu uv vv s : 0 < uu -> uv < 0 -> 0 <= s <= 1 -> vv <= parabola uu uv vv s.
Proof. unfold parabola. intros. assert (0 <= s * s * uu) by (apply Rmult_le_pos; nra). nra. Qed.
Lemma parabola_high uu uv vv s : 0 < uu -> uu < uv -> 0 <= s <= 1 -> parabola uu uv vv 1 <= parabola uu uv vv s.
Proof.
  unfold parabola. intros. assert (0 <= (1 - s) * (2 * uv - uu * (1 + s))) by (apply Rmult_le_pos; nra). nra.
Qed.
Lemma parabola_mid uu uv vv s : 0 < uu -> parabola uu uv vv (uv / uu) <= parabola uu uv vv s.
Proof.
  intros H. assert (E : parabola uu uv vv s - parabola uu uv vv (uv / uu) = uu * ((s - uv / uu) * (s - uv / uu))) by (unfold parabola; field; lra).
  assert (0 <= uu * ((s - uv / uu) * (s - uv / uu))) by (apply Rmult_le_pos; [lra|apply Rle_0_sqr]). lra.
Qed.
Lemma parabola_top uu uv vv : 0 < uu -> parabola uu uv vv (uv / uu) = (uu * vv - uv * uv) / uu.
Proof. intros H. unfold parabola. field. lra. Qed.

(** What has to be shown about the squares *)
Section Generic.
Variables (P A B : list R).
Variable point : R -> list R.
Variables (uu uv vv : R).
Hypothesis Hpoint : forall s, 0 <= s <= 1 -> on_segment A B (point s).
Hypothesis Honly : forall Q, on_segment A B Q -> exists s, 0 <= s <= 1 /\ Q = point s.
Hypothesis Hdist : forall s, dist P (point s) = sqrt (parabola uu uv vv s).
Hypothesis Huu : 0 < uu.

Lemma least_at s0 : 0 <= s0 <= 1 -> (forall s, 0 <= s <= 1 -> parabola uu uv vv s0 <= parabola uu uv vv s) ->
  least_distance P (on_segment A B) (sqrt (parabola uu uv vv s0)).
Proof using Hpoint Honly Hdist.
  intros H0 H. split.
  - intros Q HQ. destruct (Honly Q HQ) as (s & Hs & ->). rewrite Hdist. apply sqrt_le_1_alt, H, Hs.
  - exists (point s0). split; [apply Hpoint, H0|]. symmetry. apply Hdist.
Qed.
End Generic.

Lemma sqrt_sq2 x : 0 <= x -> sqrt x * (sqrt x * 1) = x.
Proof. intros. rewrite Rmult_1_r. apply sqrt_sqrt. assumption. Qed.

Lemma norm_over c uu (W : R) : 0 < uu -> 0 <= W -> c = W -> sqrt c / sqrt uu = sqrt (W / uu).
Proof. intros H H0 ->. rewrite sqrt_div; [reflexivity|exact H0|exact H]. Qed.

Ltac nonneg := repeat apply Rplus_le_le_0_compat; try apply Rle_0_sqr; try lra.

Lemma plane_point a0 a1 b0 b1 Q : on_segment [a0; a1] [b0; b1] Q ->
  exists s, 0 <= s <= 1 /\ Q = [a0 + s * (b0 - a0); a1 + s * (b1 - a1)].
Proof.
  intros (L & s & Hs & H). exists s. split; [exact Hs|].
  destruct Q as [|q0 [|q1 [|? ?]]]; try discriminate L.
  assert (H0 := H 0%nat (Nat.lt_0_succ _)). assert (H1 := H 1%nat ltac:(cbn; lia)). cbn in H0, H1. rewrite H0, H1. reflexivity.
Qed.
Lemma space_point a0 a1 a2 b0 b1 b2 Q : on_segment [a0; a1; a2] [b0; b1; b2] Q ->
  exists s, 0 <= s <= 1 /\ Q = [a0 + s * (b0 - a0); a1 + s * (b1 - a1); a2 + s * (b2 - a2)].
Proof.
  intros (L & s & Hs & H). exists s. split; [exact Hs|].
  destruct Q as [|q0 [|q1 [|q2 [|? ?]]]]; try discriminate L.
  assert (H0 := H 0%nat (Nat.lt_0_succ _)). assert (H1 := H 1%nat ltac:(cbn; lia)). assert (H2 := H 2%nat ltac:(cbn; lia)).
  cbn in H0, H1, H2. rewrite H0, H1, H2. reflexivity.
Qed.

Lemma sum2_pos x y : x <> 0 \/ y <> 0 -> 0 < x * x + (y * y + 0).
Proof. intros [H|H]; assert (0 < x * x \/ 0 < y * y) by (first [left; nra|right; nra]); nra. Qed.

(** The value, with the products of u = B - A and v = P - A *)
Lemma branch (uu uv vv w l : R) (low high mid : R) :
  0 < uu -> l = sqrt uu -> low = sqrt (parabola uu uv vv 0) -> high = sqrt (parabola uu uv vv 1) ->
  mid = sqrt w / l -> w = uu * vv - uv * uv -> 0 <= w ->
  exists s0, 0 <= s0 <= 1 /\ (forall s, 0 <= s <= 1 -> parabola uu uv vv s0 <= parabola uu uv vv s) /\
  (if Rlt_dec (uv / l ^ 2) 0 then low else if Rlt_dec 1 (uv / l ^ 2) then high else mid) = sqrt (parabola uu uv vv s0).
Proof.
  intros Huu -> -> -> -> Hw Hw0. cbn [pow]. rewrite sqrt_sq2 by lra.
  assert (Et : uv = uv / uu * uu) by (field; lra).
  destruct (Rlt_dec (uv / uu) 0) as [H0|H0]; [|destruct (Rlt_dec 1 (uv / uu)) as [H1|H1]].
  - exists 0. split; [lra|]. split; [|reflexivity]. intros s Hs.
    assert (uv < 0) by nra. assert (E0 : parabola uu uv vv 0 = vv) by (unfold parabola; ring). rewrite E0. apply parabola_low; assumption.
  - exists 1. split; [lra|]. split; [|reflexivity]. intros s Hs. apply parabola_high; [assumption|nra|assumption].
  - exists (uv / uu). split; [lra|]. split; [intros s _; apply parabola_mid; assumption|].
    rewrite parabola_top by assumption. rewrite Hw. symmetry. apply sqrt_div; [lra|assumption].
Qed.

Lemma distance_plane p0 p1 a0 a1 b0 b1 : [a0; a1] <> [b0; b1] ->
  exists d, segment_distance [p0; p1] [a0; a1] [b0; b1] = Ok (Some d) /\ least_distance [p0; p1] (on_segment [a0; a1] [b0; b1]) d.
Proof.
  intros N. set (uu := (b0 - a0) * (b0 - a0) + ((b1 - a1) * (b1 - a1) + 0)).
  set (uv := (b0 - a0) * (p0 - a0) + ((b1 - a1) * (p1 - a1) + 0)).
  set (vv := (p0 - a0) * (p0 - a0) + ((p1 - a1) * (p1 - a1) + 0)).
  assert (Huu : 0 < uu).
  { apply sum2_pos. destruct (Req_dec (b0 - a0) 0) as [E0|E0]; [|tauto]. destruct (Req_dec (b1 - a1) 0) as [E1|E1]; [|tauto].
    exfalso. apply N. f_equal; [lra|]. f_equal. lra. }
  set (w := ((b0 - a0) * (p1 - a1) - (b1 - a1) * (p0 - a0)) * ((b0 - a0) * (p1 - a1) - (b1 - a1) * (p0 - a0)) + 0).
  destruct (branch uu uv vv w (sqrt uu) (rnorm (rsub [a0; a1] [p0; p1])) (rnorm (rsub [b0; b1] [p0; p1])) (sqrt w / sqrt uu)) as (s0 & Hs0 & Hm & Hv).
  - exact Huu.
  - reflexivity.
  - unfold rnorm, parabola, vv. cbn [rsub rdot]. f_equal. ring.
  - unfold rnorm, parabola, uu, uv, vv. cbn [rsub rdot]. f_equal. ring.
  - reflexivity.
  - unfold w, uu, uv, vv. ring.
  - unfold w. nonneg.
  - exists (sqrt (parabola uu uv vv s0)). split.
    + unfold segment_distance. cbn [length Nat.eqb andb negb rsub]. change (rnorm [b0 - a0; b1 - a1]) with (sqrt uu).
      destruct (Req_EM_T (sqrt uu) 0) as [E|_]; [exfalso; apply sqrt_lt_R0 in Huu; lra|].
      rewrite <- Hv. cbn [rdot np_cross bind]. fold uv.
      destruct (Rlt_dec (uv / sqrt uu ^ 2) 0); [reflexivity|]. destruct (Rlt_dec 1 (uv / sqrt uu ^ 2)); [reflexivity|].
      unfold rnorm. cbn [rdot]. fold w. reflexivity.
    + apply (least_at _ _ _ (fun s => [a0 + s * (b0 - a0); a1 + s * (b1 - a1)])).
      * intros s Hs. split; [reflexivity|]. exists s. split; [exact Hs|]. intros [|[|i]] Hi; [reflexivity|reflexivity|cbn in Hi; lia].
      * apply plane_point.
      * intros s. unfold dist, parabola, uu, uv, vv. cbn [length rsum nth]. f_equal. ring.
      * exact Hs0.
      * exact Hm.
Qed.

Lemma distance_space p0 p1 p2 a0 a1 a2 b0 b1 b2 : [a0; a1; a2] <> [b0; b1; b2] ->
  exists d, segment_distance [p0; p1; p2] [a0; a1; a2] [b0; b1; b2] = Ok (Some d) /\ least_distance [p0; p1; p2] (on_segment [a0; a1; a2] [b0; b1; b2]) d.
Proof.
  intros N. set (uu := (b0 - a0) * (b0 - a0) + ((b1 - a1) * (b1 - a1) + ((b2 - a2) * (b2 - a2) + 0))).
  set (uv := (b0 - a0) * (p0 - a0) + ((b1 - a1) * (p1 - a1) + ((b2 - a2) * (p2 - a2) + 0))).
  set (vv := (p0 - a0) * (p0 - a0) + ((p1 - a1) * (p1 - a1) + ((p2 - a2) * (p2 - a2) + 0))).
  assert (Huu : 0 < uu).
  { assert (S0 := Rle_0_sqr (b0 - a0)). assert (S1 := Rle_0_sqr (b1 - a1)). assert (S2 := Rle_0_sqr (b2 - a2)). unfold Rsqr in *.
    destruct (Rtotal_order 0 uu) as [H|[H|H]]; [exact H| |unfold uu in H; lra].
    exfalso. apply N. assert (E0 : (b0 - a0) * (b0 - a0) = 0) by (unfold uu in H; lra). assert (E1 : (b1 - a1) * (b1 - a1) = 0) by (unfold uu in H; lra).
    assert (E2 : (b2 - a2) * (b2 - a2) = 0) by (unfold uu in H; lra).
    apply Rsqr_0_uniq in E0, E1, E2. f_equal; [lra|]. f_equal; [lra|]. f_equal. lra. }
  set (c0 := (b1 - a1) * (p2 - a2) - (b2 - a2) * (p1 - a1)). set (c1 := (b2 - a2) * (p0 - a0) - (b0 - a0) * (p2 - a2)).
  set (c2 := (b0 - a0) * (p1 - a1) - (b1 - a1) * (p0 - a0)).
  set (w := c0 * c0 + (c1 * c1 + (c2 * c2 + 0))).
  destruct (branch uu uv vv w (sqrt uu) (rnorm (rsub [a0; a1; a2] [p0; p1; p2])) (rnorm (rsub [b0; b1; b2] [p0; p1; p2])) (sqrt w / sqrt uu)) as (s0 & Hs0 & Hm & Hv).
  - exact Huu.
  - reflexivity.
  - unfold rnorm, parabola, vv. cbn [rsub rdot]. f_equal. ring.
  - unfold rnorm, parabola, uu, uv, vv. cbn [rsub rdot]. f_equal. ring.
  - reflexivity.
  - unfold w, c0, c1, c2, uu, uv, vv. ring.
  - unfold w. nonneg.
  - exists (sqrt (parabola uu uv vv s0)). split.
    + unfold segment_distance. cbn [length Nat.eqb andb negb rsub]. change (rnorm [b0 - a0; b1 - a1; b2 - a2]) with (sqrt uu).
      destruct (Req_EM_T (sqrt uu) 0) as [E|_]; [exfalso; apply sqrt_lt_R0 in Huu; lra|].
      rewrite <- Hv. cbn [rdot np_cross bind]. fold uv.
      destruct (Rlt_dec (uv / sqrt uu ^ 2) 0); [reflexivity|]. destruct (Rlt_dec 1 (uv / sqrt uu ^ 2)); [reflexivity|].
      unfold rnorm. cbn [rdot]. fold c0 c1 c2. fold w. reflexivity.
    + apply (least_at _ _ _ (fun s => [a0 + s * (b0 - a0); a1 + s * (b1 - a1); a2 + s * (b2 - a2)])).
      * intros s Hs. split; [reflexivity|]. exists s. split; [exact Hs|]. intros [|[|[|i]]] Hi; [reflexivity|reflexivity|reflexivity|cbn in Hi; lia].
      * apply space_point.
      * intros s. unfold dist, parabola, uu, uv, vv. cbn [length rsum nth]. f_equal. ring.
      * exact Hs0.
      * exact Hm.
Qed.

Lemma distance_least P A B : planar_or_spatial P -> length A = length P -> length B = length P -> A <> B ->
  exists d, segment_distance P A B = Ok (Some d) /\ least_distance P (on_segment A B) d.
Proof.
  intros [L|L] LA LB N; rewrite L in *.
  - destruct P as [|p0 [|p1 [|? ?]]]; try discriminate L. destruct A as [|a0 [|a1 [|? ?]]]; try discriminate LA.
    destruct B as [|b0 [|b1 [|? ?]]]; try discriminate LB. apply distance_plane, N.
  - destruct P as [|p0 [|p1 [|p2 [|? ?]]]]; try discriminate L. destruct A as [|a0 [|a1 [|a2 [|? ?]]]]; try discriminate LA.
    destruct B as [|b0 [|b1 [|b2 [|? ?]]]]; try discriminate LB. apply distance_space, N.
Qed.

Lemma rsub_self A : rdot (rsub A A) (rsub A A) = 0.
Proof. induction A as [|a A IH]; [reflexivity|]. cbn [rsub rdot]. rewrite IH. ring. Qed.
Lemma rnorm_self A : rnorm (rsub A A) = 0.
Proof. unfold rnorm. rewrite rsub_self. apply sqrt_0. Qed.
Lemma distance_degenerate P A : planar_or_spatial P -> length A = length P -> segment_distance P A A = Ok None.
Proof.
  intros H LA. unfold segment_distance. rewrite Nat.eqb_refl, LA, Nat.eqb_refl. cbn [negb andb]. rewrite rnorm_self.
  destruct (Req_EM_T 0 0) as [_|N]; [|lra].
  destruct H as [L|L]; rewrite L in *.
  - destruct P as [|p0 [|p1 [|? ?]]]; try discriminate L. destruct A as [|a0 [|a1 [|? ?]]]; try discriminate LA. reflexivity.
  - destruct P as [|p0 [|p1 [|p2 [|? ?]]]]; try discriminate L. destruct A as [|a0 [|a1 [|a2 [|? ?]]]]; try discriminate LA. reflexivity.
Qed.

(** The field *)
Definition good_segment (n : nat) (s : list R * list R) : Prop := length (fst s) = n /\ length (snd s) = n /\ fst s <> snd s.
(** d is the least of 3 and the distances from the points of the segments *)
Definition capped_distance (segs : list (list R * list R)) (x : list R) (d : R) : Prop :=
  d <= 3 /\ (forall s Q, In s segs -> on_segment (fst s) (snd s) Q -> d <= dist x Q) /\
  (d = 3 \/ exists s Q, In s segs /\ on_segment (fst s) (snd s) Q /\ d = dist x Q).

Lemma mapM_all {A B} (f : A -> res B) (Q : A -> B -> Prop) l :
  (forall x, In x l -> exists y, f x = Ok y /\ Q x y) -> exists ys, mapM f l = Ok ys /\ Forall2 Q l ys.
Proof.
  induction l as [|x l IH]; intros H; [exists []; split; [reflexivity|constructor]|].
  destruct (H x (or_introl eq_refl)) as (y & Ey & Hy). destruct IH as (ys & Es & Hs); [intros; apply H; right; assumption|].
  exists (y :: ys). split; [cbn; rewrite Ey; cbn; rewrite Es; reflexivity|constructor; assumption].
Qed.

Lemma min_step segs s x d e : capped_distance segs x d -> least_distance x (on_segment (fst s) (snd s)) e ->
  capped_distance (segs ++ [s]) x (Rmin d e).
Proof.
  intros (H3 & Hle & Hat) (El & Q0 & HQ0 & Ee). split; [|split].
  - apply Rle_trans with d; [apply Rmin_l|assumption].
  - intros t Q Ht HQ. apply in_app_or in Ht. destruct Ht as [Ht|[<-|[]]].
    + apply Rle_trans with d; [apply Rmin_l|apply (Hle t); assumption].
    + apply Rle_trans with e; [apply Rmin_r|apply El; assumption].
  - unfold Rmin. destruct (Rle_dec d e).
    + destruct Hat as [->|(t & Q & Ht & HQ & ->)]; [left; reflexivity|right]. exists t, Q. split; [apply in_or_app; left; assumption|]. split; [assumption|reflexivity].
    + right. exists s, Q0. split; [apply in_or_app; right; left; reflexivity|]. split; assumption.
Qed.

Lemma field_loop n xs : (n = 2 \/ n = 3)%nat -> Forall (fun x => length x = n) xs -> forall segs done dist0,
  Forall (good_segment n) segs -> Forall2 (fun x o => exists d, o = Some d /\ capped_distance done x d) xs dist0 ->
  exists ds, foldM (fun distance s => do d <- mapM (fun x => segment_distance x (fst s) (snd s)) xs;
           Ok (map (fun p => np_minimum (fst p) (snd p)) (combine distance d))) segs dist0 = Ok ds /\
    Forall2 (fun x o => exists d, o = Some d /\ capped_distance (done ++ segs) x d) xs ds.
Proof.
  intros Hn Hx. induction segs as [|s segs IH]; intros done dist0 Hs H0.
  - exists dist0. split; [reflexivity|]. rewrite app_nil_r. exact H0.
  - inversion Hs as [|? ? (LA & LB & N) Hs']; subst.
    destruct (mapM_all (fun x => segment_distance x (fst s) (snd s))
                (fun x o => exists e, o = Some e /\ least_distance x (on_segment (fst s) (snd s)) e) xs) as (es & Ees & Hes).
    { intros x Ix. assert (Lx := proj1 (Forall_forall _ _) Hx x Ix). cbn beta in Lx.
      destruct (distance_least x (fst s) (snd s)) as (d & Ed & Hd); [unfold planar_or_spatial; rewrite Lx; exact Hn|congruence|congruence|exact N|].
      exists (Some d). split; [exact Ed|]. exists d. split; [reflexivity|exact Hd]. }
    cbn [foldM]. rewrite Ees. cbn [bind].
    destruct (IH (done ++ [s]) (map (fun p => np_minimum (fst p) (snd p)) (combine dist0 es)) Hs') as (ds & Eds & Hds).
    { clear - H0 Hes. revert dist0 es H0 Hes. induction xs as [|x xs IHx]; intros dist0 es H0 Hes;
      inversion H0 as [|? o ? dist1 (d & Eo & Hd) Ha]; inversion Hes as [|? p ? es1 (e & Ep & He) Hb]; subst; [constructor|].
      cbn [combine map]. constructor; [|apply IHx; assumption]. exists (Rmin d e). split; [reflexivity|]. apply min_step; assumption. }
    exists ds. split; [exact Eds|]. rewrite <- app_assoc in Hds. exact Hds.
Qed.
