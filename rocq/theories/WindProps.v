(** C78: winding numbers of contours; C79: normals of curves. *)
From Coq Require Import Reals Lra Lia ZArith.
From Verif Require Import Base BaseProofs FillProofs BranchModel BranchProofs TangentModel TangentProofs TangentProps WindModel WindProofs.
Local Open Scope R_scope.

(** The contour p, path is closed and has edges.  The number of its turns around
    a point that is not on it is an integer, only one, and what wind_number
    computes comes as close to it as one likes with more refinements *)
Theorem C78_limit : forall c p path, path <> [] -> ends_at p path p -> avoids c p path ->
  exists k, winds c p path k /\ (forall k', winds c p path k' -> k' = k) /\
    forall eps, 0 < eps -> exists N, forall n, (N <= n)%Z -> exists w, wind_number (p :: path) [c] n = Ok [Some w] /\ Rabs (w - IZR k) < eps.
Proof.
  intros c p path Hne He Hav. destruct (contour_sum c path p Hav) as [K [a [HK [Ha Hn]]]].
  destruct (contour_winds c p path a Hne Hav He Ha) as [k Hk]. subst a. pose proof PI_RGT_0 as Hpi. exists k. split; [exact Ha | split].
  - intros k' Hk'. unfold winds in Hk'. pose proof (total_unique c path p _ _ Hav Ha Hk') as E.
    apply eq_IZR. apply Rmult_eq_reg_l with (2 * PI); lra.
  - intros eps Heps. destruct (cv_pow_half K eps Heps) as [N HN]. exists (Z.of_nat N). intros n Hle.
    destruct (Hn (Z.to_nat n)) as [v [E B]]. exists (v / 2 / PI). split.
    + rewrite (wind_ok p path [c] n He) by lia. cbn [map]. unfold value. rewrite E. reflexivity.
    + replace (v / 2 / PI - IZR k) with ((v - 2 * PI * IZR k) * / (2 * PI)) by (field; lra).
      rewrite Rabs_mult. assert (Hi : 0 < / (2 * PI)) by (apply Rinv_0_lt_compat; lra). rewrite (Rabs_right (/ (2 * PI))) by lra.
      assert (Hi1 : / (2 * PI) < 1). { rewrite <- Rinv_1. apply Rinv_lt_contravar; pose proof PI2_3_2; lra. }
      specialize (HN (Z.to_nat n) ltac:(lia)). unfold R_dist in HN. rewrite Rminus_0_r in HN.
      assert (Hp : 0 <= K / 2 ^ Z.to_nat n). { apply Rmult_le_pos; auto. left. apply Rinv_0_lt_compat, pow_lt. lra. }
      rewrite Rabs_right in HN by lra. pose proof (Rabs_pos (v - 2 * PI * IZR k)) as Hv.
      apply Rle_lt_trans with (Rabs (v - 2 * PI * IZR k) * 1); [apply Rmult_le_compat_l; lra | lra].
Qed.

(** So with enough refinements a point is inside if the contour goes around it *)
Theorem C78_inside : forall c p path k tol, path <> [] -> ends_at p path p -> avoids c p path -> winds c p path k -> 0 < tol < 1 ->
  exists N, forall n, (N <= n)%Z -> is_inside_contour (p :: path) [c] tol n = Ok [negb (k =? 0)%Z].
Proof.
  intros c p path k tol Hne He Hav Hk Htol. destruct (C78_limit c p path Hne He Hav) as [k' [Hk' [Hu Hlim]]].
  rewrite (Hu k Hk). destruct (Hlim (Rmin tol (1 - tol))) as [N HN]; [apply Rmin_pos; lra |].
  exists N. intros n Hn. destruct (HN n Hn) as [w [E B]]. unfold is_inside_contour. rewrite E. cbn [bind map]. f_equal. f_equal.
  pose proof (Rmin_l tol (1 - tol)). pose proof (Rmin_r tol (1 - tol)).
  destruct (k' =? 0)%Z eqn:Ek; cbn [negb].
  - apply Z.eqb_eq in Ek. subst k'. rewrite Rminus_0_r in B. destruct (Rgt_dec (Rabs w) tol); [lra | reflexivity].
  - apply Z.eqb_neq in Ek. destruct (Rgt_dec (Rabs w) tol) as [_ | H']; [reflexivity |]. exfalso.
    assert (H1 : 1 <= Rabs (IZR k')). { rewrite <- abs_IZR. apply IZR_le. lia. }
    assert (Rabs (IZR k') <= Rabs (w - IZR k') + Rabs w).
    { replace (IZR k') with (- (w - IZR k') + w) at 1 by ring. eapply Rle_trans; [apply Rabs_triang |]. rewrite Rabs_Ropp. lra. }
    lra.
Qed.

(** A point that has the contour on the left of all edges is gone around, one
    from which all points of the contour are on one side of a line is not *)
Theorem C78_around : forall c p path k, path <> [] -> around c p path -> winds c p path k -> (1 <= k)%Z.
Proof.
  intros c p path k Hne Har Hk. pose proof (around_positive c path p _ Har Hne Hk) as H. pose proof PI_RGT_0.
  assert (0 < IZR k) by (apply Rmult_lt_reg_l with (2 * PI); lra). apply lt_IZR in H1. lia.
Qed.
Theorem C78_separated : forall u c p path, ends_at p path p -> ahead u c p -> (forall q, In q path -> ahead u c q) -> winds c p path 0.
Proof.
  intros u c p path He Hp Hall. pose proof (ahead_total u c path p p Hp Hall He) as H. unfold winds.
  replace (2 * PI * IZR 0) with (atan (cross u (minus p c) / scal u (minus p c)) - atan (cross u (minus p c) / scal u (minus p c))) by ring. exact H.
Qed.

(** What is computed without refinement: the sum of the edges' (signed) areas
    with c over the squared distances of their midpoints *)
Theorem C78_value : forall c p path n, ends_at p path p -> proper c p path -> (n <= 0)%Z ->
  wind_number (p :: path) [c] n = Ok [Some (midpoint_sum c p path / (2 * PI))].
Proof.
  intros c p path n He Hpr Hn.
  assert (E : wind_number (p :: path) [c] n = wind_number (p :: path) [c] 0).
  { unfold wind_number. replace (0 <? n)%Z with false by (symmetry; apply Z.ltb_ge; lia). reflexivity. }
  rewrite E, (wind_ok p path [c] 0 He) by lia. cbn [map Z.to_nat]. unfold value.
  replace (flat_map (parts 0) (edges_of p path)) with (edges_of p path).
  - rewrite (sum_value c path p Hpr). do 3 f_equal. field. apply PI_neq0.
  - symmetry. change (flat_map (fun e => [e]) (edges_of p path) = edges_of p path). induction (edges_of p path) as [| e l IH]; [reflexivity |]. cbn [flat_map app]. rewrite IH. reflexivity.
Qed.

(** Points do not depend on each other *)
Theorem C78_each : forall contour points n ws, wind_number contour points n = Ok ws ->
  length ws = length points /\ forall i c, nth_error points i = Some c -> exists w, nth_error ws i = Some w /\ wind_number contour [c] n = Ok [w].
Proof.
  intros contour points n ws H. unfold wind_number in *.
  destruct (if (0 <? n)%Z then refine_contour contour n else Ok contour) as [[| p path] | e]; cbn [bind] in *; try discriminate.
  destruct (Rlt_dec _ _) as [_ | _]; [| discriminate]. injection H as <-. split; [apply map_length |].
  intros i c Hi. rewrite nth_error_map, Hi. eexists. split; reflexivity.
Qed.

(** Refinement: the points stay, the new ones are on the edges, in total
    2^n for each edge, and the contour stays closed *)
Theorem C78_refine : forall p path n, ends_at p path p -> (0 <= n)%Z ->
  exists path', refine_contour (p :: path) n = Ok (p :: path') /\ ends_at p path' p /\ length path' = (2 ^ Z.to_nat n * length path)%nat /\
    (forall x, In x path -> In x path') /\
    forall x, In x path' -> exists a b t, In (a, b) (edges_of p path) /\ 0 <= t <= 1 /\ x = on_way a b t.
Proof.
  intros p path n He Hn. exists (refined_n (Z.to_nat n) p path). split; [| split; [| split; [| split]]].
  - unfold refine_contour. replace (n <? 0)%Z with false by (symmetry; apply Z.ltb_ge; lia). apply refine_times_ok; auto.
  - apply refined_n_ends; auto.
  - apply refined_n_length.
  - intros x. apply refined_n_in.
  - intros x Hx. destruct (edges_in _ p x Hx) as [e [He' Es]]. rewrite refined_n_edges in He'. apply in_flat_map in He'.
    destruct He' as [[a b] [Hab Hin]]. exists a, b.
    assert (W0 : on_way a b 0 = a) by (unfold on_way; apply pair_eq; cbn [fst snd]; ring).
    assert (W1 : on_way a b 1 = b) by (unfold on_way; apply pair_eq; cbn [fst snd]; ring).
    replace (a, b) with (on_way a b 0, on_way a b 1) in Hin by (rewrite W0, W1; reflexivity). destruct (parts_on (Z.to_nat n) a b 0 1 e) as [s [t [_ [Ht ->]]]]; try lra; [exact Hin |].
    exists t. auto.
Qed.
Theorem C78_negative : forall contour n, (n < 0)%Z -> refine_contour contour n = Err AssertionError.
Proof. intros contour n H. unfold refine_contour. replace (n <? 0)%Z with true by (symmetry; apply Z.ltb_lt; lia). reflexivity. Qed.

(** Case: once around the middle of a square *)
Definition square : list (R * R) := [(2, 0); (2, 2); (0, 2); (0, 0)].
Example case_square : ends_at (0, 0) square (0, 0) /\ around (1, 1) (0, 0) square /\ avoids (1, 1) (0, 0) square /\ winds (1, 1) (0, 0) square 1.
Proof.
  split; [reflexivity |]. assert (A : around (1, 1) (0, 0) square) by (unfold square, cross, minus; cbn [around fst snd]; unfold cross, minus; cbn [fst snd]; repeat split; lra).
  split; [exact A | split; [apply around_avoids, A |]].
  pose proof PI_RGT_0. unfold winds, square.
  assert (Hl : forall a b, scal a a = 2 -> scal b b = 2 -> len a * len b = 2).
  { intros a b Ha Hb. unfold len. rewrite Ha, Hb. apply sqrt_sqrt. lra. }
  assert (T : forall p q, scal (minus p (1, 1)) (minus p (1, 1)) = 2 -> scal (minus q (1, 1)) (minus q (1, 1)) = 2 ->
    scal (minus p (1, 1)) (minus q (1, 1)) = 0 -> cross (minus p (1, 1)) (minus q (1, 1)) = 2 -> turns (1, 1) p q (PI / 2)).
  { intros p q Hp Hq Hd Hc. split; [lra |]. rewrite cos_PI2, sin_PI2, Hd, Hc, (Hl _ _ Hp Hq). split; ring. }
  assert (T4 : forall p q, (exists a b, (p, q) = (a, b) /\ In (a, b) [((0, 0), (2, 0)); ((2, 0), (2, 2)); ((2, 2), (0, 2)); ((0, 2), (0, 0))]) -> turns (1, 1) p q (PI / 2)).
  { intros p q [a [b [E Hin]]]. injection E as -> ->. cbn in Hin. destruct Hin as [E | [E | [E | [E | []]]]]; injection E as <- <-; apply T; unfold scal, cross, minus; cbn [fst snd]; ring. }
  cbn [total_turn].
  exists (PI / 2), (PI / 2 + (PI / 2 + (PI / 2 + 0))). split; [apply T4; eexists; eexists; split; [reflexivity | cbn; auto] |]. split; [| lra].
  exists (PI / 2), (PI / 2 + (PI / 2 + 0)). split; [apply T4; eexists; eexists; split; [reflexivity | cbn; auto] |]. split; [| lra].
  exists (PI / 2), (PI / 2 + 0). split; [apply T4; eexists; eexists; split; [reflexivity | cbn; auto] |]. split; [| lra].
  exists (PI / 2), 0. split; [apply T4; eexists; eexists; split; [reflexivity | cbn; auto 6] |]. split; [reflexivity | lra].
Qed.

(** False with the default tolerance and no refinement: a point that the
    contour does not go around is inside *)
Theorem C78_coarse_refuted : exists c p path, ends_at p path p /\ avoids c p path /\ winds c p path 0 /\
  is_inside_contour (p :: path) [c] (1 / 100) 0 = Ok [true].
Proof.
  exists (1, - (1 / 5)), (0, 0), square.
  assert (Hp : ahead (0, 1) (1, - (1 / 5)) (0, 0)) by (unfold ahead, scal, minus; cbn [fst snd]; lra).
  assert (Hall : forall q, In q square -> ahead (0, 1) (1, - (1 / 5)) q).
  { intros q Hq. cbn in Hq. destruct Hq as [<- | [<- | [<- | [<- | []]]]]; unfold ahead, scal, minus; cbn [fst snd]; lra. }
  assert (Hpr : proper (1, - (1 / 5)) (0, 0) square).
  { unfold square. cbn [proper]. repeat split; unfold on_way; cbn [fst snd]; intros E; pose proof (f_equal fst E); pose proof (f_equal snd E); cbn [fst snd] in *; lra. }
  split; [reflexivity | split; [apply (ahead_avoids (0, 1)); auto | split; [apply (C78_separated (0, 1)); auto; reflexivity |]]].
  unfold is_inside_contour. rewrite C78_value; [| reflexivity | exact Hpr | lia]. cbn [bind map]. do 2 f_equal.
  assert (V : midpoint_sum (1, - (1 / 5)) (0, 0) square < -5).
  { unfold square. cbn [midpoint_sum]. unfold cross, scal, minus, on_way. cbn [fst snd].
    match goal with |- ?x < _ => replace x with (-10 + 2 / (61 / 25) + 22 / 5 / (121 / 25) + 2 / (61 / 25)) by field end. lra. }
  pose proof PI_4. pose proof PI_RGT_0. set (s := midpoint_sum (1, - (1 / 5)) (0, 0) square) in *.
  destruct (Rgt_dec (Rabs (s / (2 * PI))) (1 / 100)) as [_ | H']; [reflexivity | exfalso; apply H'].
  unfold Rdiv at 1. rewrite Rabs_mult, (Rabs_left s) by lra. rewrite Rabs_right by (left; apply Rinv_0_lt_compat; lra).
  apply Rmult_lt_reg_r with (2 * PI); [lra |]. rewrite Rmult_assoc, Rinv_l by lra. lra.
Qed.

(** False: a point that it goes around is outside *)
Definition strip : list (R * R) := [(4000, 0); (4000, 2); (0, 2); (0, 0)].
Theorem C78_thin_refuted : exists c p path k, ends_at p path p /\ avoids c p path /\ winds c p path k /\ (1 <= k)%Z /\
  is_inside_contour (p :: path) [c] (1 / 100) 0 = Ok [false].
Proof.
  assert (A : around (1000, 1) (0, 0) strip) by (unfold strip; cbn [around]; unfold cross, minus; cbn [fst snd]; repeat split; lra).
  assert (Hav := around_avoids _ _ _ A).
  destruct (C78_limit (1000, 1) (0, 0) strip) as [k [Hk _]]; [discriminate | reflexivity | exact Hav |].
  exists (1000, 1), (0, 0), strip, k. split; [reflexivity | split; [exact Hav | split; [exact Hk | split; [eapply C78_around; [| exact A | exact Hk]; discriminate |]]]].
  assert (Hpr : proper (1000, 1) (0, 0) strip).
  { unfold strip. cbn [proper]. repeat split; unfold on_way; cbn [fst snd]; intros E; pose proof (f_equal fst E); pose proof (f_equal snd E); cbn [fst snd] in *; lra. }
  unfold is_inside_contour. rewrite C78_value; [| reflexivity | exact Hpr | lia]. cbn [bind map]. do 2 f_equal.
  assert (V : 0 < midpoint_sum (1000, 1) (0, 0) strip < 3 / 100).
  { unfold strip. cbn [midpoint_sum]. unfold cross, scal, minus, on_way. cbn [fst snd].
    match goal with |- _ < ?x < _ => replace x with (4000 / 1000001 + 6000 / 9000000 + 4000 / 1000001 + 2000 / 1000000) by field end. lra. }
  pose proof PI2_3_2. set (s := midpoint_sum (1000, 1) (0, 0) strip) in *.
  destruct (Rgt_dec (Rabs (s / (2 * PI))) (1 / 100)) as [H' | _]; [exfalso | reflexivity].
  unfold Rdiv at 1 in H'. rewrite Rabs_mult, (Rabs_right s) in H' by lra. rewrite Rabs_right in H' by (left; apply Rinv_0_lt_compat; lra).
  assert (Hx : s * / (2 * PI) * (2 * PI) > 1 / 100 * (2 * PI)) by (apply Rmult_gt_compat_r; lra). rewrite Rmult_assoc, Rinv_l in Hx by lra. lra.
Qed.

(** False: if a point of the contour is repeated everything is outside, however
    fine *)
Theorem C78_repeated : forall contour_p path points n x, ends_at contour_p path contour_p -> In (x, x) (edges_of contour_p path) -> (0 <= n)%Z ->
  forall tol, is_inside_contour (contour_p :: path) points tol n = Ok (map (fun _ => false) points).
Proof.
  intros p path points n x He Hx Hn tol. unfold is_inside_contour. rewrite (wind_ok p path points n He Hn). cbn [bind]. f_equal. rewrite map_map.
  apply map_ext. intros c. unfold value. rewrite nan_in; [reflexivity |]. apply in_map_iff. exists (x, x). split; [apply term_point |].
  apply in_flat_map. exists (x, x). split; [exact Hx | apply parts_point].
Qed.
Theorem C78_repeated_refuted : exists p path, ends_at p path p /\ (forall q, In q path -> q = p \/ In q square) /\ (forall q, In q square -> In q path) /\
  forall n, (0 <= n)%Z -> is_inside_contour (p :: path) [(1, 1)] (1 / 100) n = Ok [false].
Proof.
  exists (0, 0), [(0, 0); (2, 0); (2, 2); (0, 2); (0, 0)]. split; [reflexivity | split; [| split]].
  - intros q Hq. cbn in *. tauto.
  - intros q Hq. cbn in *. tauto.
  - intros n Hn. rewrite (C78_repeated (0, 0) _ [(1, 1)] n (0, 0)); [reflexivity | reflexivity | left; reflexivity | exact Hn].
Qed.

(** False: an open contour is refused without refinement, but with refinement
    it is closed in place of its last point, which is lost *)
Theorem C78_open_refuted : exists contour, (forall points, wind_number contour points 0 = Err AssertionError) /\
  (forall points, exists ws, wind_number contour points 1 = Ok ws) /\
  exists finer, refine_contour contour 1 = Ok finer /\ In (2, 2) contour /\ ~ In (2, 2) finer.
Proof.
  exists [(0, 0); (2, 0); (2, 2)]. split; [| split].
  - intros points. unfold wind_number. cbn [Z.ltb Z.compare bind last fst snd].
    destruct (Rlt_dec _ _) as [H | _]; [exfalso | reflexivity].
    assert (sqrt (2 * 2) < sqrt ((0 - 2) ^ 2 + (0 - 2) ^ 2)) by (apply sqrt_lt_1; lra). rewrite sqrt_square in * by lra. lra.
  - intros points. unfold wind_number. cbn [Z.ltb Z.compare]. unfold refine_contour. cbn [Z.ltb Z.compare]. change (Z.to_nat 1) with 1%nat. cbn [refine_times refine_once bind segments removelast tl combine flat_map app last fst snd].
    destruct (Rlt_dec _ _) as [_ | H]; [eexists; reflexivity | exfalso; apply H].
    replace ((0 - 0) ^ 2 + (0 - 0) ^ 2) with 0 by ring. rewrite sqrt_0. lra.
  - exists [(0, 0); (0 + / 2 * (2 - 0), 0 + / 2 * (0 - 0)); (2, 0); (2 + / 2 * (2 - 2), 0 + / 2 * (2 - 0)); (0, 0)].
    split; [reflexivity | split; [cbn; auto |]].
    intros [E | [E | [E | [E | [E | []]]]]]; pose proof (f_equal fst E); pose proof (f_equal snd E); cbn [fst snd] in *; lra.
Qed.

(** ** C79 *)
Definition dot2 (a b : list R) : R := nth 0 a 0 * nth 0 b 0 + nth 1 a 0 * nth 1 b 0.
(** Unit vectors, orthogonal to the cells, on the same hand of the tangents *)
Theorem C79_unit : forall nv g X wind tol values, simple_mesh nv g -> coordinates 2 g X -> normal_curve nv g 2 X wind tol = Ok values ->
  length values = length g /\
  forall c a b, cell_is g c a b -> let n := nth c values [] in length n = 2%nat /\ squares n = 1 /\ dot2 n (rsub (X b) (X a)) = 0.
Proof.
  intros nv g X wind tol values Hm HX H. unfold normal_curve in H. destruct (negb (is_loop nv g)); [discriminate |]. cbn [negb Nat.eqb] in H.
  destruct (tangent_curve nv g X None) as [[ts msg] |] eqn:E; cbn [bind fst] in H; [| discriminate]. injection H as <-.
  destruct (C69_unit nv 2 g X None ts msg Hm HX E) as [Hl Hd]. split; [rewrite map_length; exact Hl |].
  intros c a b Hc. assert (Hlt : (c < length g)%nat) by (destruct Hc as [Hc | Hc]; apply nth_error_Some; congruence).
  destruct (Hd c Hlt) as [a' [b' [Hc' [Hlen [Hsq [s [Hs Hdir]]]]]]].
  set (t := nth c ts []) in *. set (f := if Rlt_dec (Rabs wind) tol then turn_right else turn_left).
  assert (En : nth c (map f ts) [] = f t).
  { unfold t. rewrite (nth_indep _ [] (f [])) by (rewrite map_length; lia). apply map_nth. }
  rewrite En. destruct HX as [HX _]. rewrite HX in Hlen.
  assert (Ht : t = [nth 0 t 0; nth 1 t 0]) by (destruct t as [| x [| y [| z t]]]; try discriminate; reflexivity).
  set (x := nth 0 t 0) in *. set (y := nth 1 t 0) in *. rewrite Ht in Hsq. cbn [squares] in Hsq.
  assert (Hx := Hdir 0%nat). assert (Hy := Hdir 1%nat). fold x in Hx. fold y in Hy.
  assert (Hdiff : (nth 0 (X b) 0 - nth 0 (X a) 0) * y - (nth 1 (X b) 0 - nth 1 (X a) 0) * x = 0).
  { destruct (cell_ends g c a b a' b' Hc Hc') as [[-> ->] | [-> ->]]; [rewrite Hx, Hy; ring |].
    replace (nth 0 (X a') 0 - nth 0 (X b') 0) with (- (s * x)) by lra. replace (nth 1 (X a') 0 - nth 1 (X b') 0) with (- (s * y)) by lra. ring. }
  unfold dot2. rewrite !rsub_nth by (rewrite !HX; reflexivity).
  unfold f. destruct (Rlt_dec (Rabs wind) tol); unfold turn_right, turn_left; fold x y; cbn [nth length squares]; split; try reflexivity; split; lra.
Qed.

(** For loops in the plane only: each vertex has two cells *)
Definition loops (nv : nat) (g : list (nat * nat)) : Prop := forall v, (v < nv)%nat -> BranchProofs.interior g v.
Lemma is_loop_spec nv g : is_loop nv g = true <-> loops nv g.
Proof.
  unfold is_loop, loops. rewrite forallb_forall. split; intros H v Hv.
  - apply BranchProofs.interior_two, Nat.eqb_eq, H, in_seq. lia.
  - apply Nat.eqb_eq, BranchProofs.interior_two, H. apply in_seq in Hv. lia.
Qed.
Theorem C79_refused : forall nv g gdim X wind tol, gdim <> 2%nat \/ ~ loops nv g -> normal_curve nv g gdim X wind tol = Err AssertionError.
Proof.
  intros nv g gdim X wind tol [H | H]; unfold normal_curve.
  - destruct (is_loop nv g); [| reflexivity]. cbn [negb]. apply Nat.eqb_neq in H. rewrite H. reflexivity.
  - rewrite <- is_loop_spec in H. apply not_true_is_false in H. rewrite H. reflexivity.
Qed.
Theorem C79_returns : forall nv g X wind tol, simple_mesh nv g -> loops nv g -> exists values, normal_curve nv g 2 X wind tol = Ok values.
Proof.
  intros nv g X wind tol Hm Hl. unfold normal_curve. apply is_loop_spec in Hl. rewrite Hl. cbn [negb Nat.eqb].
  destruct (roots_of nv g) as [| x roots] eqn:Er; [rewrite (no_root nv g X None Er); eexists; reflexivity |].
  assert (Hin : In (last (roots_of nv g) 0%nat) (roots_of nv g)) by (apply last_In; congruence).
  destruct (from_root nv g X None _ Hm Hin (or_intror (conj eq_refl eq_refl))) as [es [values [E _]]]. rewrite E. eexists. reflexivity.
Qed.

(** Of a convex loop, the vector n at the vertex p points out, or in *)
Definition points_out (X : nat -> list R) (nv : nat) (p : nat) (n : list R) : Prop := forall v, (v < nv)%nat -> dot2 n (rsub (X v) (X p)) <= 0.
Definition points_in (X : nat -> list R) (nv : nat) (p : nat) (n : list R) : Prop := forall v, (v < nv)%nat -> 0 <= dot2 n (rsub (X v) (X p)).
(** False: whatever the winding number is, the vectors on a triangle point out on
    one side and in on another *)
Theorem C79_outer_refuted : exists nv g X, simple_mesh nv g /\ coordinates 2 g X /\ loops nv g /\
  forall wind tol, exists values, normal_curve nv g 2 X wind tol = Ok values /\
    (exists c a b, cell_is g c a b /\ points_out X nv a (nth c values []) /\ ~ points_in X nv a (nth c values [])) /\
    (exists c a b, cell_is g c a b /\ points_in X nv a (nth c values []) /\ ~ points_out X nv a (nth c values [])).
Proof.
  set (g := [(0, 1); (1, 2); (0, 2)]%nat). exists 3%nat, g, corner.
  assert (Hm : simple_mesh 3 g).
  { split; [| split].
    - intros a b [H | [H | [H | []]]]; injection H as <- <-; lia.
    - repeat constructor; cbn; intuition congruence.
    - intros a b [H | [H | [H | []]]]; injection H as <- <-; cbn; intuition congruence. }
  assert (HX : coordinates 2 g corner).
  { split; [apply corner_length |]. intros a b [H | [H | [H | []]]]; injection H as <- <-; apply corner_neq; lia. }
  split; [exact Hm | split; [exact HX | split; [apply is_loop_spec; reflexivity |]]]. intros wind tol.
  unfold normal_curve. cbn [negb Nat.eqb]. change (is_loop 3 g) with true. cbn [negb].
  rewrite (no_root 3 g corner None eq_refl). cbn [bind fst length g seq map c2v nth].
  (* directions of the cells 0 and 2 *)
  assert (D : forall a b, (a < b)%nat -> exists r, 0 < r /\ tangent (corner a) (corner b) = [r * (INR b - INR a); r * (INR (b * b) - INR (a * a))]).
  { intros a b Hab. exists (/ rnorm (rsub (corner b) (corner a))). split; [| reflexivity].
    apply Rinv_0_lt_compat. unfold rnorm. apply sqrt_lt_R0. cbn [rsub corner rdot].
    apply lt_INR in Hab. pose proof (Rsqr_pos_lt (INR b - INR a) ltac:(lra)) as H1. pose proof (Rle_0_sqr (INR (b * b) - INR (a * a))) as H2. unfold Rsqr in *.
    unfold rsub, corner. cbn [rdot combine map fst snd lsum fold_right]. lra. }
  destruct (D 0 1)%nat as [r0 [Hr0 E0]]; [lia |]. destruct (D 0 2)%nat as [r2 [Hr2 E2]]; [lia |].
  cbn [fst snd]. rewrite E0, E2. cbn [Nat.mul Nat.add INR] in *.
  eexists. split; [reflexivity |].
  assert (C0 : cell_is g 0 0 1) by (left; reflexivity). assert (C2 : cell_is g 2 0 2) by (left; reflexivity).
  cbn [nth map]. destruct (Rlt_dec (Rabs wind) tol); unfold turn_right, turn_left; cbn [nth].
  - split; [exists 0%nat, 0%nat, 1%nat; split; [exact C0 |] | exists 2%nat, 0%nat, 2%nat; split; [exact C2 |]]; split.
    + intros [| [| [| v]]] Hlt; [| | | lia]; unfold dot2; cbn; lra.
    + intros H. specialize (H 2%nat ltac:(lia)). unfold dot2 in H. cbn in H. lra.
    + intros [| [| [| v]]] Hlt; [| | | lia]; unfold dot2; cbn; lra.
    + intros H. specialize (H 1%nat ltac:(lia)). unfold dot2 in H. cbn in H. lra.
  - split; [exists 2%nat, 0%nat, 2%nat; split; [exact C2 |] | exists 0%nat, 0%nat, 1%nat; split; [exact C0 |]]; split.
    + intros [| [| [| v]]] Hlt; [| | | lia]; unfold dot2; cbn; lra.
    + intros H. specialize (H 1%nat ltac:(lia)). unfold dot2 in H. cbn in H. lra.
    + intros [| [| [| v]]] Hlt; [| | | lia]; unfold dot2; cbn; lra.
    + intros H. specialize (H 2%nat ltac:(lia)). unfold dot2 in H. cbn in H. lra.
Qed.

Print Assumptions C78_limit.
Print Assumptions C78_inside.
Print Assumptions C78_around.
Print Assumptions C78_separated.
Print Assumptions C78_value.
Print Assumptions C78_each.
Print Assumptions C78_refine.
Print Assumptions C78_negative.
Print Assumptions C78_coarse_refuted.
Print Assumptions C78_thin_refuted.
Print Assumptions C78_repeated.
Print Assumptions C78_repeated_refuted.
Print Assumptions C78_open_refuted.
Print Assumptions C79_unit.
Print Assumptions C79_refused.
Print Assumptions C79_returns.
Print Assumptions C79_outer_refuted.
