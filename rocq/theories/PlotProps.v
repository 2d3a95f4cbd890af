(** Properties C86 and C87: pictures of the surfaces of averages *)
From Coq Require Import Lia Reals Lra Permutation.
From Verif Require Import Base BaseProofs EmbedModel ShapeModel PlotModel PlotProofs.
Local Open Scope nat_scope.

(** Tubes between rings of equal length: all points, ring after ring; the quads of a tube are those
    between neighbours on its rings, the last point being a neighbour of the first *)
Theorem C86_tubes : forall (P : Type) (tubes : list (list P * list P)),
  Forall (fun t => length (fst t) = length (snd t)) tubes ->
  exists points quads, vtk_tube_render tubes = Ok (points, quads) /\
    points = flat_map (fun t => fst t ++ snd t) tubes /\ drawn points quads = flat_map band tubes.
Proof.
  intros P tubes H. unfold vtk_tube_render. destruct (tubes_all tubes [] (0, [], [])) as [[[f points] quads] [-> [_ [Hp [_ Hq]]]]]; auto.
  { repeat split; auto. }
  exists points, quads. auto.
Qed.
(** rings of different lengths are refused *)
Theorem C86_uneven : forall (P : Type) (tubes : list (list P * list P)),
  ~ Forall (fun t => length (fst t) = length (snd t)) tubes -> vtk_tube_render tubes = Err ValueError.
Proof. intros P tubes H. unfold vtk_tube_render. rewrite tubes_bad; auto. Qed.
Lemma Ok_is {A} (x y : A) : Ok x = Ok y -> x = y.
Proof. congruence. Qed.
Lemma radial_length basis points l : radial_order_points basis points = Ok l -> Permutation l points /\ 4 <= length l.
Proof.
  unfold radial_order_points. destruct (Nat.leb_spec (length points) 3) as [H | H]; [discriminate |].
  assert (forall l, Permutation l points -> Permutation l points /\ 4 <= length l) as K by (intros l' HP; split; auto; apply Permutation_length in HP; lia).
  destruct points as [| v0 [| v1 [| v2 rest]]]; try discriminate. set (points := v0 :: v1 :: v2 :: rest) in *.
  destruct (Req_EM_T _ _); [discriminate |]. destruct (forallb _ points); [| discriminate]. destruct (basis _) as [t0 t1]. intros E. apply Ok_is in E. rewrite <- E. apply K.
  eapply perm_trans; [apply Permutation_map, sort_perm |].
  rewrite <- (map_id points) at 3. rewrite (map_ext _ (fun p => snd ((angle (vdot3 p t0) (vdot3 p t1) * 180 / PI)%R, p))) by reflexivity.
  replace (combine (map (fun p => (angle (vdot3 p t0) (vdot3 p t1) * 180 / PI)%R) points) points) with (map (fun p => ((angle (vdot3 p t0) (vdot3 p t1) * 180 / PI)%R, p)) points).
  2:{ clear. induction points as [| p ps IH]; cbn; [reflexivity | f_equal; exact IH]. }
  rewrite map_map. apply Permutation_refl.
Qed.
(** Surfaces: the points of each in radial order; its lines are a closed loop through them *)
Theorem C86_loops : forall basis surfaces ordered,
  Forall2 (fun s o => radial_order_points basis s = Ok o) surfaces ordered ->
  exists lines, vtk_plot_data (radial_order_points basis) surfaces = Ok (concat ordered, lines) /\ drawn (concat ordered) lines = flat_map loop ordered.
Proof.
  intros basis surfaces ordered H. unfold vtk_plot_data.
  assert (E : mapM (radial_order_points basis) surfaces = Ok ordered).
  { induction H as [| s o ss os Hs H IH]; cbn [mapM]; [reflexivity |]. rewrite Hs. cbn [bind]. rewrite IH. reflexivity. }
  rewrite E. cbn [bind]. destruct (lines_ok ordered None [] []) as [v1 [new [Hf Hd]]].
  { clear E. induction H as [| s o ss os Hs H IH]; constructor; auto. apply radial_length in Hs. lia. }
  cbn [length] in Hf. rewrite Hf. cbn [bind snd]. eexists. split; [reflexivity |]. specialize (Hd []). rewrite app_nil_r in Hd. exact Hd.
Qed.
(** a surface which can not be ordered is refused with all *)
Theorem C86_refused : forall basis surfaces s e, In s surfaces -> radial_order_points basis s = Err e ->
  exists e', vtk_plot_data (radial_order_points basis) surfaces = Err e'.
Proof.
  intros basis surfaces s e Hs He. unfold vtk_plot_data. destruct (mapM (radial_order_points basis) surfaces) as [os | e'] eqn:E; [exfalso | exists e'; reflexivity].
  revert os E. induction surfaces as [| s' ss IH]; [destruct Hs |]. intros os E. cbn [mapM] in E. destruct (radial_order_points basis s') as [o |] eqn:E1; [| discriminate E].
  cbn [bind] in E. destruct (mapM (radial_order_points basis) ss) as [os' |] eqn:E2; [| discriminate E]. destruct Hs as [<- | Hs]; [congruence |]. exact (IH Hs os' eq_refl).
Qed.

Local Open Scope R_scope.
(** ** Radial order *)
Theorem C87_permutation : forall basis points l, radial_order_points basis points = Ok l -> Permutation l points.
Proof. intros basis points l H. apply (radial_length basis points l H). Qed.

Lemma sin_half_pos d : 0 <= d < 2 * PI -> 0 <= sin (d / 2).
Proof. intros H. apply sin_ge_0; lra. Qed.
Lemma turn_angles r t0 t1 p q s : 0 < r ->
  (forall x, In x [p; q; s] -> (vdot3 x t0) ^ 2 + (vdot3 x t1) ^ 2 = r ^ 2) ->
  let th x := angle (vdot3 x t0) (vdot3 x t1) in
  (th p <= th q /\ (th s <= th p \/ th q <= th s)) \/ (th q <= th s /\ th s <= th p) -> 0 <= turn t0 t1 p q s.
Proof.
  intros Hr Hc th Hth.
  assert (K : forall x, In x [p; q; s] -> vdot3 x t0 = r * cos (th x) /\ vdot3 x t1 = r * sin (th x)).
  { intros x Hx. specialize (Hc x Hx). unfold th. rewrite <- (sqrt_pow2 r) by lra. rewrite <- Hc. apply angle_polar.
    destruct (Req_dec (vdot3 x t0) 0) as [E |]; auto. right. intros E'. rewrite E, E' in Hc. nra. }
  destruct (K p) as [P0 P1]; [cbn; auto |]. destruct (K q) as [Q0 Q1]; [cbn; auto |]. destruct (K s) as [S0 S1]; [cbn; auto |].
  unfold turn. rewrite P0, P1, Q0, Q1, S0, S1, turn_circle.
  assert (Rp := angle_range (vdot3 p t0) (vdot3 p t1)). assert (Rq := angle_range (vdot3 q t0) (vdot3 q t1)). assert (Rs := angle_range (vdot3 s t0) (vdot3 s t1)).
  fold (th p) in Rp. fold (th q) in Rq. fold (th s) in Rs. set (a := th p) in *. set (b := th q) in *. set (c := th s) in *.
  assert (Hr2 : 0 <= 4 * r ^ 2) by nra.
  assert (F : forall x y, x <= y -> - PI < x -> y <= PI -> 0 <= sin ((y - x) / 2)) by (intros x y A B C; apply sin_half_pos; lra).
  assert (G : forall x y, sin ((x - y) / 2) = - sin ((y - x) / 2)) by (intros x y; rewrite <- sin_neg; f_equal; field).
  destruct Hth as [[A [B | B]] | [A B]].
  - pose proof (F a b A ltac:(lra) ltac:(lra)) as X. pose proof (F c a B ltac:(lra) ltac:(lra)) as Y. pose proof (F c b ltac:(lra) ltac:(lra) ltac:(lra)) as Z.
    rewrite (G c a), (G c b). set (x := sin ((b - a) / 2)) in *. set (y := sin ((a - c) / 2)) in *. set (z := sin ((b - c) / 2)) in *.
    replace (4 * r ^ 2 * x * - y * - z) with (4 * r ^ 2 * (x * (y * z))) by ring. apply Rmult_le_pos; auto. apply Rmult_le_pos; auto. apply Rmult_le_pos; auto.
  - pose proof (F a b A ltac:(lra) ltac:(lra)) as X. pose proof (F a c ltac:(lra) ltac:(lra) ltac:(lra)) as Y. pose proof (F b c B ltac:(lra) ltac:(lra)) as Z.
    repeat apply Rmult_le_pos; auto; lra.
  - pose proof (F b a ltac:(lra) ltac:(lra) ltac:(lra)) as X. pose proof (F c a B ltac:(lra) ltac:(lra)) as Y. pose proof (F b c A ltac:(lra) ltac:(lra)) as Z.
    rewrite (G b a), (G c a). set (x := sin ((a - b) / 2)) in *. set (y := sin ((a - c) / 2)) in *. set (z := sin ((c - b) / 2)) in *.
    replace (4 * r ^ 2 * - x * - y * z) with (4 * r ^ 2 * (x * (y * z))) by ring. apply Rmult_le_pos; auto. apply Rmult_le_pos; auto. apply Rmult_le_pos; auto.
Qed.

(** If the projections of the points to the plane are on a circle about the origin, the result is a
    convex polygon: on the way from a point to the next (from the last to the first) all are on the left *)
Theorem C87_centered_partial : forall basis points l, radial_order_points basis points = Ok l ->
  exists n t0 t1, basis n = (t0, t1) /\ norm3 n = 1 /\
    (exists v0 v1 v2 rest c, points = v0 :: v1 :: v2 :: rest /\ 0 < c /\ cross (vminus v1 v0) (vminus v2 v0) = vmul c n) /\
    forall r, 0 < r -> (forall p, In p points -> (vdot3 p t0) ^ 2 + (vdot3 p t1) ^ 2 = r ^ 2) ->
    forall i p q s, nth_error l i = Some p -> nth_error l ((i + 1) mod length l) = Some q -> In s l -> 0 <= turn t0 t1 p q s.
Proof.
  intros basis points l H. pose proof (radial_length basis points l H) as [HP HL]. revert H. unfold radial_order_points.
  destruct (Nat.leb_spec (length points) 3) as [H3 | H3]; [discriminate |].
  destruct points as [| v0 [| v1 [| v2 rest]]]; try discriminate. set (points := v0 :: v1 :: v2 :: rest) in *.
  set (N := cross (vminus v1 v0) (vminus v2 v0)). destruct (Req_EM_T (norm3 N) 0) as [| HN]; [discriminate |].
  assert (HNp : 0 < norm3 N). { unfold norm3 in *. destruct (sqrt_pos (vdot3 N N)) as [A | A]; [exact A | congruence]. }
  destruct (forallb _ points); [| discriminate]. destruct (basis (vmul (/ norm3 N) N)) as [t0 t1] eqn:Eb. intros E. apply Ok_is in E. rename E into El.
  exists (vmul (/ norm3 N) N), t0, t1. split; [exact Eb |]. split; [| split].
  - assert (EN : norm3 (vmul (/ norm3 N) N) = sqrt ((/ norm3 N) ^ 2 * vdot3 N N)). { unfold norm3 at 1. f_equal. destruct N. unfold vdot3, vmul. cbn. ring. }
    rewrite EN. assert (E2 : vdot3 N N = norm3 N ^ 2). { unfold norm3. rewrite pow2_sqrt; [reflexivity |]. destruct N as [a b c]. unfold vdot3. cbn. pose proof (Rle_0_sqr a). pose proof (Rle_0_sqr b). pose proof (Rle_0_sqr c). unfold Rsqr in *. nra. }
    rewrite E2. replace ((/ norm3 N) ^ 2 * norm3 N ^ 2) with 1 by (field; auto). apply sqrt_1.
  - exists v0, v1, v2, rest, (norm3 N). split; [reflexivity |]. split; [exact HNp |]. fold N. destruct N as [a b c]. unfold vmul. cbn [vx vy vz] in *. f_equal; field; auto.
  - intros r Hr Hc i p q s Hp Hq Hs.
    set (th := fun x => angle (vdot3 x t0) (vdot3 x t1)).
    set (sorted := fold_right put_angle [] (combine (map (fun p => th p * 180 / PI) points) points)) in *.
    assert (Hpair : forall x, In x sorted -> fst x = th (snd x) * 180 / PI).
    { intros x Hx. unfold sorted in Hx. apply (Permutation_in _ (sort_perm _)) in Hx. clear - Hx. induction points as [| y ys IH]; [destruct Hx |]. destruct Hx as [<- | Hx]; auto. }
    assert (Hasc : ascending (map (fun x => th x * 180 / PI) l)).
    { replace (map (fun x => th x * 180 / PI) l) with (map fst sorted); [apply sort_asc |]. subst l. fold sorted. rewrite map_map. apply map_ext_in. exact Hpair. }
    assert (Hord : forall j k x y, (j < k)%nat -> nth_error l j = Some x -> nth_error l k = Some y -> th x <= th y).
    { intros j k x y Hjk Hx Hy. pose proof (asc_nth _ j k (th x * 180 / PI) (th y * 180 / PI) Hasc Hjk) as Hle. rewrite !nth_error_map, Hx, Hy in Hle. specialize (Hle eq_refl eq_refl).
      pose proof PI_RGT_0. assert (E1 : forall z, z = z * 180 / PI * (PI / 180)) by (intros z; field; lra). rewrite (E1 (th x)), (E1 (th y)). apply Rmult_le_compat_r; lra. }
    assert (Hle : forall j k x y, (j <= k)%nat -> nth_error l j = Some x -> nth_error l k = Some y -> th x <= th y).
    { intros j k x y Hjk Hx Hy. destruct (Nat.eq_dec j k) as [-> | Hne]; [rewrite Hx in Hy; injection Hy as ->; lra | apply (Hord j k); auto; lia]. }
    apply In_nth_error in Hs. destruct Hs as [k Hk].
    assert (Hin : forall m x, nth_error l m = Some x -> In x points) by (intros m x Hx; apply nth_error_In in Hx; apply (Permutation_in _ HP Hx)).
    apply turn_angles with (r := r); auto.
    { intros x Hx. apply Hc. destruct Hx as [<- | [<- | [<- | []]]]; eauto. }
    fold th. assert (Hi : (i < length l)%nat) by (apply nth_error_Some; congruence). assert (Hkl : (k < length l)%nat) by (apply nth_error_Some; congruence).
    destruct (Nat.eq_dec (i + 1) (length l)) as [E | E].
    + right. rewrite E, Nat.mod_same in Hq by lia. split; [apply (Hle 0%nat k) | apply (Hle k i)]; auto; lia.
    + left. rewrite Nat.mod_small in Hq by lia. split; [apply (Hle i (i + 1)%nat); auto; lia |].
      destruct (Nat.le_gt_cases k i); [left; apply (Hle k i) | right; apply (Hle (i + 1)%nat k)]; auto; lia.
Qed.

(** The angles are about the origin, not about the centre of the points: of a circle far from the
    origin the polygon crosses its inside *)
Theorem C87_centre_refuted : exists points l c r, (forall p, In p points -> norm3 (vminus p c) = r /\ vz p = 0) /\ NoDup points /\
  radial_order_points (fun _ => (V3 1 0 0, V3 0 1 0)) points = Ok l /\
  exists p q s s', nth_error l 1 = Some p /\ nth_error l 2 = Some q /\ In s l /\ In s' l /\
    turn (V3 1 0 0) (V3 0 1 0) p q s < 0 < turn (V3 1 0 0) (V3 0 1 0) p q s'.
Proof.
  exists [V3 16 3 0; V3 20 5 0; V3 25 0 0; V3 20 (-5) 0], [V3 20 (-5) 0; V3 25 0 0; V3 16 3 0; V3 20 5 0], (V3 20 0 0), 5.
  split; [| split; [| split]].
  - intros p [<- | [<- | [<- | [<- | []]]]]; (split; [| reflexivity]); unfold norm3, vdot3, vminus; cbn [vx vy vz];
      match goal with |- sqrt ?x = 5 => replace x with (5 ^ 2) by lra end; apply sqrt_pow2; lra.
  - repeat constructor; cbn [In]; intros H; repeat destruct H as [H | H]; try injection H; intros; lra || contradiction.
  - unfold radial_order_points. cbn [length Nat.leb].
    set (N := cross (vminus (V3 20 5 0) (V3 16 3 0)) (vminus (V3 25 0 0) (V3 16 3 0))).
    assert (EN : N = V3 0 0 (-30)). { unfold N, cross, vminus. cbn [vx vy vz]. f_equal; lra. }
    assert (En : norm3 N = 30). { rewrite EN. unfold norm3, vdot3. cbn [vx vy vz]. match goal with |- sqrt ?x = 30 => replace x with (30 ^ 2) by lra end. apply sqrt_pow2; lra. }
    rewrite En. destruct (Req_EM_T 30 0); [lra |].
    set (com := mean3 _). assert (Ec : vz com = 0). { unfold com, mean3, vmul. cbn [fold_left vplus vz]. lra. }
    match goal with |- context [forallb ?f ?l] => assert (Ef : forallb f l = true) end.
    { apply forallb_forall. intros p Hp. assert (Hz : vz p = 0) by (destruct Hp as [<- | [<- | [<- | [<- | []]]]]; reflexivity).
      assert (E0 : vdot3 (vminus p com) (vmul (/ 30) N) = 0). { rewrite EN. unfold vdot3, vminus, vmul. cbn [vx vy vz]. rewrite Hz, Ec. lra. }
      rewrite E0, Rabs_R0. destruct (Rlt_dec 0 (/ 10 ^ 10)) as [| H]; [reflexivity |]. exfalso. apply H. apply Rinv_0_lt_compat. lra. }
    rewrite Ef. cbn [map combine].
    assert (A : forall x y, 0 < x -> angle (vdot3 (V3 x y 0) (V3 1 0 0)) (vdot3 (V3 x y 0) (V3 0 1 0)) = atan (y / x)).
    { intros x y Hx. unfold vdot3. cbn [vx vy vz]. replace (x * 1 + y * 0 + 0 * 0) with x by ring. replace (x * 0 + y * 1 + 0 * 0) with y by ring. unfold angle. destruct (Rlt_dec 0 x); [reflexivity | lra]. }
    rewrite !A by lra.
    assert (O : forall x y, x < y -> atan x * 180 / PI < atan y * 180 / PI).
    { intros x y Hxy. pose proof PI_RGT_0. unfold Rdiv. apply Rmult_lt_compat_r; [apply Rinv_0_lt_compat; auto |]. apply Rmult_lt_compat_r; [lra |]. apply atan_increasing; auto. }
    pose proof (O (-5 / 20) (0 / 25) ltac:(lra)) as O1. pose proof (O (0 / 25) (3 / 16) ltac:(lra)) as O2. pose proof (O (3 / 16) (5 / 20) ltac:(lra)) as O3.
    cbn [fold_right put_angle fst]. repeat (match goal with |- context [Rle_dec ?x ?y] => destruct (Rle_dec x y); try (exfalso; lra) end; cbn [put_angle fst]). reflexivity.
  - exists (V3 25 0 0), (V3 16 3 0), (V3 20 5 0), (V3 20 (-5) 0). split; [reflexivity |]. split; [reflexivity |]. split; [cbn; auto |]. split; [cbn; auto |].
    unfold turn, vdot3. cbn [vx vy vz]. lra.
Qed.

(** at most three points, points of which the first three are on a line are refused *)
Theorem C87_refused : forall basis points,
  (length points <= 3)%nat \/ (exists v0 v1 v2 rest, points = v0 :: v1 :: v2 :: rest /\ cross (vminus v1 v0) (vminus v2 v0) = V3 0 0 0) ->
  radial_order_points basis points = Err AssertionError.
Proof.
  intros basis points [H | [v0 [v1 [v2 [rest [-> H]]]]]]; unfold radial_order_points.
  - destruct (Nat.leb_spec (length points) 3); [reflexivity | lia].
  - destruct (Nat.leb_spec (length (v0 :: v1 :: v2 :: rest)) 3); [reflexivity |]. rewrite H.
    destruct (Req_EM_T (norm3 (V3 0 0 0)) 0) as [| E]; [reflexivity |]. exfalso. apply E. unfold norm3, vdot3. cbn [vx vy vz]. replace (0 * 0 + 0 * 0 + 0 * 0) with 0 by ring. apply sqrt_0.
Qed.

(** points which were ordered are on a plane: that of the first three *)
(** Accepted are any four or more points in a plane whose first three are not on a line *)
Lemma sum_points l a : vx (fold_left vplus l a) = fold_right (fun p s => vx p + s) (vx a) l /\ vy (fold_left vplus l a) = fold_right (fun p s => vy p + s) (vy a) l /\ vz (fold_left vplus l a) = fold_right (fun p s => vz p + s) (vz a) l.
Proof.
  revert a. induction l as [| p l IH]; intros a; cbn [fold_left fold_right]; [auto |]. destruct (IH (vplus a p)) as [-> [-> ->]]. clear IH. cbn [vplus vx vy vz].
  assert (K : forall (f : v3 -> R) x y, fold_right (fun p s => f p + s) (x + y) l = y + fold_right (fun p s => f p + s) x l) by (intros f x y; induction l as [| q l IH]; cbn [fold_right]; [ring | rewrite IH; ring]).
  rewrite !K. auto.
Qed.
Theorem C87_accepts : forall basis points v0 v1 v2 rest, points = v0 :: v1 :: v2 :: rest -> rest <> [] -> cross (vminus v1 v0) (vminus v2 v0) <> V3 0 0 0 ->
  (forall p, In p points -> vdot3 (vminus p v0) (cross (vminus v1 v0) (vminus v2 v0)) = 0) -> exists l, radial_order_points basis points = Ok l.
Proof.
  intros basis points v0 v1 v2 rest Ep Nr Nc Hp. unfold radial_order_points.
  replace (length points <=? 3)%nat with false by (symmetry; apply Nat.leb_gt; subst points; destruct rest; [congruence | cbn; lia]).
  assert (Q : forall A (g : v3 -> v3 -> v3 -> res A), match points with v0 :: v1 :: v2 :: _ => g v0 v1 v2 | _ => Err AssertionError end = g v0 v1 v2) by (subst points; reflexivity). rewrite Q. clear Q. cbv zeta.
  set (c := cross (vminus v1 v0) (vminus v2 v0)) in *. destruct (Req_EM_T (norm3 c) 0) as [E | N].
  { exfalso. apply Nc. unfold norm3 in E. destruct c as [x y z]. unfold vdot3 in E. cbn [vx vy vz] in E.
    pose proof (Rle_0_sqr x). pose proof (Rle_0_sqr y). pose proof (Rle_0_sqr z). unfold Rsqr in *. apply sqrt_eq_0 in E; [| lra].
    assert (x * x = 0 /\ y * y = 0 /\ z * z = 0) as [Hx [Hy Hz]] by lra. apply Rsqr_0_uniq in Hx. apply Rsqr_0_uniq in Hy. apply Rsqr_0_uniq in Hz. congruence. }
  set (n := vmul (/ norm3 c) c). match goal with |- exists l, (if ?b then _ else _) = _ => assert (F : b = true) end.
  2: { rewrite F. destruct (basis n) as [t0 t1]. eexists. reflexivity. }
  apply forallb_forall. intros p Hin.
  assert (Lp : INR (length points) <> 0) by (apply not_0_INR; subst points; discriminate).
  assert (S : forall l, (forall q, In q l -> vdot3 (vminus q v0) c = 0) ->
    vx c * fold_right (fun p s => vx p + s) 0 l + vy c * fold_right (fun p s => vy p + s) 0 l + vz c * fold_right (fun p s => vz p + s) 0 l = INR (length l) * vdot3 v0 c).
  { induction l as [| q l IH]; intros H; [cbn [fold_right length INR]; ring |]. cbn [fold_right length]. rewrite S_INR. specialize (IH (fun q Hq => H q (or_intror Hq))). specialize (H q (or_introl eq_refl)).
    unfold vdot3, vminus in *. cbn [vx vy vz] in *. lra. }
  assert (M : vdot3 (mean3 points) c = vdot3 v0 c).
  { unfold mean3. destruct (sum_points points (V3 0 0 0)) as [Sx [Sy Sz]]. cbn [vx vy vz] in Sx, Sy, Sz. specialize (S points Hp).
    unfold vdot3 at 1. unfold vmul. cbn [vx vy vz]. rewrite Sx, Sy, Sz. apply (Rmult_eq_reg_l (INR (length points))); [| exact Lp]. rewrite <- S. field. exact Lp. }
  specialize (Hp p Hin). assert (Z : vdot3 (vminus p (mean3 points)) n = 0).
  { transitivity (/ norm3 c * (vdot3 (vminus p v0) c + vdot3 v0 c - vdot3 (mean3 points) c)); [unfold n, vmul, vdot3, vminus; cbn [vx vy vz]; ring |]. rewrite Hp, M. ring. }
  rewrite Z, Rabs_R0. destruct (Rlt_dec 0 (/ 10 ^ 10)) as [_ | K]; [reflexivity |]. exfalso. apply K, Rinv_0_lt_compat, pow_lt. lra.
Qed.
Example C87_accepts_ex : cross (vminus (V3 1 0 1) (V3 0 0 1)) (vminus (V3 1 1 1) (V3 0 0 1)) <> V3 0 0 0 /\
  forall p, In p [V3 0 0 1; V3 1 0 1; V3 1 1 1; V3 0 1 1] -> vdot3 (vminus p (V3 0 0 1)) (cross (vminus (V3 1 0 1) (V3 0 0 1)) (vminus (V3 1 1 1) (V3 0 0 1))) = 0.
Proof.
  split; [intros E; apply (f_equal vz) in E; cbn in E; lra |]. intros p H. repeat destruct H as [<- | H]; [| | | | destruct H]; unfold vdot3, vminus, cross; cbn [vx vy vz]; ring.
Qed.
Theorem C87_plane : forall basis points l, radial_order_points basis points = Ok l ->
  exists v0 v1 v2 rest c n, points = v0 :: v1 :: v2 :: rest /\ 0 < c /\ norm3 n = 1 /\ cross (vminus v1 v0) (vminus v2 v0) = vmul c n /\
    forall p q, In p points -> In q points -> Rabs (vdot3 (vminus p q) n) < 2 / 10 ^ 10.
Proof.
  intros basis points l H. destruct (C87_centered_partial basis points l H) as [n [t0 [t1 [_ [Hn [[v0 [v1 [v2 [rest [c [-> [Hc Ec]]]]]]] _]]]]]].
  exists v0, v1, v2, rest, c, n. do 4 (split; auto). intros p q Hp Hq.
  assert (Hu : vdot3 n n = 1). { assert (K := Hn). unfold norm3 in K. rewrite <- (sqrt_sqrt (vdot3 n n)), K; [ring |]. destruct n as [a b d]. unfold vdot3. cbn [vx vy vz]. pose proof (Rle_0_sqr a). pose proof (Rle_0_sqr b). pose proof (Rle_0_sqr d). unfold Rsqr in *. lra. }
  assert (En : norm3 (cross (vminus v1 v0) (vminus v2 v0)) = c).
  { rewrite Ec. unfold norm3. replace (vdot3 (vmul c n) (vmul c n)) with (c ^ 2 * vdot3 n n) by (unfold vdot3, vmul; cbn [vx vy vz]; ring). rewrite Hu, Rmult_1_r. apply sqrt_pow2. lra. }
  assert (En' : vmul (/ norm3 (cross (vminus v1 v0) (vminus v2 v0))) (cross (vminus v1 v0) (vminus v2 v0)) = n).
  { rewrite En, Ec. destruct n as [a b d]. unfold vmul. cbn [vx vy vz]. f_equal; field; lra. }
  revert H. unfold radial_order_points. destruct (Nat.leb_spec (length (v0 :: v1 :: v2 :: rest)) 3); [discriminate |]. cbn zeta. rewrite En'. destruct (Req_EM_T _ 0); [discriminate |].
  set (com := mean3 _). destruct (forallb _ _) eqn:F; [| discriminate]. intros _. rewrite forallb_forall in F.
  assert (K : forall x, In x (v0 :: v1 :: v2 :: rest) -> Rabs (vdot3 (vminus x com) n) < / 10 ^ 10). { intros x Hx. specialize (F x Hx). cbn beta in F. destruct (Rlt_dec _ _) as [L |]; [exact L | discriminate]. }
  replace (vdot3 (vminus p q) n) with (vdot3 (vminus p com) n - vdot3 (vminus q com) n) by (unfold vdot3, vminus; cbn [vx vy vz]; ring).
  eapply Rle_lt_trans; [unfold Rminus; apply Rabs_triang |]. rewrite Rabs_Ropp. pose proof (K p Hp). pose proof (K q Hq). lra.
Qed.

(** ** Cases *)
(** a tube of two triangles *)
Example case_tube : exists q, vtk_tube_render [([1; 2; 3], [4; 5; 6])]%nat = Ok ([1; 2; 3; 4; 5; 6]%nat, q) /\
  drawn [1; 2; 3; 4; 5; 6]%nat q = map (map Some) [[4; 5; 2; 1]; [5; 6; 3; 2]; [6; 4; 1; 3]]%nat.
Proof. eexists. split; reflexivity. Qed.
(** a square about the origin is put in order *)
Example case_square : radial_order_points (fun _ => (V3 1 0 0, V3 0 1 0)) [V3 1 0 0; V3 0 (-1) 0; V3 0 1 0; V3 (-1) 0 0] = Ok [V3 0 (-1) 0; V3 1 0 0; V3 0 1 0; V3 (-1) 0 0].
Proof.
  unfold radial_order_points. cbn [length Nat.leb].
  set (N := cross (vminus (V3 0 (-1) 0) (V3 1 0 0)) (vminus (V3 0 1 0) (V3 1 0 0))).
  assert (EN : N = V3 0 0 (-2)). { unfold N, cross, vminus. cbn [vx vy vz]. f_equal; lra. }
  assert (En : norm3 N = 2). { rewrite EN. unfold norm3, vdot3. cbn [vx vy vz]. match goal with |- sqrt ?x = 2 => replace x with (2 ^ 2) by lra end. apply sqrt_pow2; lra. }
  rewrite En. destruct (Req_EM_T 2 0); [lra |].
  set (com := mean3 _). assert (Ec : vz com = 0). { unfold com, mean3, vmul. cbn [fold_left vplus vz]. lra. }
  match goal with |- context [forallb ?f ?l] => assert (Ef : forallb f l = true) end.
  { apply forallb_forall. intros p Hp. assert (Hz : vz p = 0) by (destruct Hp as [<- | [<- | [<- | [<- | []]]]]; reflexivity).
    assert (E0 : vdot3 (vminus p com) (vmul (/ 2) N) = 0). { rewrite EN. unfold vdot3, vminus, vmul. cbn [vx vy vz]. rewrite Hz, Ec. lra. }
    rewrite E0, Rabs_R0. destruct (Rlt_dec 0 (/ 10 ^ 10)) as [| H]; [reflexivity |]. exfalso. apply H. apply Rinv_0_lt_compat. lra. }
  rewrite Ef. cbn [map combine].
  assert (C : forall x y, angle (vdot3 (V3 x y 0) (V3 1 0 0)) (vdot3 (V3 x y 0) (V3 0 1 0)) = angle x y).
  { intros x y. unfold vdot3. cbn [vx vy vz]. f_equal; ring. }
  rewrite !C. pose proof PI_RGT_0 as HPI.
  assert (A1 : angle 1 0 = 0). { unfold angle. destruct (Rlt_dec 0 1); [| lra]. replace (0 / 1) with 0 by lra. apply atan_0. }
  assert (A2 : angle 0 (-1) = - (PI / 2)). { unfold angle. destruct (Rlt_dec 0 0); [lra |]. destruct (Rlt_dec 0 (-1)); [lra |]. destruct (Rlt_dec (-1) 0); lra. }
  assert (A3 : angle 0 1 = PI / 2). { unfold angle. destruct (Rlt_dec 0 0); [lra |]. destruct (Rlt_dec 0 1); lra. }
  assert (A4 : angle (-1) 0 = PI). { unfold angle. destruct (Rlt_dec 0 (-1)); [lra |]. destruct (Rlt_dec (-1) 0); [| lra]. destruct (Rle_dec 0 0); [| lra]. replace (0 / -1) with 0 by lra. rewrite atan_0. lra. }
  rewrite A1, A2, A3, A4. replace (0 * 180 / PI) with 0 by (field; lra). replace (- (PI / 2) * 180 / PI) with (- 90) by (field; lra). replace (PI / 2 * 180 / PI) with 90 by (field; lra). replace (PI * 180 / PI) with 180 by (field; lra).
  cbn [fold_right put_angle fst]. repeat (match goal with |- context [Rle_dec ?x ?y] => destruct (Rle_dec x y); try (exfalso; lra) end; cbn [put_angle fst]). reflexivity.
Qed.

Print Assumptions C86_tubes.
Print Assumptions C86_uneven.
Print Assumptions C86_loops.
Print Assumptions C86_refused.
Print Assumptions C87_permutation.
Print Assumptions C87_centered_partial.
Print Assumptions C87_centre_refuted.
Print Assumptions C87_refused.
Print Assumptions C87_plane.
Print Assumptions C87_accepts.
