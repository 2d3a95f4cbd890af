(** Specification vocabulary and proofs for PlotModel.v *)
From Coq Require Import Lia Reals Lra Permutation.
From Verif Require Import Base BaseProofs EmbedModel ShapeModel PlotModel.
Local Open Scope nat_scope.

Section Cells.
Context {P : Type}.
(** the points of cells *)
Definition drawn (points : list P) (cells : list (list nat)) : list (list (option P)) := map (map (nth_error points)) cells.
(** a band of quads between two rings of equal length *)
Definition band (tube : list P * list P) : list (list (option P)) :=
  let (r0, r1) := tube in let n := length r0 in
  map (fun j => [nth_error r1 j; nth_error r1 ((j + 1) mod n); nth_error r0 ((j + 1) mod n); nth_error r0 j]) (seq 0 n).
(** a closed loop *)
Definition loop (s : list P) : list (list (option P)) :=
  map (fun j => [nth_error s j; nth_error s ((j + 1) mod length s)]) (seq 0 (length s)).

Lemma ring_length first n : length (ring first n) = S n.
Proof. unfold ring. rewrite app_length, seq_length. cbn. lia. Qed.
Lemma ring_nth first n j : 0 < n -> j <= n -> nth j (ring first n) 0 = first + j mod n.
Proof.
  intros Hn Hj. unfold ring. destruct (Nat.eq_dec j n) as [-> | Hne].
  - rewrite app_nth2 by (rewrite seq_length; lia). rewrite seq_length, Nat.sub_diag. cbn [nth]. rewrite Nat.mod_same by lia. lia.
  - rewrite app_nth1 by (rewrite seq_length; lia). rewrite seq_nth by lia. rewrite Nat.mod_small by lia. reflexivity.
Qed.
Lemma drawn_more points more cells : Forall (Forall (fun i => i < length points)) cells -> drawn (points ++ more) cells = drawn points cells.
Proof.
  intros H. unfold drawn. apply map_ext_in. intros c Hc. rewrite Forall_forall in H. specialize (H c Hc). apply map_ext_in. intros i Hi.
  rewrite Forall_forall in H. apply nth_error_app1. apply H, Hi.
Qed.
Definition tubes_ok (done : list (list P * list P)) (st : nat * list P * list (list nat)) : Prop :=
  let '(first, points, quads) := st in
  first = length points /\ points = flat_map (fun t => fst t ++ snd t) done /\ Forall (Forall (fun i => i < length points)) quads /\ drawn points quads = flat_map band done.
Lemma add_tube_ok done st tube : tubes_ok done st -> length (fst tube) = length (snd tube) ->
  exists st', add_tube st tube = Ok st' /\ tubes_ok (done ++ [tube]) st'.
Proof.
  destruct st as [[first points] quads], tube as [r0 r1]. intros [Hf [Hp [Hq Hd]]] Hl. cbn [fst snd] in Hl. unfold add_tube. rewrite !ring_length, Hl, Nat.eqb_refl.
  eexists. split; [reflexivity |]. unfold tubes_ok. rewrite !flat_map_app. cbn [flat_map fst snd]. rewrite !app_nil_r.
  assert (Hlen : length ((points ++ r0) ++ r1) = length points + length r1 + length r1) by (rewrite !app_length; lia).
  set (n := length r1) in *.
  assert (Hnew : quads_of (ring (first + n) n) (ring first n) = map (fun j => [first + n + j mod n; first + n + (j + 1) mod n; first + (j + 1) mod n; first + j mod n]) (seq 0 n)).
  { unfold quads_of. rewrite ring_length. replace (S n - 1) with n by lia. apply map_ext_in. intros j Hj. apply in_seq in Hj. rewrite !ring_nth by lia. reflexivity. }
  split; [lia |]. split; [rewrite <- Hp, <- app_assoc; reflexivity |]. split.
  - apply Forall_app. split.
    + eapply Forall_impl; [| exact Hq]. intros q H. eapply Forall_impl; [| exact H]. intros i Hi. cbn beta in *. lia.
    + rewrite Hnew. apply Forall_forall. intros q Hq'. apply in_map_iff in Hq'. destruct Hq' as [j [<- Hj]]. apply in_seq in Hj.
      assert (H1 : j mod n < n) by (apply Nat.mod_upper_bound; lia). assert (H2 : (j + 1) mod n < n) by (apply Nat.mod_upper_bound; lia).
      repeat constructor; lia.
  - unfold drawn at 1. rewrite map_app. fold (drawn ((points ++ r0) ++ r1) quads). rewrite <- app_assoc, drawn_more, Hd by exact Hq. f_equal.
    rewrite Hnew, map_map. unfold band. rewrite Hl. fold n. apply map_ext_in. intros j Hj. apply in_seq in Hj. cbn [map].
    assert (H1 : j mod n < n) by (apply Nat.mod_upper_bound; lia). assert (H2 : (j + 1) mod n < n) by (apply Nat.mod_upper_bound; lia).
    assert (A : forall i, i < n -> nth_error (points ++ r0 ++ r1) (first + n + i) = nth_error r1 i).
    { intros i Hi. rewrite nth_error_app2 by lia. rewrite nth_error_app2 by lia. f_equal. lia. }
    assert (B : forall i, i < n -> nth_error (points ++ r0 ++ r1) (first + i) = nth_error r0 i).
    { intros i Hi. rewrite nth_error_app2 by lia. rewrite nth_error_app1 by lia. f_equal. lia. }
    rewrite !A, !B by auto. rewrite (Nat.mod_small j) by lia. reflexivity.
Qed.
Lemma tubes_all tubes : forall done st, tubes_ok done st -> Forall (fun t => length (fst t) = length (snd t)) tubes ->
  exists st', foldM add_tube tubes st = Ok st' /\ tubes_ok (done ++ tubes) st'.
Proof.
  induction tubes as [| t tubes IH]; intros done st Hst H; cbn [foldM].
  - exists st. rewrite app_nil_r. auto.
  - inversion H as [| a b Ht H' E]; subst. destruct (add_tube_ok done st t Hst Ht) as [st1 [-> H1]]. cbn [bind].
    destruct (IH (done ++ [t]) st1 H1 H') as [st2 [-> H2]]. exists st2. split; auto. rewrite <- app_assoc in H2. exact H2.
Qed.
Lemma tubes_bad tubes : forall st, ~ Forall (fun t : list P * list P => length (fst t) = length (snd t)) tubes -> foldM add_tube tubes st = Err ValueError.
Proof.
  induction tubes as [| t tubes IH]; intros st H; [exfalso; apply H; constructor |]. cbn [foldM]. destruct st as [[first points] quads], t as [r0 r1]. unfold add_tube at 1.
  rewrite !ring_length. destruct (Nat.eqb_spec (S (length r1)) (S (length r0))) as [E | E]; [| reflexivity]. cbn [bind]. apply IH. intros H'. apply H. constructor; [cbn; lia | exact H'].
Qed.

(** loops *)
Lemma offsets_ranges a (ss : list (list P)) : combine (offsets a (map (@length P) ss)) (tl (offsets a (map (@length P) ss))) =
  match ss with [] => [] | s :: ss' => (a, a + length s) :: combine (offsets (a + length s) (map (@length P) ss')) (tl (offsets (a + length s) (map (@length P) ss'))) end.
Proof. destruct ss as [| s ss]; [reflexivity |]. cbn [map offsets tl]. destruct ss as [| s' ss]; reflexivity. Qed.
Lemma lines_ok ss : forall v0 lines before, Forall (fun s : list P => 2 <= length s) ss ->
  exists v1 new, foldM close_lines (combine (offsets (length before) (map (@length P) ss)) (tl (offsets (length before) (map (@length P) ss)))) (v0, lines) = Ok (v1, lines ++ new) /\
    forall after, drawn (before ++ concat ss ++ after) new = flat_map loop ss.
Proof.
  induction ss as [| s ss IH]; intros v0 lines before H.
  - exists v0, []. cbn. split; [rewrite app_nil_r; reflexivity | reflexivity].
  - inversion H as [| a b Hs H' E]; subst. rewrite offsets_ranges. cbn [foldM close_lines]. set (f := length before). set (n := length s) in *.
    replace (f + n - 1 - f) with (n - 1) by lia. destruct (Nat.eqb_spec (n - 1) 0) as [E0 | E0]; [lia |]. cbn [opt_res bind].
    replace (f + n) with (length (before ++ s)) by (rewrite app_length; reflexivity).
    destruct (IH (Some (length (before ++ s) - 2)) ((lines ++ map (fun v => [v; v + 1]) (seq f (n - 1))) ++ [[length (before ++ s) - 2 + 1; f]]) (before ++ s) H') as [v1 [new [-> Hd]]].
    exists v1, (map (fun v => [v; v + 1]) (seq f (n - 1)) ++ [[length (before ++ s) - 2 + 1; f]] ++ new). split; [rewrite !app_assoc; reflexivity |].
    intros after. cbn [concat]. unfold drawn. rewrite !map_app. cbn [flat_map]. rewrite app_assoc. f_equal.
    + unfold loop. fold n. replace (seq 0 n) with (seq 0 (n - 1) ++ [n - 1]). 2:{ replace n with (S (n - 1)) at 3 by lia. rewrite seq_S. reflexivity. }
      rewrite map_app. cbn [map].
      assert (A : forall i, i < n -> nth_error (before ++ (s ++ concat ss) ++ after) (f + i) = nth_error s i).
      { intros i Hi. rewrite nth_error_app2 by (unfold f; lia). rewrite nth_error_app1 by (rewrite app_length; unfold f, n in *; lia). rewrite nth_error_app1 by (unfold f, n in *; lia). f_equal. unfold f. lia. }
      f_equal.
      * rewrite map_map. replace f with (f + 0) at 1 by lia. rewrite <- (seq_length (n - 1) 0) at 1.
        assert (Hsh : forall m b, seq (f + b) m = map (fun j => f + j) (seq b m)). { clear. induction m as [| m IH]; intros b; cbn; [reflexivity |]. f_equal. rewrite <- IH. f_equal. lia. }
        rewrite seq_length, Hsh, map_map. apply map_ext_in. intros j Hj. apply in_seq in Hj. cbn [map]. rewrite <- Nat.add_assoc. rewrite !A by lia. rewrite Nat.mod_small by lia. reflexivity.
      * f_equal. rewrite app_length. fold f n. replace (f + n - 2 + 1) with (f + (n - 1)) by lia. rewrite A by lia.
        assert (B : nth_error (before ++ (s ++ concat ss) ++ after) f = nth_error s 0) by (replace f with (f + 0) by lia; apply A; lia). rewrite B.
        replace ((n - 1 + 1) mod n) with 0; [reflexivity |]. replace (n - 1 + 1) with n by lia. symmetry. apply Nat.mod_same. lia.
    + specialize (Hd after). unfold drawn in Hd. rewrite <- !app_assoc in *. exact Hd.
Qed.
End Cells.

(** ** Angles *)
Local Open Scope R_scope.
Lemma sqrt_sq_pos u v : (u <> 0 \/ v <> 0) -> 0 < sqrt (u ^ 2 + v ^ 2).
Proof. intros H. apply sqrt_lt_R0. pose proof (pow2_ge_0 u). pose proof (pow2_ge_0 v). destruct H as [H | H]; [apply Rlt_0_sqr in H | apply Rlt_0_sqr in H]; unfold Rsqr in H; nra. Qed.
Lemma polar_pos u v : 0 < u -> u = sqrt (u ^ 2 + v ^ 2) * cos (atan (v / u)) /\ v = sqrt (u ^ 2 + v ^ 2) * sin (atan (v / u)).
Proof.
  intros Hu. rewrite cos_atan, sin_atan. assert (E : sqrt (u ^ 2 + v ^ 2) = u * sqrt (1 + (v / u)²)).
  { rewrite <- (sqrt_pow2 u) at 2 by lra. rewrite <- sqrt_mult_alt by (apply pow2_ge_0). f_equal. unfold Rsqr. field. lra. }
  assert (Hs : 0 < sqrt (1 + (v / u)²)) by (apply sqrt_lt_R0; pose proof (Rle_0_sqr (v / u)); lra).
  rewrite E. split; field; lra.
Qed.
(** the angle is the argument: in (-pi, pi], with the right cosine and sine *)
Lemma angle_polar u v : (u <> 0 \/ v <> 0) -> u = sqrt (u ^ 2 + v ^ 2) * cos (angle u v) /\ v = sqrt (u ^ 2 + v ^ 2) * sin (angle u v).
Proof.
  intros H. unfold angle. destruct (Rlt_dec 0 u) as [Hu | Hu]; [apply polar_pos; auto |].
  destruct (Rlt_dec u 0) as [Hu' | Hu'].
  - destruct (polar_pos (- u) (- v)) as [A B]; [lra |]. replace ((- u) ^ 2 + (- v) ^ 2) with (u ^ 2 + v ^ 2) in A, B by ring. replace (- v / - u) with (v / u) in A, B by (field; lra).
    destruct (Rle_dec 0 v).
    + rewrite neg_cos, neg_sin. lra.
    + replace (atan (v / u) - PI) with (- (PI - atan (v / u))) by ring. rewrite cos_neg, sin_neg. rewrite <- Rtrigo_facts.cos_pi_minus in * |- || idtac.
      replace (PI - atan (v / u)) with (- atan (v / u) + PI) by ring. rewrite neg_cos, neg_sin, cos_neg, sin_neg. lra.
  - assert (u = 0) by lra. subst u. assert (Hv : v <> 0) by tauto. replace (0 ^ 2 + v ^ 2) with (v ^ 2) by ring. destruct (Rlt_dec 0 v) as [Hv' | Hv'].
    + rewrite sqrt_pow2, cos_PI2, sin_PI2 by lra. lra.
    + destruct (Rlt_dec v 0) as [Hv'' | Hv'']; [| exfalso; lra]. rewrite cos_neg, sin_neg, cos_PI2, sin_PI2. replace (v ^ 2) with ((- v) ^ 2) by ring. rewrite sqrt_pow2 by lra. lra.
Qed.
Lemma angle_range u v : - PI < angle u v <= PI.
Proof.
  pose proof PI_RGT_0. pose proof (atan_bound (v / u)) as [A B]. unfold angle. destruct (Rlt_dec 0 u) as [Hu | Hu]; [lra |].
  destruct (Rlt_dec u 0) as [Hu' | Hu'].
  - destruct (Rle_dec 0 v) as [Hv | Hv].
    + assert (Hle : v / u <= 0). { unfold Rdiv. assert (/ u < 0) by (apply Rinv_lt_0_compat; auto). nra. }
      assert (atan (v / u) <= 0). { destruct Hle as [Hlt | ->]; [left; rewrite <- atan_0; apply atan_increasing; auto | rewrite atan_0; lra]. } lra.
    + assert (Hlt : 0 < v / u). { unfold Rdiv. assert (/ u < 0) by (apply Rinv_lt_0_compat; auto). nra. }
      assert (0 < atan (v / u)) by (rewrite <- atan_0; apply atan_increasing; auto). lra.
  - destruct (Rlt_dec 0 v); [lra |]. destruct (Rlt_dec v 0); lra.
Qed.

(** ** The sort *)
Lemma put_angle_perm x l : Permutation (put_angle x l) (x :: l).
Proof.
  induction l as [| y l IH]; cbn [put_angle]; auto. destruct (Rle_dec (fst x) (fst y)); auto.
  eapply perm_trans; [apply perm_skip, IH | apply perm_swap].
Qed.
Lemma sort_perm l : Permutation (fold_right put_angle [] l) l.
Proof. induction l as [| x l IH]; cbn; auto. eapply perm_trans; [apply put_angle_perm | auto]. Qed.
Fixpoint ascending (l : list R) : Prop := match l with [] => True | x :: r => (forall y, In y r -> x <= y) /\ ascending r end.
Lemma put_angle_asc x l : ascending (map fst l) -> ascending (map fst (put_angle x l)).
Proof.
  induction l as [| y l IH]; intros H; cbn [put_angle].
  - cbn. split; [intros y [] | auto].
  - destruct (Rle_dec (fst x) (fst y)) as [Hle | Hlt]; cbn [map ascending] in *; destruct H as [Hy H].
    + split; [| split; auto]. intros z [<- | Hz]; auto. specialize (Hy z Hz). lra.
    + split; [| auto]. intros z Hz. apply in_map_iff in Hz. destruct Hz as [p [<- Hp]]. apply (Permutation_in _ (put_angle_perm x l)) in Hp.
      destruct Hp as [<- | Hp]; [lra |]. apply Hy, in_map, Hp.
Qed.
Lemma sort_asc l : ascending (map fst (fold_right put_angle [] l)).
Proof. induction l as [| x l IH]; cbn; auto. apply put_angle_asc, IH. Qed.
Lemma asc_nth l i j x y : ascending l -> (i < j)%nat -> nth_error l i = Some x -> nth_error l j = Some y -> x <= y.
Proof.
  revert i j. induction l as [| a l IH]; intros [| i] [| j] Ha Hij Hi Hj; try discriminate; try lia.
  - injection Hi as ->. cbn [nth_error] in Hj. apply (proj1 Ha). apply nth_error_In in Hj. exact Hj.
  - apply (IH i j); auto; [apply Ha | lia].
Qed.

(** ** Turns *)
(** In coordinates of the plane: positive if the way from [p] over [q] to [s] turns left *)
Definition turn (t0 t1 p q s : v3) : R :=
  (vdot3 q t0 - vdot3 p t0) * (vdot3 s t1 - vdot3 p t1) - (vdot3 q t1 - vdot3 p t1) * (vdot3 s t0 - vdot3 p t0).
(** The three points of a circle of radius [r] at angles a, b, c *)
Lemma turn_circle r a b c :
  (r * cos b - r * cos a) * (r * sin c - r * sin a) - (r * sin b - r * sin a) * (r * cos c - r * cos a)
  = 4 * r ^ 2 * sin ((b - a) / 2) * sin ((c - a) / 2) * sin ((c - b) / 2).
Proof.
  set (x := (b - a) / 2). set (y := (c - a) / 2).
  replace ((c - b) / 2) with (y - x) by (unfold x, y; field). replace b with (2 * x + a) by (unfold x; field). replace c with (2 * y + a) by (unfold y; field).
  clearbody x y.
  rewrite !cos_plus, !sin_plus, (sin_minus y x). rewrite !cos_2a, !sin_2a.
  pose proof (sin2_cos2 a) as A. pose proof (sin2_cos2 x) as X. pose proof (sin2_cos2 y) as Y. unfold Rsqr in *.
  set (ca := cos a) in *. set (sa := sin a) in *. set (cx := cos x) in *. set (sx := sin x) in *. set (cy := cos y) in *. set (sy := sin y) in *.
  assert (Ex : cx * cx = 1 - sx * sx) by lra. assert (Ey : cy * cy = 1 - sy * sy) by lra. assert (Ea : ca * ca = 1 - sa * sa) by lra.
  replace (cx * cx - sx * sx) with (1 - 2 * (sx * sx)) by lra. replace (cy * cy - sy * sy) with (1 - 2 * (sy * sy)) by lra.
  (* both sides as multiples of ca^2 + sa^2 = 1 *)
  transitivity ((ca * ca + sa * sa) * (r ^ 2 * (4 * sx * sx * sy * sy * 0 + (- 2 * (sx * sx)) * (2 * sy * cy) - (2 * sx * cx) * (- 2 * (sy * sy))))); [ring |].
  replace (ca * ca + sa * sa) with 1 by lra. ring.
Qed.
