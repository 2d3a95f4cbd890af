(** Normals of manifold meshes (property C70) *)
From Coq Require Import Reals Lra.
From Verif Require Import BaseProofs ConvertProofs GeomProofs TangentProofs NormalModel NormalProofs.
Local Close Scope R_scope.
Local Open Scope nat_scope.

(** [x] is the mean of points *)
Fixpoint sum_at (i : nat) (ps : list (list R)) : R := match ps with [] => 0 | p :: ps' => nth i p 0 + sum_at i ps' end%R.
Definition is_mean (gdim : nat) (ps : list (list R)) (x : list R) : Prop := length x = gdim /\ forall i, i < gdim -> (INR (length ps) * nth i x 0 = sum_at i ps)%R.
Lemma mean_is_mean gdim ps x : ps <> [] -> is_mean gdim ps x <-> x = mean_point gdim ps.
Proof.
  intros N. assert (Z : INR (length ps) <> 0%R) by (apply not_0_INR; destruct ps; [congruence|discriminate]). assert (S : forall i, lsum (map (fun p => nth i p 0%R) ps) = sum_at i ps) by (intros i; clear; induction ps as [|p ps IH]; [reflexivity|]; cbn; unfold lsum in IH; rewrite IH; reflexivity). split.
  - intros [L E]. apply (nth_ext _ _ 0%R 0%R); [rewrite mean_length; exact L|]. intros i Hi. rewrite L in Hi. unfold mean_point. rewrite (nth_map_seq _ _ _ _ Hi), S, <- (E i Hi). field. exact Z.
  - intros ->. split; [apply mean_length|]. intros i Hi. unfold mean_point. rewrite (nth_map_seq _ _ _ _ Hi), S. field. exact Z.
Qed.
Lemma run tdim gdim X cells cn o f : 1 <= tdim -> tdim < gdim -> direction gdim X o = Ok f -> gives_normals gdim X cells cn ->
  exists values, outer_normal tdim gdim X cells cn o = Ok values /\ length values = length cells /\
    forall c, c < length cells -> exists n, normal_to gdim (map (fun v => nth v X []) (nth c cells [])) n /\ nth c values [] = oriented f (mean_point gdim (map (fun v => nth v X []) (nth c cells []))) n.
Proof.
  intros T1 T2 D G. unfold outer_normal. replace ((1 <=? tdim) && (tdim <? gdim)) with true by (symmetry; apply andb_true_intro; split; [apply Nat.leb_le|apply Nat.ltb_lt]; assumption). cbn [py_assert bind]. rewrite D. cbn [bind].
  set (step := fun cell => let ps := map (fun v => nth v X []) cell in do n <- cn ps; Ok (oriented f (mean_point gdim ps) n)).
  destruct (mapM step cells) as [values|e] eqn:M.
  - exists values. split; [reflexivity|]. apply mapM_ok_forall in M. assert (F : length cells = length values /\ forall i, i < length cells -> step (nth i cells []) = Ok (nth i values [])).
    { clear G. induction M as [|x y l l' H F [L IH]]; [split; [reflexivity|intros i Hi; cbn in Hi; lia]|]. split; [cbn; congruence|]. intros [|i] Hi; [exact H|apply IH; cbn in Hi; lia]. }
    destruct F as [L F]. split; [congruence|]. intros c Hc. specialize (F c Hc). unfold step in F. destruct (G (nth c cells [])) as [n [E N]]; [apply nth_In, Hc|]. rewrite E in F. cbn [bind] in F. exists n. split; [exact N|congruence].
  - exfalso. apply mapM_err_in in M. destruct M as [cell [I E]]. destruct (G cell I) as [n [E' _]]. unfold step in E. rewrite E' in E. discriminate.
Qed.
Lemma normal_unit gdim ps f x n : normal_to gdim ps n -> (forall p, In p ps -> length p = gdim) -> normal_to gdim ps (oriented f x n) /\ inner (oriented f x n) (oriented f x n) = 1%R.
Proof.
  intros [L [Z O]] Lp. rewrite inner_rdot in Z. destruct (oriented_spec f x n Z) as [U _]. split; [|exact U]. assert (K : exists a, oriented f x n = rscale a n).
  { unfold oriented. destruct (Rlt_dec (rdot (f x) n) 0); [|eexists; reflexivity]. exists (/ rnorm (rscale (-1) n) * -1)%R. unfold rscale. rewrite map_map. apply map_ext. intros; ring. }
  destruct K as [a K]. rewrite K in *. split; [rewrite rscale_length; exact L|]. split; [rewrite U; lra|]. intros p q P Q. specialize (O p q P Q). rewrite inner_rdot in *. rewrite rdot_scale_l, O. ring.
Qed.
(** The vectors are unit normals of the cells that do not point against the given function at the midpoints *)
Theorem C70_function : forall tdim gdim X cells cell_normal f,
  1 <= tdim -> tdim < gdim -> points gdim X cells -> gives_normals gdim X cells cell_normal ->
  exists values, outer_normal tdim gdim X cells cell_normal (ByFunction gdim f) = Ok values /\ length values = length cells /\
    forall c x, c < length cells -> is_mean gdim (map (fun v => nth v X []) (nth c cells [])) x ->
      normal_to gdim (map (fun v => nth v X []) (nth c cells [])) (nth c values []) /\ inner (nth c values []) (nth c values []) = 1%R /\ (0 <= inner (f x) (nth c values []))%R.
Proof.
  intros tdim gdim X cells cn f T1 T2 [P1 P2] G. destruct (run tdim gdim X cells cn (ByFunction gdim f) f T1 T2) as [values [E [L V]]]; [cbn; rewrite Nat.eqb_refl; reflexivity|exact G|]. exists values. split; [exact E|]. split; [exact L|]. intros c x Hc Hx. destruct (V c Hc) as [n [N ->]]. destruct (P2 (nth c cells [])) as [Ne Lt]; [apply nth_In, Hc|]. apply mean_is_mean in Hx; [|destruct (nth c cells []); [congruence|discriminate]]. subst x.
  destruct (normal_unit gdim _ f (mean_point gdim (map (fun v => nth v X []) (nth c cells []))) n N) as [A B].
  { intros p Hp. apply in_map_iff in Hp. destruct Hp as [v [<- Hv]]. rewrite Forall_forall in P1. apply P1, nth_In, Lt, Hv. }
  split; [exact A|]. split; [exact B|]. destruct N as [_ [Z _]]. rewrite inner_rdot in Z. apply (oriented_spec f _ n Z).
Qed.
(** With a point: the vector goes away from the point, so if the point is behind the plane of the cell it is the outer normal *)
Theorem C70_point : forall tdim gdim X cells cell_normal x0,
  1 <= tdim -> tdim < gdim -> points gdim X cells -> gives_normals gdim X cells cell_normal -> length x0 = gdim ->
  exists values, outer_normal tdim gdim X cells cell_normal (ByPoint x0) = Ok values /\ length values = length cells /\
    forall c m, c < length cells -> let ps := map (fun v => nth v X []) (nth c cells []) in
      one_normal gdim ps -> normal_to gdim ps m -> (forall q, In q ps -> (inner m (difference x0 q) < 0)%R) -> unit_along m (nth c values []).
Proof.
  intros tdim gdim X cells cn x0 T1 T2 [P1 P2] G L0. destruct (run tdim gdim X cells cn (ByPoint x0) (fun x => rsub x x0) T1 T2) as [values [E [L V]]]; [cbn; rewrite L0, Nat.eqb_refl; reflexivity|exact G|]. exists values. split; [exact E|]. split; [exact L|]. intros c m Hc ps O M B. destruct (V c Hc) as [n [N ->]]. fold ps in N |- *. destruct (P2 (nth c cells [])) as [Ne Lt]; [apply nth_In, Hc|].
  assert (Fp : Forall (fun p => length p = gdim) ps). { apply Forall_forall. intros p Hp. apply in_map_iff in Hp. destruct Hp as [v [<- Hv]]. rewrite Forall_forall in P1. apply P1, nth_In, Lt, Hv. }
  apply (oriented_along gdim ps); [exact O|exact M|exact N|]. assert (Nps : ps <> []) by (unfold ps; destruct (nth c cells []); [congruence|discriminate]). destruct ps as [|q ps']; [congruence|]. specialize (B q (or_introl eq_refl)). assert (Lq : length q = gdim) by (rewrite Forall_forall in Fp; apply Fp; left; reflexivity). rewrite inner_rdot in *. rewrite difference_rsub, rdot_sub_r in B by congruence. rewrite rdot_sym, rdot_sub_r by (rewrite mean_length; congruence). rewrite (midpoint_plane gdim (q :: ps') m q Nps Fp M (or_introl eq_refl)). lra.
Qed.
(** Without orientation: if the mesh is convex, that is for each cell all vertices are on one side, these are the outer normals *)
Theorem C70_convex : forall tdim gdim X cells cell_normal,
  1 <= tdim -> tdim < gdim -> points gdim X cells -> gives_normals gdim X cells cell_normal ->
  exists values, outer_normal tdim gdim X cells cell_normal ByMean = Ok values /\ length values = length cells /\
    forall c m, c < length cells -> let ps := map (fun v => nth v X []) (nth c cells []) in
      one_normal gdim ps -> supports gdim X ps m -> unit_along m (nth c values []).
Proof.
  intros tdim gdim X cells cn T1 T2 [P1 P2] G. destruct (run tdim gdim X cells cn ByMean (fun x => rsub x (mean_point gdim X)) T1 T2) as [values [E [L V]]]; [reflexivity|exact G|]. exists values. split; [exact E|]. split; [exact L|]. intros c m Hc ps O [M [B [p0 [q0 [Hp0 [Hq0 S]]]]]]. destruct (V c Hc) as [n [N ->]]. fold ps in N |- *. destruct (P2 (nth c cells [])) as [Ne Lt]; [apply nth_In, Hc|].
  assert (Fp : Forall (fun p => length p = gdim) ps). { apply Forall_forall. intros p Hp. apply in_map_iff in Hp. destruct Hp as [v [<- Hv]]. rewrite Forall_forall in P1. apply P1, nth_In, Lt, Hv. }
  apply (oriented_along gdim ps); [exact O|exact M|exact N|]. assert (Nps : ps <> []) by (intros Z; rewrite Z in Hq0; destruct Hq0). rewrite inner_rdot, rdot_sym, rdot_sub_r by (rewrite !mean_length; reflexivity). rewrite (midpoint_plane gdim ps m q0 Nps Fp M Hq0). destruct M as [Lm [Zm Om]]. rewrite rdot_mean by assumption.
  assert (LX : (0 < INR (length X))%R) by (apply lt_0_INR; destruct X; [destruct Hp0|cbn; lia]).
  assert (W : (lsum (map (rdot m) X) < INR (length X) * rdot m q0)%R).
  { rewrite <- (map_length (rdot m) X). rewrite Forall_forall in P1, Fp. apply lsum_lt.
    - intros x Hx. apply in_map_iff in Hx. destruct Hx as [p [<- Hp]]. specialize (B p q0 Hp Hq0). rewrite inner_rdot, difference_rsub, rdot_sub_r in B by (rewrite (P1 p Hp), (Fp q0 Hq0); reflexivity). lra.
    - exists (rdot m p0). split; [apply in_map, Hp0|]. rewrite inner_rdot, difference_rsub, rdot_sub_r in S by (rewrite (P1 p0 Hp0), (Fp q0 Hq0); reflexivity). lra. }
  apply (Rmult_lt_reg_l (INR (length X))); [exact LX|]. rewrite Rmult_0_r, Rmult_minus_distr_l. replace (INR (length X) * (lsum (map (rdot m) X) / INR (length X)))%R with (lsum (map (rdot m) X)) by (field; lra). lra.
Qed.
(** Inner normals are the negative ones *)
Theorem C70_inner : forall tdim gdim X cells cell_normal o,
  match outer_normal tdim gdim X cells cell_normal o, inner_normal tdim gdim X cells cell_normal o with
  | Ok outer, Ok inners => length inners = length outer /\ forall c i, nth i (nth c inners []) 0%R = (- nth i (nth c outer []) 0)%R
  | Err e, Err e' => e = e'
  | _, _ => False
  end.
Proof.
  intros. unfold inner_normal. destruct (outer_normal tdim gdim X cells cell_normal o) as [values|e]; [cbn [bind]|reflexivity]. split; [apply map_length|]. intros c i. change (@nil R) with (rscale (-1) []) at 1. rewrite (map_nth (rscale (-1))), rscale_nth. ring.
Qed.
(** What is refused *)
Theorem C70_refused : forall tdim gdim X cells cell_normal o,
  (tdim = 0 \/ gdim <= tdim -> outer_normal tdim gdim X cells cell_normal o = Err AssertionError) /\
  (forall x0, length x0 <> gdim -> outer_normal tdim gdim X cells cell_normal (ByPoint x0) = Err AssertionError) /\
  (forall shape f, shape <> gdim -> outer_normal tdim gdim X cells cell_normal (ByFunction shape f) = Err AssertionError).
Proof.
  intros. unfold outer_normal. split; [|split].
  - intros H. replace ((1 <=? tdim) && (tdim <? gdim)) with false; [reflexivity|]. symmetry. apply andb_false_iff. destruct H; [left; apply Nat.leb_gt|right; apply Nat.ltb_ge]; lia.
  - intros x0 H. destruct ((1 <=? tdim) && (tdim <? gdim)); [|reflexivity]. cbn [py_assert bind direction]. rewrite (proj2 (Nat.eqb_neq _ _) H). reflexivity.
  - intros s f H. destruct ((1 <=? tdim) && (tdim <? gdim)); [|reflexivity]. cbn [py_assert bind direction]. rewrite (proj2 (Nat.eqb_neq _ _) H). reflexivity.
Qed.
(** Intervals of the plane and triangles in space have one normal *)
Theorem C70_facets : 
  (forall p1 p2 q1 q2 : R, (p1 <> q1 \/ p2 <> q2) -> one_normal 2 [[p1; p2]; [q1; q2]]) /\
  (forall p1 p2 p3 q1 q2 q3 r1 r2 r3 : R, ((q2 - p2) * (r3 - p3) - (q3 - p3) * (r2 - p2) <> 0 \/ (q3 - p3) * (r1 - p1) - (q1 - p1) * (r3 - p3) <> 0 \/ (q1 - p1) * (r2 - p2) - (q2 - p2) * (r1 - p1) <> 0)%R ->
    one_normal 3 [[p1; p2; p3]; [q1; q2; q3]; [r1; r2; r3]]).
Proof.
  split.
  - intros p1 p2 q1 q2 D m n [Lm [Zm Om]] [Ln [_ On]]. destruct m as [|m1 [|m2 [|]]]; try discriminate. destruct n as [|n1 [|n2 [|]]]; try discriminate. specialize (Om [q1; q2] [p1; p2]). specialize (On [q1; q2] [p1; p2]). cbn in Om, On, Zm. specialize (Om ltac:(tauto) ltac:(tauto)). specialize (On ltac:(tauto) ltac:(tauto)).
    assert (C : (m1 * n2 - m2 * n1 = 0)%R). { destruct D as [D|D].
      - apply (Rmult_eq_reg_l (q1 - p1)); [|lra]. replace ((q1 - p1) * (m1 * n2 - m2 * n1))%R with (n2 * (m1 * (q1 - p1) + (m2 * (q2 - p2) + 0)) - m2 * (n1 * (q1 - p1) + (n2 * (q2 - p2) + 0)))%R by ring. rewrite Om, On. ring.
      - apply (Rmult_eq_reg_l (q2 - p2)); [|lra]. replace ((q2 - p2) * (m1 * n2 - m2 * n1))%R with (- n1 * (m1 * (q1 - p1) + (m2 * (q2 - p2) + 0)) + m1 * (n1 * (q1 - p1) + (n2 * (q2 - p2) + 0)))%R by ring. rewrite Om, On. ring. }
    assert (Z : (m1 * m1 + m2 * m2 <> 0)%R) by lra. exists ((n1 * m1 + n2 * m2) / (m1 * m1 + m2 * m2))%R. intros i. destruct i as [|[|[|i]]]; cbn [nth]; [| |ring|ring]; apply (Rmult_eq_reg_r (m1 * m1 + m2 * m2)); try exact Z; unfold Rdiv; apply Rminus_diag_uniq.
    + replace (n1 * (m1 * m1 + m2 * m2) - (n1 * m1 + n2 * m2) * / (m1 * m1 + m2 * m2) * m1 * (m1 * m1 + m2 * m2))%R with (- m2 * (m1 * n2 - m2 * n1))%R by (field; exact Z). rewrite C. ring.
    + replace (n2 * (m1 * m1 + m2 * m2) - (n1 * m1 + n2 * m2) * / (m1 * m1 + m2 * m2) * m2 * (m1 * m1 + m2 * m2))%R with (m1 * (m1 * n2 - m2 * n1))%R by (field; exact Z). rewrite C. ring.
  - intros p1 p2 p3 q1 q2 q3 r1 r2 r3 D m n [Lm [Zm Om]] [Ln [_ On]]. destruct m as [|m1 [|m2 [|m3 [|]]]]; try discriminate. destruct n as [|n1 [|n2 [|n3 [|]]]]; try discriminate.
    pose proof (Om [q1; q2; q3] [p1; p2; p3]) as Mu. pose proof (Om [r1; r2; r3] [p1; p2; p3]) as Mv. pose proof (On [q1; q2; q3] [p1; p2; p3]) as Nu. pose proof (On [r1; r2; r3] [p1; p2; p3]) as Nv. cbn in Mu, Mv, Nu, Nv, Zm. specialize (Mu ltac:(tauto) ltac:(tauto)). specialize (Mv ltac:(tauto) ltac:(tauto)). specialize (Nu ltac:(tauto) ltac:(tauto)). specialize (Nv ltac:(tauto) ltac:(tauto)). clear Om On Lm Ln.
    set (u1 := (q1 - p1)%R) in *. set (u2 := (q2 - p2)%R) in *. set (u3 := (q3 - p3)%R) in *. set (v1 := (r1 - p1)%R) in *. set (v2 := (r2 - p2)%R) in *. set (v3 := (r3 - p3)%R) in *. set (w1 := (u2 * v3 - u3 * v2)%R) in *. set (w2 := (u3 * v1 - u1 * v3)%R) in *. set (w3 := (u1 * v2 - u2 * v1)%R) in *.
    assert (W : (w1 * w1 + w2 * w2 + w3 * w3 <> 0)%R) by (destruct D as [D|[D|D]]; nra).
    assert (P : forall a1 a2 a3, (a1 * u1 + (a2 * u2 + (a3 * u3 + 0)) = 0)%R -> (a1 * v1 + (a2 * v2 + (a3 * v3 + 0)) = 0)%R -> let s := ((a1 * w1 + a2 * w2 + a3 * w3) / (w1 * w1 + w2 * w2 + w3 * w3))%R in (a1 = s * w1 /\ a2 = s * w2 /\ a3 = s * w3)%R).
    { intros a1 a2 a3 Au Av s. assert (C1 : (a2 * w3 - a3 * w2 = 0)%R). { replace (a2 * w3 - a3 * w2)%R with (u1 * (a1 * v1 + (a2 * v2 + (a3 * v3 + 0))) - v1 * (a1 * u1 + (a2 * u2 + (a3 * u3 + 0))))%R by (unfold w3, w2; ring). rewrite Au, Av. ring. }
      assert (C2 : (a3 * w1 - a1 * w3 = 0)%R). { replace (a3 * w1 - a1 * w3)%R with (u2 * (a1 * v1 + (a2 * v2 + (a3 * v3 + 0))) - v2 * (a1 * u1 + (a2 * u2 + (a3 * u3 + 0))))%R by (unfold w1, w3; ring). rewrite Au, Av. ring. }
      assert (C3 : (a1 * w2 - a2 * w1 = 0)%R). { replace (a1 * w2 - a2 * w1)%R with (u3 * (a1 * v1 + (a2 * v2 + (a3 * v3 + 0))) - v3 * (a1 * u1 + (a2 * u2 + (a3 * u3 + 0))))%R by (unfold w1, w2; ring). rewrite Au, Av. ring. }
      clearbody w1 w2 w3. unfold s. repeat split; apply (Rmult_eq_reg_r (w1 * w1 + w2 * w2 + w3 * w3)); try exact W; unfold Rdiv.
      - replace ((a1 * w1 + a2 * w2 + a3 * w3) * / (w1 * w1 + w2 * w2 + w3 * w3) * w1 * (w1 * w1 + w2 * w2 + w3 * w3))%R with ((a1 * w1 + a2 * w2 + a3 * w3) * w1)%R by (field; exact W). apply Rminus_diag_uniq. replace (a1 * (w1 * w1 + w2 * w2 + w3 * w3) - (a1 * w1 + a2 * w2 + a3 * w3) * w1)%R with (w2 * (a1 * w2 - a2 * w1) - w3 * (a3 * w1 - a1 * w3))%R by ring. rewrite C2, C3. ring.
      - replace ((a1 * w1 + a2 * w2 + a3 * w3) * / (w1 * w1 + w2 * w2 + w3 * w3) * w2 * (w1 * w1 + w2 * w2 + w3 * w3))%R with ((a1 * w1 + a2 * w2 + a3 * w3) * w2)%R by (field; exact W). apply Rminus_diag_uniq. replace (a2 * (w1 * w1 + w2 * w2 + w3 * w3) - (a1 * w1 + a2 * w2 + a3 * w3) * w2)%R with (w3 * (a2 * w3 - a3 * w2) - w1 * (a1 * w2 - a2 * w1))%R by ring. rewrite C1, C3. ring.
      - replace ((a1 * w1 + a2 * w2 + a3 * w3) * / (w1 * w1 + w2 * w2 + w3 * w3) * w3 * (w1 * w1 + w2 * w2 + w3 * w3))%R with ((a1 * w1 + a2 * w2 + a3 * w3) * w3)%R by (field; exact W). apply Rminus_diag_uniq. replace (a3 * (w1 * w1 + w2 * w2 + w3 * w3) - (a1 * w1 + a2 * w2 + a3 * w3) * w3)%R with (w1 * (a3 * w1 - a1 * w3) - w2 * (a2 * w3 - a3 * w2))%R by ring. rewrite C1, C2. ring. }
    destruct (P m1 m2 m3 Mu Mv) as [M1 [M2 M3]]. destruct (P n1 n2 n3 Nu Nv) as [N1 [N2 N3]]. set (s := ((m1 * w1 + m2 * w2 + m3 * w3) / (w1 * w1 + w2 * w2 + w3 * w3))%R) in *. set (t := ((n1 * w1 + n2 * w2 + n3 * w3) / (w1 * w1 + w2 * w2 + w3 * w3))%R) in *. clearbody s t. assert (Zs : s <> 0%R) by (intros Q; rewrite Q in *; nra).
    exists (t / s)%R. intros i. destruct i as [|[|[|[|i]]]]; cbn [nth]; [rewrite N1, M1|rewrite N2, M2|rewrite N3, M3|ring|ring]; field; exact Zs.
Qed.
(** sandbox/outer_normal.py:6-23: facets of the sides y = 0 and y = 1 of the unit square, oriented by its centre, have the
    normals (0, -1) and (0, 1), on all meshes of such facets *)
Theorem C70_square : forall X cells cell_normal, points 2 X cells -> gives_normals 2 X cells cell_normal ->
  (forall cell, In cell cells -> exists a b y, (y = 0 \/ y = 1)%R /\ a <> b /\ map (fun v => nth v X []) cell = [[a; y]; [b; y]]) ->
  exists values, outer_normal 1 2 X cells cell_normal (ByPoint [/ 2; / 2]%R) = Ok values /\ length values = length cells /\
    forall c v, c < length cells -> In v (nth c cells []) ->
      (nth 1 (nth v X []) 0 = 1 -> nth c values [] = [0; 1])%R /\ (nth 1 (nth v X []) 0 = 0 -> nth c values [] = [0; -1])%R.
Proof.
  intros X cells cn P G S. destruct (C70_point 1 2 X cells cn [/ 2; / 2]%R) as (values & E & L & V); auto.
  exists values. split; [exact E|split; [exact L|]]. intros c v Hc Iv.
  destruct (S (nth c cells []) (nth_In _ _ Hc)) as (a & b & y & Y & AB & M).
  assert (Yv : nth 1 (nth v X []) 0%R = y).
  { apply (in_map (fun v => nth v X [])) in Iv. rewrite M in Iv. destruct Iv as [<-|[<-|[]]]; reflexivity. }
  rewrite Yv. specialize (V c [0; 2 * y - 1]%R Hc). cbv zeta in V. rewrite M in V.
  assert (U : unit_along [0; 2 * y - 1]%R (nth c values [])).
  { apply V.
    - apply (proj1 C70_facets). left. exact AB.
    - split; [reflexivity|split; [cbn; destruct Y; subst y; lra|]].
      intros p q [<-|[<-|[]]] [<-|[<-|[]]]; cbn; lra.
    - intros q [<-|[<-|[]]]; cbn; destruct Y; subst y; lra. }
  destruct U as (Lu & I1 & s & Ps & K). destruct (nth c values []) as [|t1 [|t2 [|]]]; try discriminate Lu.
  pose proof (K 0) as K0. pose proof (K 1) as K1. cbn in K0, K1, I1.
  assert (t1 = 0%R) by (apply (Rmult_eq_reg_l s); lra). subst t1.
  split; intros Ey; rewrite Ey in *; (assert (T : (t2 * t2 = 1)%R) by lra).
  - assert (t2 = 1%R) by nra. subst. reflexivity.
  - assert (t2 = (-1)%R) by nra. subst. reflexivity.
Qed.
Print Assumptions C70_square.

(** The normal of an interval of the plane *)
Definition rotated (ps : list (list R)) : res (list R) := match ps with [p; q] => Ok [- (nth 1 q 0 - nth 1 p 0); nth 0 q 0 - nth 0 p 0]%R | _ => Err RuntimeError end.
Lemma rotated_normal p1 p2 q1 q2 : (p1 <> q1 \/ p2 <> q2) -> normal_to 2 [[p1; p2]; [q1; q2]] [- (q2 - p2); q1 - p1]%R.
Proof.
  intros D. split; [reflexivity|]. split; [cbn; intros Z; pose proof (Rle_0_sqr (q1 - p1)) as S1; pose proof (Rle_0_sqr (q2 - p2)) as S2; unfold Rsqr in S1, S2; assert (E1 : ((q1 - p1) * (q1 - p1) = 0)%R) by lra; assert (E2 : ((q2 - p2) * (q2 - p2) = 0)%R) by lra; apply Rmult_integral in E1, E2; destruct D, E1, E2; lra|]. intros p q [<-|[<-|[]]] [<-|[<-|[]]]; cbn; ring.
Qed.
(** If the mesh is not convex, the mean may be outside: for the quadrilateral (0,0), (3,3), (0,1), (-3,3) the vector on the side from (3,3) to
    (0,1) points into the triangle of the first three vertices, which is inside *)
Definition chevron : list (list R) := [[0; 0]; [3; 3]; [0; 1]; [-3; 3]]%R.
Theorem C70_convex_refuted : exists values t,
  points 2 chevron [[0; 1]; [1; 2]; [2; 3]; [0; 3]] /\ gives_normals 2 chevron [[0; 1]; [1; 2]; [2; 3]; [0; 3]] rotated /\
  outer_normal 1 2 chevron [[0; 1]; [1; 2]; [2; 3]; [0; 3]] rotated ByMean = Ok values /\ nth 1 values [] = t /\ unit_along [2; -3]%R t /\
  forall e, (0 < e < 1 / 10)%R -> in_simplex 2 [[0; 0]; [3; 3]; [0; 1]]%R [3 / 2 + e * 2; 2 + e * -3]%R.
Proof.
  assert (P : points 2 chevron [[0; 1]; [1; 2]; [2; 3]; [0; 3]]).
  { split; [repeat constructor|]. intros cell [<-|[<-|[<-|[<-|[]]]]]; (split; [discriminate|]); intros v [<-|[<-|[]]]; cbn; lia. }
  assert (G : gives_normals 2 chevron [[0; 1]; [1; 2]; [2; 3]; [0; 3]] rotated).
  { intros cell [<-|[<-|[<-|[<-|[]]]]]; (eexists; split; [reflexivity|]); cbn [map nth chevron]; apply rotated_normal; lra. }
  destruct (run 1 2 chevron [[0; 1]; [1; 2]; [2; 3]; [0; 3]] rotated ByMean (fun x => rsub x (mean_point 2 chevron))) as [values [E [L V]]]; [lia|lia|reflexivity|exact G|].
  exists values, (nth 1 values []). split; [exact P|]. split; [exact G|]. split; [exact E|]. split; [reflexivity|]. split.
  - destruct (V 1) as [n [N ->]]; [cbn; lia|]. cbn [nth map chevron] in N |- *. apply (oriented_along 2 [[3; 3]; [0; 1]]%R); [apply C70_facets; lra| |exact N|].
    + split; [reflexivity|]. split; [cbn; lra|]. intros p q [<-|[<-|[]]] [<-|[<-|[]]]; cbn; lra.
    + cbn. lra.
  - intros e [H1 H2]. split; [reflexivity|]. exists [13 * e / 3; 1 / 2 + 2 * e / 3; 1 / 2 - 5 * e]%R. split; [reflexivity|]. split; [cbn; lra|]. split; [repeat constructor; lra|]. intros [|[|i]] Hi; cbn; [lra|lra|lia].
Qed.
(** On a flat mesh the mean is in the plane of the cells and the direction is the one of cell_normal: neighbours may have opposite
    normals *)
Theorem C70_flat_refuted : exists X values,
  points 2 X [[0; 2]; [1; 2]] /\ gives_normals 2 X [[0; 2]; [1; 2]] rotated /\ outer_normal 1 2 X [[0; 2]; [1; 2]] rotated ByMean = Ok values /\
  unit_along [0; 1]%R (nth 0 values []) /\ unit_along [0; -1]%R (nth 1 values []).
Proof.
  exists [[0; 0]; [2; 0]; [1; 0]]%R. set (X := [[0; 0]; [2; 0]; [1; 0]]%R).
  assert (G : gives_normals 2 X [[0; 2]; [1; 2]] rotated).
  { intros cell [<-|[<-|[]]]; (eexists; split; [reflexivity|]); cbn [map nth X]; apply rotated_normal; lra. }
  exists (map (fun cell => oriented (fun x => rsub x (mean_point 2 X)) (mean_point 2 (map (fun v => nth v X []) cell)) (match rotated (map (fun v => nth v X []) cell) with Ok n => n | _ => [] end)) [[0; 2]; [1; 2]]).
  split; [split; [repeat constructor|]; intros cell [<-|[<-|[]]]; (split; [discriminate|]); intros v [<-|[<-|[]]]; cbn; lia|]. split; [exact G|]. split; [reflexivity|]. cbn [map nth X rotated].
  split.
  - destruct (oriented_spec (fun x => rsub x (mean_point 2 [[0; 0]; [2; 0]; [1; 0]]%R)) (mean_point 2 [[0; 0]; [1; 0]]%R) [- (0 - 0); 1 - 0]%R) as [_ [_ [U _]]]; [cbn; lra|]. apply (unit_rescale 1); [lra|]. replace (rscale 1 [0; 1]%R) with [- (0 - 0); 1 - 0]%R by (unfold rscale; cbn [map]; apply (f_equal2 (@cons R)); [lra|apply (f_equal2 (@cons R)); [lra|reflexivity]]). apply U. cbn. lra.
  - destruct (oriented_spec (fun x => rsub x (mean_point 2 [[0; 0]; [2; 0]; [1; 0]]%R)) (mean_point 2 [[2; 0]; [1; 0]]%R) [- (0 - 0); 1 - 2]%R) as [_ [_ [U _]]]; [cbn; lra|]. apply (unit_rescale 1); [lra|]. replace (rscale 1 [0; -1]%R) with [- (0 - 0); 1 - 2]%R by (unfold rscale; cbn [map]; apply (f_equal2 (@cons R)); [lra|apply (f_equal2 (@cons R)); [lra|reflexivity]]). apply U. cbn. lra.
Qed.
(** The boundary of a square: hypotheses of [C70_convex] *)
Example C70_example : let X := [[0; 0]; [1; 0]; [1; 1]; [0; 1]]%R in let cells := [[0; 1]; [1; 2]; [2; 3]; [0; 3]] in
  points 2 X cells /\ gives_normals 2 X cells rotated /\ one_normal 2 [[1; 0]; [1; 1]]%R /\ supports 2 X [[1; 0]; [1; 1]]%R [1; 0]%R.
Proof.
  intros X cells. split; [|split; [|split]].
  - split; [repeat constructor|]. intros cell [<-|[<-|[<-|[<-|[]]]]]; (split; [discriminate|]); intros v [<-|[<-|[]]]; cbn; lia.
  - intros cell [<-|[<-|[<-|[<-|[]]]]]; (eexists; split; [reflexivity|]); cbn [map nth X]; apply rotated_normal; lra.
  - apply C70_facets. lra.
  - split; [|split].
    + split; [reflexivity|]. split; [cbn; lra|]. intros p q [<-|[<-|[]]] [<-|[<-|[]]]; cbn; lra.
    + intros p q [<-|[<-|[<-|[<-|[]]]]] [<-|[<-|[]]]; cbn; lra.
    + exists [0; 0]%R, [1; 0]%R. split; [left; reflexivity|]. split; [left; reflexivity|]. cbn. lra.
Qed.
(** One facet on each of the two sides *)
Example C70_square_ex : let X := [[0; 0]; [1; 0]; [0; 1]; [1; 1]]%R in
  points 2 X [[0; 1]; [2; 3]] /\ gives_normals 2 X [[0; 1]; [2; 3]] rotated /\
  forall cell, In cell [[0; 1]; [2; 3]] -> exists a b y, (y = 0 \/ y = 1)%R /\ a <> b /\ map (fun v => nth v X []) cell = [[a; y]; [b; y]].
Proof.
  split; [|split].
  - split; [repeat constructor|]. intros cell [<-|[<-|[]]]; (split; [discriminate|]); intros v [<-|[<-|[]]]; cbn; lia.
  - intros cell [<-|[<-|[]]]; (eexists; split; [reflexivity|]); cbn [map nth]; apply rotated_normal; lra.
  - intros cell [<-|[<-|[]]]; [exists 0%R, 1%R, 0%R|exists 0%R, 1%R, 1%R]; (split; [auto|split; [lra|reflexivity]]).
Qed.
Print Assumptions C70_function.
Print Assumptions C70_point.
Print Assumptions C70_convex.
Print Assumptions C70_inner.
Print Assumptions C70_refused.
Print Assumptions C70_facets.
Print Assumptions C70_convex_refuted.
Print Assumptions C70_flat_refuted.
