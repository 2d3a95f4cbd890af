(** C105: random curves of edges (apps/enumath/meshing.py, apps/d123/meshing.py) *)
From Coq Require Import Reals Lra.
From Verif Require Import Base BaseProofs CurveModel ShapeModel CurveProofs.
Local Open Scope nat_scope.

(** From a vertex on the surface: the curve has one vertex on the surface, the one that is returned, and is in one piece *)
Theorem C105_curve_partial : forall on_surface sp edges npoints start choices f first, simple edges -> (forall s t l, sp s t = Ok l -> is_path edges s t l) ->
  on_surface start = true -> 0 < npoints -> fun_3d on_surface sp edges npoints start choices = Ok (f, first) ->
  exists p, first = Some p /\ on_surface p = true /\ curve_vertex edges f p /\ (forall v, curve_vertex edges f v -> on_surface v = true -> v = p) /\
    forall v w, curve_vertex edges f v -> curve_vertex edges f w -> linked (on_curve edges f) v w.
Proof.
  intros on_surface sp edges npoints start choices f first SE SP S0 NP H. unfold fun_3d in H. destruct npoints as [| npoints]; [lia |].
  destruct choices as [| x choices]; [discriminate |]. cbn [length loop] in H.
  destruct (pick on_surface start (x :: choices)) as [[stop rest] | e] eqn:P; [cbn [bind] in H | discriminate]. destruct (sp start stop) as [path | e] eqn:E; [cbn [bind] in H | discriminate].
  destruct (pick_spec _ _ _ _ _ P) as [_ [NS _]]. pose proof (walk_back_spec on_surface (rev path)) as B. destruct (walk_back on_surface (rev path)) as [c q] eqn:WB. destruct q as [p |].
  - destruct (first_good on_surface sp edges SE SP start stop path c p NS E WB) as [h [Eh [G L]]]. rewrite Eh in H. cbn [bind] in H.
    destruct (loop_good on_surface sp edges SE SP _ _ _ _ _ _ _ _ G L H) as [-> (_ & SPp & CP & U & C)]. exists p. split; [reflexivity |]. split; [exact SPp |]. split; [exact CP |]. split; [exact U |].
    intros v w Hv Hw. apply linked_trans with p; [apply linked_sym; [intros; apply on_curve_sym; assumption | apply C; exact Hv] | apply C; exact Hw].
  - exfalso. destruct B as [_ [_ N]]. destruct (SP _ _ _ E) as [HS _]. destruct path as [| s path]; [discriminate |]. cbn in HS. injection HS as ->. rewrite N in S0; [discriminate |]. rewrite <- in_rev. left. reflexivity.
Qed.
Print Assumptions C105_curve_partial.

(** If (-1, -1, -1) is a vertex, the start is there and on the surface *)
Theorem C105_start : forall tol X v, (0 <= tol)%R -> nth_error X v = Some (V3 (-1) (-1) (-1)) -> exists i, start_vertex X = Ok i /\ nth_error X i = Some (V3 (-1) (-1) (-1)) /\ surface tol (V3 (-1) (-1) (-1)) = true.
Proof.
  intros tol X v T H. assert (Z : to_corner (V3 (-1) (-1) (-1)) = 0%R) by (unfold to_corner; cbn [vx vy vz]; ring).
  assert (NN : forall x, (0 <= to_corner x)%R) by (intros x; unfold to_corner; repeat apply Rplus_le_le_0_compat; apply pow2_ge_0).
  assert (EQ : forall x, (to_corner x <= 0)%R -> x = V3 (-1) (-1) (-1)).
  { intros [a b c] Hx. unfold to_corner in Hx. cbn [vx vy vz] in Hx. pose proof (pow2_ge_0 (a - -1)). pose proof (pow2_ge_0 (b - -1)). pose proof (pow2_ge_0 (c - -1)).
    assert (D : forall y, ((y - -1) ^ 2 <= 0)%R -> y = (-1)%R) by (intros y Hy; pose proof (pow2_ge_0 (y - -1)); assert (K : ((y - -1) * (y - -1) = 0)%R) by (replace ((y - -1) * (y - -1))%R with ((y - -1) ^ 2)%R by ring; apply Rle_antisym; assumption); apply Rmult_integral in K; lra).
    f_equal; apply D; lra. }
  assert (SU : surface tol (V3 (-1) (-1) (-1)) = true).
  { unfold surface. cbn [vx vy vz]. replace (Rabs (-1)) with 1%R by (rewrite Rabs_left; lra). repeat rewrite (Rmax_left 1 1) by lra. rewrite Rminus_diag_eq, Rabs_R0 by reflexivity. destruct (Rle_dec 0 tol); [reflexivity | contradiction]. }
  destruct X as [| x X]; [destruct v; discriminate |]. unfold start_vertex. assert (I : In (V3 (-1) (-1) (-1)) (x :: X)) by (eapply nth_error_In; exact H).
  destruct (argmin_spec X 1 0 (to_corner x)) as [M | (i & y & A & N & D & M)].
  - rewrite argmin_keep by exact M. exists 0. split; [reflexivity |]. split; [| exact SU]. cbn [nth_error]. f_equal. apply EQ. destruct I as [-> | I]; [rewrite Z; lra | apply M in I; rewrite Z in I; exact I].
  - rewrite A. exists (S i). split; [reflexivity |]. split; [| exact SU]. cbn [nth_error]. rewrite N. f_equal. apply EQ. destruct I as [-> | I]; [specialize (NN y); rewrite Z in D; lra | apply M in I; rewrite Z in I; exact I].
Qed.
Print Assumptions C105_start.

(** In the cube, on the surface are the points with a coordinate that is -1 or 1 up to the tolerance *)
Theorem C105_surface : forall tol x, (Rabs (vx x) <= 1 -> Rabs (vy x) <= 1 -> Rabs (vz x) <= 1 ->
  (surface tol x = true <-> 1 - tol <= Rabs (vx x) \/ 1 - tol <= Rabs (vy x) \/ 1 - tol <= Rabs (vz x)))%R.
Proof.
  intros tol [a b c] A B C. cbn [vx vy vz] in *. unfold surface. cbn [vx vy vz].
  set (m := Rmax (Rmax (Rabs a) (Rabs b)) (Rabs c)). assert (M : (m <= 1)%R) by (unfold m; repeat apply Rmax_lub; assumption).
  rewrite (Rabs_left1 (m - 1)) by lra. destruct (Rle_dec (- (m - 1)) tol) as [L | L].
  - split; [intros _ | reflexivity]. unfold m, Rmax in L. destruct (Rle_dec (Rabs a) (Rabs b)); destruct (Rle_dec _ (Rabs c)); lra.
  - split; [discriminate |]. intros H. exfalso. apply L. pose proof (Rmax_l (Rmax (Rabs a) (Rabs b)) (Rabs c)). pose proof (Rmax_r (Rmax (Rabs a) (Rabs b)) (Rabs c)).
    pose proof (Rmax_l (Rabs a) (Rabs b)). pose proof (Rmax_r (Rabs a) (Rabs b)). unfold m. lra.
Qed.
Print Assumptions C105_surface.
(** (1, 0, 0) is, (0, 0, 0) is not *)
Example C105_surface_ex : surface (1 / 10) (V3 1 0 0) = true /\ surface (1 / 10) (V3 0 0 0) <> true.
Proof.
  split; [apply C105_surface | intros H; apply C105_surface in H]; cbn [vx vy vz] in *; rewrite ?Rabs_R0, ?Rabs_R1 in *; lra.
Qed.

(** Exceptions are those of the shortest path *)
Theorem C105_errors : forall on_surface sp edges npoints start choices e, simple edges -> (forall s t l, sp s t = Ok l -> is_path edges s t l) ->
  fun_3d on_surface sp edges npoints start choices = Err e -> e = OutOfFuel \/ exists s t, sp s t = Err e.
Proof. intros on_surface sp edges npoints start choices e SE SP H. eapply loop_errors; [exact SE | exact SP | apply repeat_length | exact H]. Qed.
Print Assumptions C105_errors.

(** The union of paths: an edge is on the curve exactly if it is on one of the paths, so the ends of a path are joined *)
Theorem C105_union : forall sp edges samples f, simple edges -> (forall s t l, sp s t = Ok l -> is_path edges s t l) -> fun_2d sp edges samples = Ok f ->
  (forall a b, on_curve edges f a b <-> exists s t l, In (s, t) samples /\ s <> t /\ sp s t = Ok l /\ (next l a b \/ next l b a)) /\
  forall s t, In (s, t) samples -> linked (on_curve edges f) s t.
Proof.
  intros sp edges samples f SE SP H. destruct (fun_loop_spec sp edges SE SP samples _ f (repeat_length _ _) H) as [_ F].
  assert (G : forall a b, on_curve edges f a b <-> exists s t l, In (s, t) samples /\ s <> t /\ sp s t = Ok l /\ (next l a b \/ next l b a)).
  { intros a b. rewrite F. split; [intros [X | X]; [destruct (no_marks _ _ _ _ (zeros (length edges)) X) | exact X] | auto]. }
  split; [exact G |]. intros s t I. destruct (Nat.eq_dec s t) as [-> | N]; [constructor |].
  assert (K : exists l, sp s t = Ok l).
  { unfold fun_2d in H. revert H I. generalize (repeat 0 (length edges)) as g. clear - N. induction samples as [| [a b] samples IH]; intros g H I; [destruct I |]. cbn [fun_loop] in H. destruct (Nat.eqb_spec a b) as [-> | D].
    - destruct I as [Y | I]; [injection Y as -> ->; contradiction | eapply IH; eassumption].
    - destruct (sp a b) as [l | e] eqn:E; [cbn [bind] in H | discriminate]. destruct (mark_path edges l g) as [h | e]; [cbn [bind] in H | discriminate].
      destruct I as [Y | I]; [injection Y as -> ->; exists l; exact E | eapply IH; eassumption]. }
  destruct K as [l E]. destruct (SP _ _ _ E) as [HS [HT HN]]. destruct l as [| u l]; [discriminate |]. cbn in HS. injection HS as ->.
  apply (in_linked _ _ l); [intros a b X; apply G; exists s, t, (s :: l); auto |]. apply in_rev. destruct (rev (s :: l)) as [| w r]; [discriminate |]. cbn in HT. injection HT as ->. left. reflexivity.
Qed.
Print Assumptions C105_union.

(** A path from 0 to 3 through 1 and 2, of which 1 is on the surface, and an edge from 0 to 4 *)
Definition tree : list (nat * nat) := [(0, 1); (1, 2); (3, 2); (0, 4)].
Definition tree_path (s t : nat) : res (list nat) :=
  match s, t with
  | 0, 4 => Ok [0; 4] | 4, 3 => Ok [4; 0; 1; 2; 3] | 1, 3 => Ok [1; 2; 3] | 1, 4 => Ok [1; 0; 4] | 3, 2 => Ok [3; 2]
  | _, _ => Err ValueError
  end.
Example C105_tree : simple tree /\ forall s t l, tree_path s t = Ok l -> is_path tree s t l.
Proof.
  split; [split |].
  - intros e [<- | [<- | [<- | [<- | []]]]]; cbn; lia.
  - intros i j e g a b Hi Hj Be Bg. destruct i as [| [| [| [| i]]]], j as [| [| [| [| j]]]]; cbn in Hi, Hj; try reflexivity; try (destruct i; discriminate); try (destruct j; discriminate);
      injection Hi as <-; injection Hj as <-; destruct Be as [X | X], Bg as [Y | Y]; congruence.
  - assert (A : forall e, In e tree -> forall a b, between e a b -> adjacent tree a b) by (intros e I a b B; exists e; auto).
    intros s t l H. unfold tree_path in H. destruct s as [| [| [| [| [| s]]]]]; try discriminate; destruct t as [| [| [| [| [| t]]]]]; try discriminate; injection H as <-; (split; [reflexivity |]; split; [reflexivity |]);
      intros a b N; repeat (inversion N as [? ? ? | ? ? ? ? N']; subst; clear N; [| rename N' into N; try (destruct (next_nil _ _ N)); try (destruct (next_one _ _ _ N))]);
      first [ apply (A (0, 1)); [cbn; tauto | (left; reflexivity) || (right; reflexivity)] | apply (A (1, 2)); [cbn; tauto | (left; reflexivity) || (right; reflexivity)]
            | apply (A (3, 2)); [cbn; tauto | (left; reflexivity) || (right; reflexivity)] | apply (A (0, 4)); [cbn; tauto | (left; reflexivity) || (right; reflexivity)] ].
Qed.
(** Started from 1 it is as claimed *)
Example C105_ex : let on_surface := fun v => v =? 1 in on_surface 1 = true /\ fun_3d on_surface tree_path tree 2 1 [1; 3; 2] = Ok ([0; 1; 1; 0], Some 1).
Proof. split; reflexivity. Qed.
(** Without a start on the surface the curve may have two pieces *)
Theorem C105_start_refuted : exists on_surface sp edges npoints start choices f first, simple edges /\ (forall s t l, sp s t = Ok l -> is_path edges s t l) /\ 0 < npoints /\
  fun_3d on_surface sp edges npoints start choices = Ok (f, first) /\ exists v w, curve_vertex edges f v /\ curve_vertex edges f w /\ ~ linked (on_curve edges f) v w.
Proof.
  exists (fun v => v =? 1), tree_path, tree, 2, 0, [4; 3]. eexists. eexists. split; [apply C105_tree |]. split; [apply C105_tree |]. split; [lia |]. split; [reflexivity |].
  exists 0, 1. split; [exists 4, 3, (0, 4); split; [reflexivity |]; split; [reflexivity | left; reflexivity] |]. split; [exists 2, 1, (1, 2); split; [reflexivity |]; split; [reflexivity | left; reflexivity] |].
  assert (K : forall a b, linked (on_curve tree [0; 1; 1; 1]) a b -> a = 0 \/ a = 4 -> b = 0 \/ b = 4).
  { intros a b L. induction L as [a | a b c _ IH (i & e & F & N & B)]; intros Ha; [exact Ha |]. specialize (IH Ha). destruct i as [| [| [| [| i]]]]; cbn in F, N; [discriminate | | | | destruct i; discriminate]; injection N as <-; destruct B as [X | X]; injection X as E1 E2; lia. }
  intros L. destruct (K _ _ L (or_introl eq_refl)) as [X | X]; discriminate.
Qed.
Print Assumptions C105_start_refuted.
(** ... or no vertex on the surface, and then there is no first vertex to return *)
Theorem C105_none_refuted : exists on_surface sp edges npoints start choices f, simple edges /\ (forall s t l, sp s t = Ok l -> is_path edges s t l) /\ 0 < npoints /\
  fun_3d on_surface sp edges npoints start choices = Ok (f, None) /\ exists v, curve_vertex edges f v.
Proof.
  exists (fun v => v =? 1), tree_path, tree, 1, 0, [4]. eexists. split; [apply C105_tree |]. split; [apply C105_tree |]. split; [lia |]. split; [reflexivity |].
  exists 0, 4, 3, (0, 4). split; [reflexivity |]. split; [reflexivity | left; reflexivity].
Qed.
Print Assumptions C105_none_refuted.
