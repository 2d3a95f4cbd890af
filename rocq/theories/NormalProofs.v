(** Normals of manifold meshes: specification and lemmas (property C70) *)
From Coq Require Import Reals Lra.
From Verif Require Export NormalModel.
From Verif Require Import BaseProofs ConvertProofs TangentProofs.
Local Close Scope R_scope.
Local Open Scope nat_scope.

(** ** Specification *)
Fixpoint inner (x y : list R) : R := match x, y with a :: x', b :: y' => a * b + inner x' y' | _, _ => 0 end%R.
Definition difference (x y : list R) : list R := map (fun i => (nth i x 0 - nth i y 0)%R) (seq 0 (length x)).
(** Points of the mesh have the dimension, cells have vertices of the mesh *)
Definition points (gdim : nat) (X : list (list R)) (cells : list (list nat)) : Prop :=
  Forall (fun p => length p = gdim) X /\ forall cell, In cell cells -> cell <> [] /\ forall v, In v cell -> v < length X.
(** [n] is a normal of the cell with vertices [ps] *)
Definition normal_to (gdim : nat) (ps : list (list R)) (n : list R) : Prop :=
  length n = gdim /\ inner n n <> 0%R /\ forall p q, In p ps -> In q ps -> inner n (difference p q) = 0%R.
(** Cells have one normal direction (they are facets) *)
Definition one_normal (gdim : nat) (ps : list (list R)) : Prop :=
  forall m n, normal_to gdim ps m -> normal_to gdim ps n -> exists a, forall i, nth i n 0%R = (a * nth i m 0)%R.
(** The cell normal that dolfin gives is one *)
Definition gives_normals (gdim : nat) (X : list (list R)) (cells : list (list nat)) (cell_normal : list (list R) -> res (list R)) : Prop :=
  forall cell, In cell cells -> exists n, cell_normal (map (fun v => nth v X []) cell) = Ok n /\ normal_to gdim (map (fun v => nth v X []) cell) n.
(** Unit vector in the direction of [m] *)
Definition unit_along (m t : list R) : Prop := length t = length m /\ inner t t = 1%R /\ exists s, (0 < s)%R /\ forall i, nth i m 0%R = (s * nth i t 0)%R.
(** [m] is a normal of the cell, all points are behind the cell and one of them is not in its plane *)
Definition supports (gdim : nat) (X : list (list R)) (ps : list (list R)) (m : list R) : Prop :=
  normal_to gdim ps m /\ (forall p q, In p X -> In q ps -> (inner m (difference p q) <= 0)%R) /\ exists p q, In p X /\ In q ps /\ (inner m (difference p q) < 0)%R.

(** ** Lemmas *)
Lemma inner_rdot x : forall y, inner x y = rdot x y.
Proof. induction x as [|a x IH]; intros [|b y]; cbn; try rewrite IH; reflexivity. Qed.
Lemma difference_rsub x : forall y, length x = length y -> difference x y = rsub x y.
Proof.
  intros y L. apply (nth_ext _ _ 0%R 0%R); [unfold difference; rewrite map_length, seq_length, rsub_length by exact L; reflexivity|]. intros i Hi. unfold difference in *. rewrite map_length, seq_length in Hi. rewrite (nth_map_seq _ _ _ _ Hi), rsub_nth by exact L. reflexivity.
Qed.
Lemma rscale_length a x : length (rscale a x) = length x.
Proof. apply map_length. Qed.
Lemma rdot_scale_l a x : forall y, rdot (rscale a x) y = (a * rdot x y)%R.
Proof. induction x as [|b x IH]; intros [|c y]; cbn; try lra. fold (rscale a x). rewrite IH. ring. Qed.
Lemma rdot_scale_r a x : forall y, rdot x (rscale a y) = (a * rdot x y)%R.
Proof. induction x as [|b x IH]; intros [|c y]; cbn; try lra. fold (rscale a y). rewrite IH. ring. Qed.
Lemma rdot_sub_r x : forall y z, length y = length z -> rdot x (rsub y z) = (rdot x y - rdot x z)%R.
Proof. induction x as [|a x IH]; intros [|b y] [|c z] L; try discriminate; cbn; try lra. rewrite IH by (cbn in L; lia). ring. Qed.
Lemma rdot_sym x : forall y, rdot x y = rdot y x.
Proof. induction x as [|a x IH]; intros [|b y]; cbn; try rewrite IH; ring. Qed.
Lemma rdot_seq x : forall f a, rdot x (map f (seq a (length x))) = fold_right Rplus 0%R (map (fun i => (nth i x 0 * f (a + i)%nat)%R) (seq 0 (length x))).
Proof.
  induction x as [|b x IH]; intros f a; [reflexivity|]. cbn [length seq map rdot fold_right nth]. rewrite IH, Nat.add_0_r. f_equal. rewrite <- (seq_shift (length x) 0), map_map. f_equal. apply map_ext. intros i. cbn [nth]. do 2 f_equal. lia.
Qed.
(** The inner product with the mean is the mean of the inner products *)
Lemma lsum_scale a l : lsum (map (Rmult a) l) = (a * lsum l)%R.
Proof. induction l as [|x l IH]; cbn; [lra|]. unfold lsum in *. cbn in IH. rewrite IH. ring. Qed.
Lemma rdot_sum m gdim ps : length m = gdim -> Forall (fun p => length p = gdim) ps -> rdot m (map (fun i => lsum (map (fun p => nth i p 0%R) ps)) (seq 0 gdim)) = lsum (map (rdot m) ps).
Proof.
  intros Lm F. induction F as [|p ps L F IH].
  - cbn [map lsum fold_right]. subst gdim. clear. rewrite rdot_seq. induction (seq 0 (length m)) as [|i l IH]; cbn; [reflexivity|]. cbn in IH. rewrite IH. lra.
  - cbn [map]. change (lsum (rdot m p :: map (rdot m) ps)) with (rdot m p + lsum (map (rdot m) ps))%R. rewrite <- IH. clear IH. subst gdim. revert p L. clear F.
    assert (G : forall x a (f g : nat -> R), rdot x (map (fun i => (f i + g i)%R) (seq a (length x))) = (rdot x (map f (seq a (length x))) + rdot x (map g (seq a (length x))))%R).
    { induction x as [|b x IHx]; intros a f g; cbn; [lra|]. rewrite IHx. ring. }
    intros p L. change (fun i => lsum (nth i p 0%R :: map (fun p0 => nth i p0 0%R) ps)) with (fun i => (nth i p 0 + lsum (map (fun p0 => nth i p0 0) ps))%R). rewrite (G m 0). f_equal. f_equal. rewrite <- L. clear. induction p as [|a p IH]; [reflexivity|]. cbn [length seq map nth]. f_equal. rewrite <- seq_shift, map_map. exact IH.
Qed.
Lemma mean_length gdim ps : length (mean_point gdim ps) = gdim.
Proof. unfold mean_point. rewrite map_length, seq_length. reflexivity. Qed.
Lemma rdot_mean m gdim ps : length m = gdim -> Forall (fun p => length p = gdim) ps -> rdot m (mean_point gdim ps) = (lsum (map (rdot m) ps) / INR (length ps))%R.
Proof.
  intros Lm F. rewrite <- (rdot_sum m gdim ps Lm F). unfold mean_point. rewrite (map_ext (fun i => (lsum (map (fun p => nth i p 0) ps) / INR (length ps))%R) (fun i => (/ INR (length ps) * lsum (map (fun p => nth i p 0) ps))%R)) by (intros; unfold Rdiv; ring). rewrite <- (map_map (fun i => lsum (map (fun p => nth i p 0%R) ps)) (Rmult (/ INR (length ps)))). fold (rscale (/ INR (length ps)) (map (fun i => lsum (map (fun p => nth i p 0%R) ps)) (seq 0 gdim))). rewrite rdot_scale_r. unfold Rdiv. ring.
Qed.
Lemma lsum_const (l : list R) c : (forall x, In x l -> x = c) -> lsum l = (INR (length l) * c)%R.
Proof. induction l as [|a l IH]; intros H; [cbn; lra|]. change (lsum (a :: l)) with (a + lsum l)%R. rewrite IH by (intros x X; apply H; right; exact X). rewrite (H a) by (left; reflexivity). cbn [length]. rewrite S_INR. ring. Qed.
Lemma lsum_le (l : list R) c : (forall x, In x l -> (x <= c)%R) -> (lsum l <= INR (length l) * c)%R.
Proof. induction l as [|a l IH]; intros H; [cbn; lra|]. change (lsum (a :: l)) with (a + lsum l)%R. specialize (IH (fun x X => H x (or_intror X))). specialize (H a (or_introl eq_refl)). cbn [length]. rewrite S_INR. lra. Qed.
Lemma lsum_lt (l : list R) c : (forall x, In x l -> (x <= c)%R) -> (exists x, In x l /\ (x < c)%R) -> (lsum l < INR (length l) * c)%R.
Proof.
  induction l as [|a l IH]; intros H [x [X L]]; [destruct X|]. change (lsum (a :: l)) with (a + lsum l)%R. cbn [length]. rewrite S_INR. destruct X as [<-|X].
  - pose proof (lsum_le l c (fun x X => H x (or_intror X))). lra.
  - specialize (IH (fun x X => H x (or_intror X)) (ex_intro _ x (conj X L))). specialize (H a (or_introl eq_refl)). lra.
Qed.
Lemma rnorm_nonzero m : rdot m m <> 0%R -> (0 < rnorm m)%R.
Proof. intros H. unfold rnorm. apply sqrt_lt_R0. pose proof (rdot_pos m). lra. Qed.
Lemma normalise m : rdot m m <> 0%R -> unit_along m (rscale (/ rnorm m)%R m).
Proof.
  intros N. pose proof (rnorm_nonzero m N) as P. split; [apply rscale_length|]. split.
  - rewrite inner_rdot, rdot_scale_l, rdot_scale_r. unfold rnorm in *. assert (Q : (sqrt (rdot m m) * sqrt (rdot m m) = rdot m m)%R) by (apply sqrt_def, rdot_pos). rewrite <- Q at 3. field. lra.
  - exists (rnorm m). split; [exact P|]. intros i. rewrite rscale_nth. field. lra.
Qed.
Lemma neg_nonzero m : rdot m m <> 0%R -> rdot (rscale (-1) m) (rscale (-1) m) <> 0%R.
Proof. intros N. rewrite rdot_scale_l, rdot_scale_r. lra. Qed.
(** What is computed for a cell *)
Lemma oriented_spec f x n : rdot n n <> 0%R -> inner (oriented f x n) (oriented f x n) = 1%R /\ (0 <= inner (f x) (oriented f x n))%R /\ ((0 <= inner (f x) n)%R -> unit_along n (oriented f x n)) /\ ((inner (f x) n < 0)%R -> unit_along (rscale (-1) n) (oriented f x n)).
Proof.
  intros N. unfold oriented. destruct (Rlt_dec (rdot (f x) n) 0) as [H|H]; rewrite !inner_rdot.
  - pose proof (neg_nonzero n N) as N'. pose proof (normalise _ N') as U. split; [rewrite <- inner_rdot; apply U|]. split.
    + rewrite rdot_scale_r, rdot_scale_r. pose proof (Rinv_0_lt_compat _ (rnorm_nonzero _ N')). nra.
    + split; [intros Q; rewrite ?inner_rdot in Q; exfalso; lra|]. intros _. exact U.
  - pose proof (normalise _ N) as U. split; [rewrite <- inner_rdot; apply U|]. split.
    + rewrite rdot_scale_r. pose proof (Rinv_0_lt_compat _ (rnorm_nonzero _ N)). nra.
    + split; [|intros Q; rewrite ?inner_rdot in Q; exfalso; lra]. intros _. exact U.
Qed.
Lemma unit_unique m t t' : unit_along m t -> unit_along m t' -> t = t'.
Proof.
  intros [L [Q [s [P E]]]] [L' [Q' [s' [P' E']]]]. apply (squares_scale_unique s s'); try assumption; [congruence|rewrite squares_rdot, <- inner_rdot; exact Q|rewrite squares_rdot, <- inner_rdot; exact Q'|]. intros i. rewrite <- E, <- E'. reflexivity.
Qed.
Lemma unit_rescale a m t : (0 < a)%R -> unit_along (rscale a m) t -> unit_along m t.
Proof.
  intros P [L [Q [s [S E]]]]. split; [rewrite L; apply rscale_length|]. split; [exact Q|]. exists (s / a)%R. split; [apply Rdiv_lt_0_compat; assumption|]. intros i. specialize (E i). rewrite rscale_nth in E. apply (Rmult_eq_reg_l a); [|lra]. rewrite E. field. lra.
Qed.
Lemma scale_ext m n a : length m = length n -> (forall i, nth i n 0%R = (a * nth i m 0)%R) -> n = rscale a m.
Proof. intros L E. apply (nth_ext _ _ 0%R 0%R); [rewrite rscale_length; congruence|]. intros i _. rewrite rscale_nth. apply E. Qed.
(** If the direction at the midpoint agrees with [m], the unit vector of [m] is computed *)
Lemma oriented_along gdim ps f x m n : one_normal gdim ps -> normal_to gdim ps m -> normal_to gdim ps n -> (0 < inner (f x) m)%R -> unit_along m (oriented f x n).
Proof.
  intros O M N H. destruct (O m n M N) as [a E]. destruct M as [Lm [Zm _]]. destruct N as [Ln [Zn _]]. rewrite inner_rdot in *. assert (En : n = rscale a m) by (apply scale_ext; [congruence|exact E]). assert (Za : a <> 0%R) by (intros ->; apply Zn; rewrite En, rdot_scale_l; ring).
  destruct (oriented_spec f x n Zn) as [_ [_ [U1 U2]]]. rewrite inner_rdot, En, rdot_scale_r in U1, U2. destruct (Rtotal_order a 0) as [A|[A|A]]; [|congruence|].
  - rewrite <- En in U2 at 1. apply (unit_rescale (- a)); [lra|]. replace (rscale (- a) m) with (rscale (-1) n); [rewrite En; rewrite En in U2; apply U2; nra|]. rewrite En. apply (nth_ext _ _ 0%R 0%R); [rewrite !rscale_length; reflexivity|]. intros i _. rewrite !rscale_nth. ring.
  - apply (unit_rescale a); [exact A|]. rewrite En. apply U1. nra.
Qed.
(** The midpoint of a cell is in its plane *)
Lemma midpoint_plane gdim ps m q : ps <> [] -> Forall (fun p => length p = gdim) ps -> normal_to gdim ps m -> In q ps -> rdot m (mean_point gdim ps) = rdot m q.
Proof.
  intros Ne F [Lm [_ O]] Hq. rewrite rdot_mean by assumption. rewrite (lsum_const _ (rdot m q)).
  - rewrite map_length. field. apply not_0_INR. destruct ps; [congruence|discriminate].
  - intros x X. apply in_map_iff in X. destruct X as [p [<- P]]. rewrite Forall_forall in F. specialize (O p q P Hq). rewrite inner_rdot, difference_rsub, rdot_sub_r in O by (rewrite !F by assumption; reflexivity). lra.
Qed.
