(** Specification vocabulary and proofs for GeomModel.v. *)
From Verif Require Import GeomModel BaseProofs.
From Coq Require Import Psatz.
Local Open Scope R_scope.

(** ** Specification *)
Fixpoint total (w : list R) : R := match w with [] => 0 | a :: w' => a + total w' end.
(** i-th coordinate of the combination of points with weights [w] *)
Fixpoint weighted (w : list R) (ps : list (list R)) (i : nat) : R := match w, ps with a :: w', p :: ps' => a * nth i p 0 + weighted w' ps' i | _, _ => 0 end.
Definition is_cell (n gdim : nat) (cell : list (list R)) : Prop := length cell = n /\ Forall (fun p => length p = gdim) cell.
(** No dependent vertices: the only combination with weights of sum zero that is zero is the trivial one *)
Definition nondegenerate (gdim : nat) (cell : list (list R)) : Prop :=
  forall w, length w = length cell -> total w = 0 -> (forall i, (i < gdim)%nat -> weighted w cell i = 0) -> Forall (fun a => a = 0) w.
Definition in_hull (gdim : nat) (cell : list (list R)) (x : list R) : Prop :=
  length x = gdim /\ exists w, length w = length cell /\ total w = 1 /\ forall i, (i < gdim)%nat -> nth i x 0 = weighted w cell i.
Definition in_simplex (gdim : nat) (cell : list (list R)) (x : list R) : Prop :=
  length x = gdim /\ exists w, length w = length cell /\ total w = 1 /\ Forall (fun a => 0 <= a) w /\ forall i, (i < gdim)%nat -> nth i x 0 = weighted w cell i.
Fixpoint sq_dist (p q : list R) : R := match p, q with a :: p', b :: q' => (a - b) ^ 2 + sq_dist p' q' | _, _ => 0 end.
Definition dist (p q : list R) : R := sqrt (sq_dist p q).
Definition square (n : nat) (M : list (list R)) : Prop := length M = n /\ Forall (fun r => length r = n) M.
Fixpoint row_times (r x : list R) : R := match r, x with a :: r', b :: x' => a * b + row_times r' x' | _, _ => 0 end.
(** Solvers in exact arithmetic, for the sizes that occur *)
Definition solves_regular (lu : list (list R) -> list R -> list R) : Prop :=
  forall n M b, (n = 2 \/ n = 3)%nat -> square n M -> length b = n -> det n M <> 0 -> length (lu M b) = n /\ map (fun r => row_times r (lu M b)) M = b.
Definition solves_exactly (solve : list (list R) -> list R -> res (list R)) : Prop :=
  forall n M b, (n = 2 \/ n = 3)%nat -> square n M -> length b = n ->
    (det n M = 0 -> solve M b = Err LinAlgError) /\ (det n M <> 0 -> exists x, solve M b = Ok x /\ length x = n /\ map (fun r => row_times r x) M = b).

(** ** Determinants *)
Lemma det2 a b c d : det 2 [[a; b]; [c; d]] = a * d - b * c.
Proof. cbn. ring. Qed.
Lemma det3 a b c d e f g h i : det 3 [[a; b; c]; [d; e; f]; [g; h; i]] = a * (e * i - f * h) - b * (d * i - f * g) + c * (d * h - e * g).
Proof. cbn. ring. Qed.

(** Cramer's rule, as a solver *)
Definition cramer (M : list (list R)) (b : list R) : list R :=
  match M, b with
  | [[a11; a12]; [a21; a22]], [b1; b2] => let d := a11 * a22 - a12 * a21 in [(b1 * a22 - a12 * b2) / d; (a11 * b2 - b1 * a21) / d]
  | [[a; b0; c]; [d; e; f]; [g; h; i]], [x; y; z] =>
      let D := a * (e * i - f * h) - b0 * (d * i - f * g) + c * (d * h - e * g) in
      [(x * (e * i - f * h) - b0 * (y * i - f * z) + c * (y * h - e * z)) / D;
       (a * (y * i - f * z) - x * (d * i - f * g) + c * (d * z - y * g)) / D;
       (a * (e * z - y * h) - b0 * (d * z - y * g) + x * (d * h - e * g)) / D]
  | _, _ => []
  end.
Ltac explode := repeat match goal with
  | H : square _ ?M |- _ => destruct H
  | H : Forall _ (_ :: _) |- _ => apply Forall_cons_iff in H; destruct H
  | H : length ?l = S _ |- _ => is_var l; let a := fresh "e" in let l' := fresh "l" in destruct l as [|a l']; [discriminate H|cbn [length] in H; apply eq_add_S in H]
  | H : length ?l = 0%nat |- _ => is_var l; apply length_zero_iff_nil in H; subst l
  end.
Lemma cramer_regular : solves_regular cramer.
Proof.
  intros n M b [-> | ->] H L D; explode.
  - rewrite det2 in D. cbn. split; [reflexivity|]. f_equal; [|f_equal]; field; exact D.
  - rewrite det3 in D. cbn. split; [reflexivity|]. f_equal; [|f_equal; [|f_equal]]; field; exact D.
Qed.
Definition cramer_solve (M : list (list R)) (b : list R) : res (list R) := if Req_EM_T (det (length M) M) 0 then Err LinAlgError else Ok (cramer M b).
Lemma cramer_exact : solves_exactly cramer_solve.
Proof.
  intros n M b N H L. pose proof H as [LM _]. unfold cramer_solve. rewrite LM. split; intros D; destruct (Req_EM_T (det n M) 0); try contradiction; [reflexivity|]. destruct (cramer_regular n M b N H L D) as [A B]. exists (cramer M b). auto.
Qed.

(** ** Circumcenters *)
Lemma sq_zero_sum a b : a * a + b * b = 0 -> a = 0 /\ b = 0.
Proof. intros H. assert (0 <= a * a) by apply Rle_0_sqr. assert (0 <= b * b) by apply Rle_0_sqr. split; apply Rsqr_0_uniq; unfold Rsqr; lra. Qed.
Lemma sq_zero_sum3 a b c : a * a + b * b + c * c = 0 -> a = 0 /\ b = 0 /\ c = 0.
Proof. intros H. assert (0 <= a * a) by apply Rle_0_sqr. assert (0 <= b * b) by apply Rle_0_sqr. assert (0 <= c * c) by apply Rle_0_sqr. repeat split; apply Rsqr_0_uniq; unfold Rsqr; lra. Qed.

Lemma Forall3 (P : R -> Prop) a b c : Forall P [a; b; c] -> P a /\ P b /\ P c.
Proof. intros H. explode. auto. Qed.
Lemma Forall4 (P : R -> Prop) a b c d : Forall P [a; b; c; d] -> P a /\ P b /\ P c /\ P d.
Proof. intros H. explode. auto. Qed.

Lemma nondeg_2_2 ax ay bx by_ cx cy : nondegenerate 2 [[ax; ay]; [bx; by_]; [cx; cy]] -> (bx - ax) * (cy - ay) - (by_ - ay) * (cx - ax) <> 0.
Proof.
  intros N D. set (ux := bx - ax) in *. set (uy := by_ - ay) in *. set (vx := cx - ax) in *. set (vy := cy - ay) in *.
  assert (W : forall p q, p * ux + q * vx = 0 -> p * uy + q * vy = 0 -> p = 0 /\ q = 0).
  { intros p q H1 H2. specialize (N [- p - q; p; q] eq_refl). cbn in N. assert (X : Forall (fun a => a = 0) [- p - q; p; q]). { apply N; [ring|]. intros [|[|i]] Hi; [|  |lia]; cbn; unfold ux, uy, vx, vy in *; lra. } apply Forall3 in X. tauto. }
  destruct (W vx (- ux)) as [A1 A2]; [ring|unfold ux, uy, vx, vy in *; lra|]. destruct (W vy (- uy)) as [B1 B2]; [lra|ring|]. destruct (W 1 0) as [C _]; lra.
Qed.
Lemma nondeg_2_3 ax ay az bx by_ bz cx cy cz : nondegenerate 3 [[ax; ay; az]; [bx; by_; bz]; [cx; cy; cz]] ->
  let ux := bx - ax in let uy := by_ - ay in let uz := bz - az in let vx := cx - ax in let vy := cy - ay in let vz := cz - az in
  (uy * vz - uz * vy) * (uy * vz - uz * vy) + (uz * vx - ux * vz) * (uz * vx - ux * vz) + (ux * vy - uy * vx) * (ux * vy - uy * vx) <> 0.
Proof.
  intros N ux uy uz vx vy vz D. apply sq_zero_sum3 in D. destruct D as [D1 [D2 D3]].
  assert (W : forall p q, p * ux + q * vx = 0 -> p * uy + q * vy = 0 -> p * uz + q * vz = 0 -> p = 0 /\ q = 0).
  { intros p q H1 H2 H3. specialize (N [- p - q; p; q] eq_refl). cbn in N. assert (X : Forall (fun a => a = 0) [- p - q; p; q]). { apply N; [ring|]. intros [|[|[|i]]] Hi; [| | |lia]; cbn; unfold ux, uy, uz, vx, vy, vz in *; lra. } apply Forall3 in X. tauto. }
  destruct (W vx (- ux)) as [A1 A2]; [ring|lra|lra|]. destruct (W vy (- uy)) as [B1 B2]; [lra|ring|lra|]. destruct (W vz (- uz)) as [C1 C2]; [lra|lra|ring|]. destruct (W 1 0) as [C _]; lra.
Qed.
Lemma nondeg_3_3 ax ay az bx by_ bz cx cy cz dx dy dz : nondegenerate 3 [[ax; ay; az]; [bx; by_; bz]; [cx; cy; cz]; [dx; dy; dz]] ->
  let ux := bx - ax in let uy := by_ - ay in let uz := bz - az in let vx := cx - ax in let vy := cy - ay in let vz := cz - az in let wx := dx - ax in let wy := dy - ay in let wz := dz - az in
  ux * (vy * wz - vz * wy) - uy * (vx * wz - vz * wx) + uz * (vx * wy - vy * wx) <> 0.
Proof.
  intros N ux uy uz vx vy vz wx wy wz D.
  assert (W : forall p q r, p * ux + q * vx + r * wx = 0 -> p * uy + q * vy + r * wy = 0 -> p * uz + q * vz + r * wz = 0 -> p = 0 /\ q = 0 /\ r = 0).
  { intros p q r H1 H2 H3. specialize (N [- p - q - r; p; q; r] eq_refl). cbn in N. assert (X : Forall (fun a => a = 0) [- p - q - r; p; q; r]). { apply N; [ring|]. intros [|[|[|i]]] Hi; [| | |lia]; cbn; unfold ux, uy, uz, vx, vy, vz, wx, wy, wz in *; lra. } apply Forall4 in X. tauto. }
  destruct (W (vy * wz - vz * wy) (wy * uz - wz * uy) (uy * vz - uz * vy)) as [A1 [A2 A3]]; [rewrite <- D; ring|ring|ring|].
  destruct (W (vz * wx - vx * wz) (wz * ux - wx * uz) (uz * vx - ux * vz)) as [B1 [B2 B3]]; [ring|rewrite <- D; ring|ring|].
  destruct (W (vx * wy - vy * wx) (wx * uy - wy * ux) (ux * vy - uy * vx)) as [C1 [C2 C3]]; [ring|ring|rewrite <- D; ring|].
  destruct (W vx (- ux) 0) as [E1 [E2 _]]; [ring|lra|lra|]. destruct (W vy (- uy) 0) as [F1 [F2 _]]; [lra|ring|lra|]. destruct (W vz (- uz) 0) as [G1 [G2 _]]; [lra|lra|ring|]. destruct (W 1 0 0) as [X _]; lra.
Qed.

Lemma cell_3_2 cell : is_cell 3 2 cell -> exists ax ay bx by_ cx cy, cell = [[ax; ay]; [bx; by_]; [cx; cy]].
Proof. intros [LN F]. explode. do 6 eexists. reflexivity. Qed.
Lemma cell_3_3 cell : is_cell 3 3 cell -> exists ax ay az bx by_ bz cx cy cz, cell = [[ax; ay; az]; [bx; by_; bz]; [cx; cy; cz]].
Proof. intros [LN F]. explode. do 9 eexists. reflexivity. Qed.
Lemma cell_4_3 cell : is_cell 4 3 cell -> exists ax ay az bx by_ bz cx cy cz dx dy dz, cell = [[ax; ay; az]; [bx; by_; bz]; [cx; cy; cz]; [dx; dy; dz]].
Proof. intros [LN F]. explode. do 12 eexists. reflexivity. Qed.
Lemma cell_2_2 cell : is_cell 2 2 cell -> exists ax ay bx by_, cell = [[ax; ay]; [bx; by_]].
Proof. intros [LN F]. explode. do 4 eexists. reflexivity. Qed.

Section Circ.
Variable lu : list (list R) -> list R -> list R.
Hypothesis LU : solves_regular lu.
Lemma lu2 a b c d e f : a * d - b * c <> 0 -> exists y0 y1, lu [[a; b]; [c; d]] [e; f] = [y0; y1] /\ a * y0 + b * y1 = e /\ c * y0 + d * y1 = f.
Proof.
  intros D. destruct (LU 2%nat [[a; b]; [c; d]] [e; f]) as [L E]; [auto|split; [reflexivity|repeat constructor]|reflexivity|rewrite det2; exact D|].
  destruct (lu _ _) as [|y0 [|y1 [|]]]; try discriminate L. exists y0, y1. cbn in E. injection E as E1 E2. split; [reflexivity|split; lra].
Qed.
Lemma lu3 a b c d e f g h i x y z : a * (e * i - f * h) - b * (d * i - f * g) + c * (d * h - e * g) <> 0 ->
  exists y0 y1 y2, lu [[a; b; c]; [d; e; f]; [g; h; i]] [x; y; z] = [y0; y1; y2] /\ a * y0 + b * y1 + c * y2 = x /\ d * y0 + e * y1 + f * y2 = y /\ g * y0 + h * y1 + i * y2 = z.
Proof.
  intros D. destruct (LU 3%nat [[a; b; c]; [d; e; f]; [g; h; i]] [x; y; z]) as [L E]; [auto|split; [reflexivity|repeat constructor]|reflexivity|rewrite det3; exact D|].
  destruct (lu _ _) as [|y0 [|y1 [|y2 [|]]]]; try discriminate L. exists y0, y1, y2. cbn in E. injection E as E1 E2 E3. split; [reflexivity|split; [|split]; lra].
Qed.
Lemma via_first (cell : list (list R)) x A : (forall p, In p cell -> sq_dist x p = sq_dist x A) -> forall p q, In p cell -> In q cell -> sq_dist x p = sq_dist x q.
Proof. intros H p q P Q. rewrite (H p P), (H q Q). reflexivity. Qed.
Lemma circ_2_2_ok cell : is_cell 3 2 cell -> nondegenerate 2 cell -> exists x, cell_circumcenter lu 2 2 cell = Ok x /\ in_hull 2 cell x /\ forall p q, In p cell -> In q cell -> sq_dist x p = sq_dist x q.
Proof.
  intros IC N. apply cell_3_2 in IC. destruct IC as [ax [ay [bx [by_ [cx [cy ->]]]]]].
  cbn [cell_circumcenter concat app]. unfold circ_2_2, at_. cbn [nth rsub rdot rscale map].
  match goal with |- context [lu [[?a; ?b]; [?c; ?d]] [?e; ?f]] => destruct (lu2 a b c d e f) as [y0 [y1 [E [E1 E2]]]] end.
  { pose proof (nondeg_2_2 _ _ _ _ _ _ N) as D. intros H. apply D. apply Rsqr_0_uniq. unfold Rsqr. rewrite <- H. ring. }
  rewrite E. cbn [nth radd]. eexists. split; [reflexivity|]. split.
  - split; [reflexivity|]. exists [1 - y0 - y1; y0; y1]. split; [reflexivity|]. cbn [total]. split; [ring|]. intros [|[|i]] Hi; [| |lia]; cbn [weighted nth]; ring.
  - apply (via_first _ _ [ax; ay]). intros p [<-|[<-|[<-|[]]]]; [reflexivity| |]; cbn [sq_dist]; apply Rminus_diag_uniq.
    + match type of E1 with ?l = ?r => transitivity (2 * (r - l)); [field|rewrite E1; ring] end.
    + match type of E2 with ?l = ?r => transitivity (2 * (r - l)); [field|rewrite E2; ring] end.
Qed.
Lemma circ_2_3_ok cell : is_cell 3 3 cell -> nondegenerate 3 cell -> exists x, cell_circumcenter lu 2 3 cell = Ok x /\ in_hull 3 cell x /\ forall p q, In p cell -> In q cell -> sq_dist x p = sq_dist x q.
Proof.
  intros IC N. apply cell_3_3 in IC. destruct IC as [ax [ay [az [bx [by_ [bz [cx [cy [cz ->]]]]]]]]].
  cbn [cell_circumcenter concat app]. unfold circ_2_3, at_. cbn [nth rsub rdot rscale map].
  match goal with |- context [lu [[?a; ?b]; [?c; ?d]] [?e; ?f]] => destruct (lu2 a b c d e f) as [y0 [y1 [E [E1 E2]]]] end.
  { pose proof (nondeg_2_3 _ _ _ _ _ _ _ _ _ N) as D. cbv zeta in D. intros H. apply D. rewrite <- H. ring. }
  rewrite E. cbn [nth radd]. eexists. split; [reflexivity|]. split.
  - split; [reflexivity|]. exists [1 - y0 - y1; y0; y1]. split; [reflexivity|]. cbn [total]. split; [ring|]. intros [|[|[|i]]] Hi; [| | |lia]; cbn [weighted nth]; ring.
  - apply (via_first _ _ [ax; ay; az]). intros p [<-|[<-|[<-|[]]]]; [reflexivity| |]; cbn [sq_dist]; apply Rminus_diag_uniq.
    + match type of E1 with ?l = ?r => transitivity (2 * (r - l)); [field|rewrite E1; ring] end.
    + match type of E2 with ?l = ?r => transitivity (2 * (r - l)); [field|rewrite E2; ring] end.
Qed.
Lemma circ_3_3_ok cell : is_cell 4 3 cell -> nondegenerate 3 cell -> exists x, cell_circumcenter lu 3 3 cell = Ok x /\ in_hull 3 cell x /\ forall p q, In p cell -> In q cell -> sq_dist x p = sq_dist x q.
Proof.
  intros IC N. apply cell_4_3 in IC. destruct IC as [ax [ay [az [bx [by_ [bz [cx [cy [cz [dx [dy [dz ->]]]]]]]]]]]].
  cbn [cell_circumcenter concat app]. unfold circ_3_3, at_. cbn [nth rsub rdot rscale map].
  match goal with |- context [lu [[?a; ?b; ?c]; [?d; ?e; ?f]; [?g; ?h; ?i]] [?x; ?y; ?z]] => destruct (lu3 a b c d e f g h i x y z) as [y0 [y1 [y2 [E [E1 [E2 E3]]]]]] end.
  { pose proof (nondeg_3_3 _ _ _ _ _ _ _ _ _ _ _ _ N) as D. cbv zeta in D. intros H. apply D. apply Rsqr_0_uniq. unfold Rsqr. rewrite <- H. ring. }
  rewrite E. cbn [nth radd]. eexists. split; [reflexivity|]. split.
  - split; [reflexivity|]. exists [1 - y0 - y1 - y2; y0; y1; y2]. split; [reflexivity|]. cbn [total]. split; [ring|]. intros [|[|[|i]]] Hi; [| | |lia]; cbn [weighted nth]; ring.
  - apply (via_first _ _ [ax; ay; az]). intros p [<-|[<-|[<-|[<-|[]]]]]; [reflexivity| | |]; cbn [sq_dist]; apply Rminus_diag_uniq.
    + match type of E1 with ?l = ?r => transitivity (2 * (r - l)); [field|rewrite E1; ring] end.
    + match type of E2 with ?l = ?r => transitivity (2 * (r - l)); [field|rewrite E2; ring] end.
    + match type of E3 with ?l = ?r => transitivity (2 * (r - l)); [field|rewrite E3; ring] end.
Qed.
Lemma circ_1_2_ok cell : is_cell 2 2 cell -> exists x, cell_circumcenter lu 1 2 cell = Ok x /\ in_hull 2 cell x /\ forall p q, In p cell -> In q cell -> sq_dist x p = sq_dist x q.
Proof.
  intros IC. apply cell_2_2 in IC. destruct IC as [ax [ay [bx [by_ ->]]]]. cbn [cell_circumcenter concat app]. unfold circ_1_2, at_. cbn [nth radd rscale map]. eexists. split; [reflexivity|]. split.
  - split; [reflexivity|]. exists [1 / 2; 1 / 2]. split; [reflexivity|]. cbn [total]. split; [lra|]. intros [|[|i]] Hi; [| |lia]; cbn [weighted nth]; lra.
  - apply (via_first _ _ [ax; ay]). intros p [<-|[<-|[]]]; [reflexivity|]. cbn [sq_dist]. field.
Qed.
End Circ.

(** ** Lists as vectors *)
Lemma rdot_comm x y : rdot x y = rdot y x.
Proof. revert y. induction x as [|a x IH]; intros [|b y]; cbn; try reflexivity. rewrite IH. ring. Qed.
Lemma rdot_nonneg x : 0 <= rdot x x.
Proof. induction x as [|a x IH]; cbn; [lra|]. pose proof (Rle_0_sqr a) as H. unfold Rsqr in H. lra. Qed.
Lemma rdot_zero x : rdot x x = 0 -> forall i, nth i x 0 = 0.
Proof.
  induction x as [|a x IH]; cbn [rdot]; intros H i; [destruct i; reflexivity|]. pose proof (Rle_0_sqr a) as P. unfold Rsqr in P. pose proof (rdot_nonneg x) as Q. destruct i as [|i]; cbn [nth]; [apply Rsqr_0_uniq; unfold Rsqr; lra|apply IH; lra].
Qed.
Lemma rnorm_sq x : rnorm x * rnorm x = rdot x x.
Proof. apply sqrt_sqrt, rdot_nonneg. Qed.
Lemma rnorm_nonneg x : 0 <= rnorm x.
Proof. apply sqrt_pos. Qed.
(** |a x - b y|^2 *)
Lemma rdot_diff a b x y : length x = length y -> rdot (rsub (rscale a x) (rscale b y)) (rsub (rscale a x) (rscale b y)) = a * a * rdot x x - 2 * a * b * rdot x y + b * b * rdot y y.
Proof. revert y. induction x as [|p x IH]; intros [|q y] L; try discriminate; cbn; [ring|]. injection L as L. unfold rscale in IH. rewrite (IH y L). ring. Qed.
Lemma rdot_sum x y : length x = length y -> rdot (radd x y) (radd x y) = rdot x x + 2 * rdot x y + rdot y y.
Proof. revert y. induction x as [|p x IH]; intros [|q y] L; try discriminate; cbn; [ring|]. injection L as L. rewrite (IH y L). ring. Qed.
Lemma nth_rdiff a b x y i : length x = length y -> nth i (rsub (rscale a x) (rscale b y)) 0 = a * nth i x 0 - b * nth i y 0.
Proof. revert y i. induction x as [|p x IH]; intros [|q y] i L; try discriminate; [destruct i; cbn; ring|]. injection L as L. destruct i as [|i]; cbn; [reflexivity|]. apply (IH y i L). Qed.
Lemma nth_rsub x y i : length x = length y -> nth i (rsub x y) 0 = nth i x 0 - nth i y 0.
Proof. revert y i. induction x as [|p x IH]; intros [|q y] i L; try discriminate; [destruct i; cbn; ring|]. injection L as L. destruct i as [|i]; cbn; [reflexivity|]. apply (IH y i L). Qed.
Lemma rsub_length x y : length x = length y -> length (rsub x y) = length x.
Proof. revert y. induction x as [|p x IH]; intros [|q y] L; try discriminate; [reflexivity|]. injection L as L. cbn. rewrite (IH y L). reflexivity. Qed.
Lemma radd_length x y : length x = length y -> length (radd x y) = length x.
Proof. revert y. induction x as [|p x IH]; intros [|q y] L; try discriminate; [reflexivity|]. injection L as L. cbn. rewrite (IH y L). reflexivity. Qed.
(** Cauchy-Schwarz and its case of equality *)
Lemma cs_equal x y : length x = length y -> rdot x y = rnorm x * rnorm y -> forall i, rnorm y * nth i x 0 = rnorm x * nth i y 0.
Proof.
  intros L H i. assert (Z : rdot (rsub (rscale (rnorm y) x) (rscale (rnorm x) y)) (rsub (rscale (rnorm y) x) (rscale (rnorm x) y)) = 0).
  { rewrite (rdot_diff _ _ _ _ L), H. rewrite <- (rnorm_sq x), <- (rnorm_sq y). ring. }
  pose proof (rdot_zero _ Z i) as E. rewrite (nth_rdiff _ _ _ _ _ L) in E. lra.
Qed.
Lemma cauchy_schwarz x y : length x = length y -> rdot x y <= rnorm x * rnorm y.
Proof.
  intros L. destruct (Req_dec (rnorm x) 0) as [X|X].
  - assert (Z : forall i, nth i x 0 = 0) by (apply rdot_zero; rewrite <- rnorm_sq, X; ring). rewrite X. assert (W : rdot x y = 0). { clear - L Z. revert y L Z. induction x as [|a x IH]; intros [|b y] L Z; try discriminate; [reflexivity|]. cbn. injection L as L. rewrite (IH y L (fun i => Z (S i))). specialize (Z 0%nat). cbn in Z. rewrite Z. ring. } lra.
  - destruct (Req_dec (rnorm y) 0) as [Y|Y].
    + assert (Z : forall i, nth i y 0 = 0) by (apply rdot_zero; rewrite <- rnorm_sq, Y; ring). rewrite Y. assert (W : rdot x y = 0). { clear - L Z. revert y L Z. induction x as [|a x IH]; intros [|b y] L Z; try discriminate; [reflexivity|]. cbn. injection L as L. rewrite (IH y L (fun i => Z (S i))). specialize (Z 0%nat). cbn in Z. rewrite Z. ring. } lra.
    + pose proof (rdot_nonneg (rsub (rscale (rnorm y) x) (rscale (rnorm x) y))) as P. rewrite (rdot_diff _ _ _ _ L) in P. rewrite <- (rnorm_sq x), <- (rnorm_sq y) in P.
      pose proof (rnorm_nonneg x). pose proof (rnorm_nonneg y). assert (0 < rnorm x * rnorm y) by (apply Rmult_lt_0_compat; lra). assert (0 <= 2 * (rnorm x * rnorm y) * (rnorm x * rnorm y - rdot x y)) by lra. nra.
Qed.

(** ** Areas *)
Ltac fall t := repeat (first [apply Forall_nil | apply Forall_cons; [t|]]).
Lemma planar a1 a2 a3 b1 b2 b3 c1 c2 c3 n1 n2 n3 L l0 l1 l2 :
  0 < L -> L = l0 + l1 + l2 -> L * L = n1 * n1 + n2 * n2 + n3 * n3 ->
  L * (b2 * c3 - b3 * c2) = l0 * n1 -> L * (b3 * c1 - b1 * c3) = l0 * n2 -> L * (b1 * c2 - b2 * c1) = l0 * n3 ->
  L * (c2 * a3 - c3 * a2) = l1 * n1 -> L * (c3 * a1 - c1 * a3) = l1 * n2 -> L * (c1 * a2 - c2 * a1) = l1 * n3 ->
  L * (a2 * b3 - a3 * b2) = l2 * n1 -> L * (a3 * b1 - a1 * b3) = l2 * n2 -> L * (a1 * b2 - a2 * b1) = l2 * n3 ->
  l0 * a1 + l1 * b1 + l2 * c1 = 0 /\ l0 * a2 + l1 * b2 + l2 * c2 = 0 /\ l0 * a3 + l1 * b3 + l2 * c3 = 0.
Proof.
  intros LP LS LL A1 A2 A3 B1 B2 B3 C1 C2 C3.
  set (V := a1 * (b2 * c3 - b3 * c2) + a2 * (b3 * c1 - b1 * c3) + a3 * (b1 * c2 - b2 * c1)).
  set (an := a1 * n1 + a2 * n2 + a3 * n3). set (bn := b1 * n1 + b2 * n2 + b3 * n3).
  assert (VA : L * V = l0 * an). { unfold V, an. transitivity (a1 * (L * (b2 * c3 - b3 * c2)) + a2 * (L * (b3 * c1 - b1 * c3)) + a3 * (L * (b1 * c2 - b2 * c1))); [ring|]. rewrite A1, A2, A3. ring. }
  assert (VB : L * V = l1 * bn). { unfold V, bn. transitivity (b1 * (L * (c2 * a3 - c3 * a2)) + b2 * (L * (c3 * a1 - c1 * a3)) + b3 * (L * (c1 * a2 - c2 * a1))); [ring|]. rewrite B1, B2, B3. ring. }
  assert (Z1 : l1 * an = 0). { unfold an. transitivity (a1 * (l1 * n1) + a2 * (l1 * n2) + a3 * (l1 * n3)); [ring|]. rewrite <- B1, <- B2, <- B3. ring. }
  assert (Z2 : l2 * an = 0). { unfold an. transitivity (a1 * (l2 * n1) + a2 * (l2 * n2) + a3 * (l2 * n3)); [ring|]. rewrite <- C1, <- C2, <- C3. ring. }
  assert (Z0 : l0 * bn = 0). { unfold bn. transitivity (b1 * (l0 * n1) + b2 * (l0 * n2) + b3 * (l0 * n3)); [ring|]. rewrite <- A1, <- A2, <- A3. ring. }
  assert (VZ : V = 0). { assert (X : L * L * V = 0). { replace (L * L * V) with (l0 * (L * V) + l1 * (L * V) + l2 * (L * V)) by (rewrite LS; ring). rewrite VB at 1. rewrite VA at 1 2. transitivity (l1 * (l0 * bn) + l0 * (l1 * an) + l0 * (l2 * an)); [ring|]. rewrite Z0, Z1, Z2. ring. } apply Rmult_integral in X. destruct X as [X|X]; [apply Rmult_integral in X; lra|exact X]. }
  assert (K : forall x1 y1 z1, L * (x1 * (n1 * (b2 * c3 - b3 * c2) + n2 * (b3 * c1 - b1 * c3) + n3 * (b1 * c2 - b2 * c1)) + y1 * (n1 * (c2 * a3 - c3 * a2) + n2 * (c3 * a1 - c1 * a3) + n3 * (c1 * a2 - c2 * a1)) + z1 * (n1 * (a2 * b3 - a3 * b2) + n2 * (a3 * b1 - a1 * b3) + n3 * (a1 * b2 - a2 * b1))) = L * L * (l0 * x1 + l1 * y1 + l2 * z1)).
  { intros x1 y1 z1. transitivity (x1 * (n1 * (L * (b2 * c3 - b3 * c2)) + n2 * (L * (b3 * c1 - b1 * c3)) + n3 * (L * (b1 * c2 - b2 * c1))) + y1 * (n1 * (L * (c2 * a3 - c3 * a2)) + n2 * (L * (c3 * a1 - c1 * a3)) + n3 * (L * (c1 * a2 - c2 * a1))) + z1 * (n1 * (L * (a2 * b3 - a3 * b2)) + n2 * (L * (a3 * b1 - a1 * b3)) + n3 * (L * (a1 * b2 - a2 * b1)))); [ring|]. rewrite A1, A2, A3, B1, B2, B3, C1, C2, C3, LL. ring. }
  assert (F : forall u, L * L * u = 0 -> u = 0) by (intros u X; apply Rmult_integral in X; destruct X as [X|X]; [apply Rmult_integral in X; lra|exact X]).
  split; [|split]; apply F; rewrite <- K; [transitivity (L * (n1 * V))|transitivity (L * (n2 * V))|transitivity (L * (n3 * V))]; try (unfold V; ring); rewrite VZ; ring.
Qed.
Lemma rnorm_scale t x : 0 <= t -> rnorm (rscale t x) = t * rnorm x.
Proof.
  intros T. unfold rnorm. assert (E : rdot (rscale t x) (rscale t x) = t * t * rdot x x) by (induction x as [|a x IH]; cbn; [ring|]; unfold rscale in IH; rewrite IH; ring).
  rewrite E, sqrt_mult by (try apply rdot_nonneg; apply Rle_0_sqr). rewrite sqrt_square by exact T. reflexivity.
Qed.
Lemma rnorm_sym x y : length x = length y -> rnorm (rsub x y) = rnorm (rsub y x).
Proof. intros L. unfold rnorm. f_equal. revert y L. induction x as [|a x IH]; intros [|b y] L; try discriminate; [reflexivity|]. injection L as L. cbn. rewrite (IH y L). ring. Qed.
Lemma list_ext (x y : list R) : length x = length y -> (forall i, (i < length x)%nat -> nth i x 0 = nth i y 0) -> x = y.
Proof. intros L H. apply (nth_ext x y 0 0 L H). Qed.
Lemma nth_radd x y i : length x = length y -> nth i (radd x y) 0 = nth i x 0 + nth i y 0.
Proof. revert y i. induction x as [|p x IH]; intros [|q y] i L; try discriminate; [destruct i; cbn; ring|]. injection L as L. destruct i as [|i]; cbn; [reflexivity|]. apply (IH y i L). Qed.
Lemma nth_rscale t x i : nth i (rscale t x) 0 = t * nth i x 0.
Proof. unfold rscale. rewrite <- (Rmult_0_r t) at 1. apply map_nth. Qed.

Lemma segment_parts d A B x : length A = d -> length B = d -> length x = d -> (rnorm (rsub B A) = rnorm (rsub A x) + rnorm (rsub B x) <-> in_simplex d [A; B] x).
Proof.
  intros LA LB LX. rewrite (rnorm_sym A x) by lia. set (p := rsub x A). set (q := rsub B x). assert (LP : length p = d) by (unfold p; rewrite rsub_length; lia). assert (LQ : length q = d) by (unfold q; rewrite rsub_length; lia).
  assert (E : rsub B A = radd p q). { apply list_ext; [rewrite rsub_length, radd_length; lia|]. intros i _. unfold p, q. rewrite nth_radd, !nth_rsub by (try rewrite !rsub_length; lia). ring. }
  rewrite E. split.
  - intros H. assert (SQ : rdot p q = rnorm p * rnorm q). { assert (X : rnorm (radd p q) * rnorm (radd p q) = (rnorm p + rnorm q) * (rnorm p + rnorm q)) by (rewrite H; ring). rewrite rnorm_sq, rdot_sum, <- (rnorm_sq p), <- (rnorm_sq q) in X by lia. lra. }
    pose proof (cs_equal p q ltac:(lia) SQ) as CS. pose proof (rnorm_nonneg p) as NP. pose proof (rnorm_nonneg q) as NQ. split; [exact LX|]. destruct (Req_dec (rnorm p + rnorm q) 0) as [Z|Z].
    + exists [1; 0]. split; [reflexivity|]. cbn. split; [lra|]. split; [fall ltac:(lra)|]. intros i Hi. assert (P0 : nth i p 0 = 0) by (apply rdot_zero; rewrite <- rnorm_sq; assert (rnorm p = 0) as -> by lra; ring). unfold p in P0. rewrite nth_rsub in P0 by lia. lra.
    + set (t := rnorm p / (rnorm p + rnorm q)). exists [1 - t; t]. split; [reflexivity|]. cbn. split; [lra|]. assert (T : 0 <= t <= 1). { unfold t. split; [apply Rmult_le_pos; [exact NP|left; apply Rinv_0_lt_compat; lra]|]. apply (Rmult_le_reg_r (rnorm p + rnorm q)); [lra|]. unfold Rdiv. rewrite Rmult_assoc, Rinv_l by exact Z. lra. }
      split; [fall ltac:(lra)|]. intros i Hi. specialize (CS i). assert (PI : nth i p 0 = nth i x 0 - nth i A 0) by (unfold p; apply nth_rsub; lia). assert (QI : nth i q 0 = nth i B 0 - nth i x 0) by (unfold q; apply nth_rsub; lia). rewrite PI, QI in CS. apply Rminus_diag_uniq. apply (Rmult_eq_reg_r (rnorm p + rnorm q)); [|exact Z]. unfold t. field_simplify; [|exact Z]. lra.
  - intros [_ [w [LW [TW [PW H]]]]]. destruct w as [|w0 [|w1 [|]]]; try discriminate LW. cbn in TW. apply Forall_cons_iff in PW. destruct PW as [P0 PW]. apply Forall_cons_iff in PW. destruct PW as [P1 _].
    assert (EP : p = rscale w1 (rsub B A)). { apply list_ext; [unfold rscale; rewrite map_length, rsub_length; lia|]. intros i Hi. unfold p. rewrite nth_rscale, !nth_rsub by lia. rewrite (H i) by lia. cbn. replace w0 with (1 - w1) by lra. ring. }
    assert (EQ : q = rscale w0 (rsub B A)). { apply list_ext; [unfold rscale; rewrite map_length, rsub_length; lia|]. intros i Hi. unfold q. rewrite nth_rscale, !nth_rsub by lia. rewrite (H i) by lia. cbn. replace w1 with (1 - w0) by lra. ring. }
    rewrite <- E. rewrite EP, EQ, !rnorm_scale by assumption. replace w0 with (1 - w1) by lra. ring.
Qed.
Lemma quot_nonneg a s t : Rabs s = t -> (0 < s -> 0 <= a) -> (s < 0 -> a <= 0) -> s <> 0 -> 0 <= a / s.
Proof.
  intros _ P N Z. unfold Rdiv. destruct (Rtotal_order s 0) as [L|[L|L]]; [|contradiction|].
  - specialize (N L). assert (/ s < 0) by (apply Rinv_lt_0_compat; exact L). nra.
  - specialize (P L). assert (0 < / s) by (apply Rinv_0_lt_compat; exact L). nra.
Qed.
Lemma abs_parts3 a b c s : s = a + b + c -> s <> 0 -> Rabs s = Rabs a + Rabs b + Rabs c -> 0 <= a / s /\ 0 <= b / s /\ 0 <= c / s.
Proof.
  intros E Z H. pose proof (Rle_abs a). pose proof (Rle_abs b). pose proof (Rle_abs c). pose proof (Rle_abs (- a)) as A. pose proof (Rle_abs (- b)) as B. pose proof (Rle_abs (- c)) as C. rewrite Rabs_Ropp in A, B, C.
  assert (P : 0 < s -> Rabs a = a /\ Rabs b = b /\ Rabs c = c) by (intros L; rewrite (Rabs_right s) in H by lra; lra). assert (N : s < 0 -> Rabs a = - a /\ Rabs b = - b /\ Rabs c = - c) by (intros L; rewrite (Rabs_left s) in H by lra; lra).
  pose proof (Rabs_pos a). pose proof (Rabs_pos b). pose proof (Rabs_pos c).
  repeat split; apply (quot_nonneg _ _ (Rabs s)); try exact Z; try reflexivity; intros L; try specialize (P L); try specialize (N L); lra.
Qed.
Lemma abs_parts4 a b c d s : s = a + b + c + d -> s <> 0 -> Rabs s = Rabs a + Rabs b + Rabs c + Rabs d -> 0 <= a / s /\ 0 <= b / s /\ 0 <= c / s /\ 0 <= d / s.
Proof.
  intros E Z H. pose proof (Rle_abs a). pose proof (Rle_abs b). pose proof (Rle_abs c). pose proof (Rle_abs d). pose proof (Rle_abs (- a)) as A. pose proof (Rle_abs (- b)) as B. pose proof (Rle_abs (- c)) as C. pose proof (Rle_abs (- d)) as D. rewrite Rabs_Ropp in A, B, C, D.
  assert (P : 0 < s -> Rabs a = a /\ Rabs b = b /\ Rabs c = c /\ Rabs d = d) by (intros L; rewrite (Rabs_right s) in H by lra; lra). assert (N : s < 0 -> Rabs a = - a /\ Rabs b = - b /\ Rabs c = - c /\ Rabs d = - d) by (intros L; rewrite (Rabs_left s) in H by lra; lra).
  pose proof (Rabs_pos a). pose proof (Rabs_pos b). pose proof (Rabs_pos c). pose proof (Rabs_pos d).
  repeat split; apply (quot_nonneg _ _ (Rabs s)); try exact Z; try reflexivity; intros L; try specialize (P L); try specialize (N L); lra.
Qed.
Lemma Rabs_div_pos a k : 0 < k -> Rabs (a / k) = Rabs a / k.
Proof. intros K. unfold Rdiv. rewrite Rabs_mult, (Rabs_right (/ k)); [reflexivity|]. apply Rle_ge. left. apply Rinv_0_lt_compat. exact K. Qed.

(** Exactness: the test number [d] is zero exactly inside *)
Definition exact_at (gdim : nat) (x : list R) (cell : list (list R)) : Prop :=
  exists d, area_diff x cell = Ok d /\ 0 <= d /\ (d = 0 <-> in_simplex gdim cell x).
Lemma Rabs_zero_iff a : Rabs a = 0 <-> a = 0.
Proof. split; [intros H; destruct (Req_dec a 0) as [|N]; [assumption|exfalso; exact (Rabs_no_R0 a N H)]|intros ->; apply Rabs_R0]. Qed.
Lemma exact_segment d A B x : length A = d -> length B = d -> length x = d -> exact_at d x [A; B].
Proof.
  intros LA LB LX. unfold exact_at. eexists. split; [reflexivity|]. split; [apply Rabs_pos|]. rewrite Rabs_zero_iff. rewrite <- (segment_parts d A B x LA LB LX). cbn [lsum fold_right map nth]. split; intros H; lra.
Qed.
Lemma exact_2_2 cell x : is_cell 3 2 cell -> nondegenerate 2 cell -> length x = 2%nat -> exact_at 2 x cell.
Proof.
  intros IC N LX. apply cell_3_2 in IC. destruct IC as [ax [ay [bx [by_ [cx [cy ->]]]]]]. destruct x as [|x0 [|x1 [|]]]; try discriminate LX. pose proof (nondeg_2_2 _ _ _ _ _ _ N) as D.
  unfold exact_at. eexists. split; [reflexivity|]. split; [apply Rabs_pos|]. rewrite Rabs_zero_iff. cbn [map nth app lsum fold_right]. rewrite !det3, !Rabs_div_pos by lra.
  set (s0 := (bx - x0) * (cy - x1) - (by_ - x1) * (cx - x0)). set (s1 := (cx - x0) * (ay - x1) - (cy - x1) * (ax - x0)). set (s2 := (ax - x0) * (by_ - x1) - (ay - x1) * (bx - x0)). set (s := (bx - ax) * (cy - ay) - (by_ - ay) * (cx - ax)) in *.
  assert (E : s = s0 + s1 + s2) by (unfold s, s0, s1, s2; ring).
  match goal with |- context [Rabs ?a / 2 - (Rabs ?b / 2 + (Rabs ?c / 2 + (Rabs ?e / 2 + 0)))] => replace a with s by (unfold s; ring); replace b with s2 by (unfold s2; ring); replace c with (- s1) by (unfold s1; ring); replace e with s0 by (unfold s0; ring) end. rewrite Rabs_Ropp. split.
  - intros H. destruct (abs_parts3 s0 s1 s2 s E D ltac:(lra)) as [P0 [P1 P2]]. split; [reflexivity|]. exists [s0 / s; s1 / s; s2 / s]. split; [reflexivity|]. cbn [total]. split; [rewrite E at 1 2 3; field; rewrite <- E; exact D|]. split; [fall assumption|].
    intros [|[|i]] Hi; [| |lia]; cbn [nth weighted]; apply (Rmult_eq_reg_r s); try exact D; field_simplify; try exact D; unfold s, s0, s1, s2; ring.
  - intros [_ [w [LW [TW [PW H]]]]]. destruct w as [|w0 [|w1 [|w2 [|]]]]; try discriminate LW. cbn in TW. apply Forall3 in PW. destruct PW as [P0 [P1 P2]]. pose proof (H 0%nat ltac:(lia)) as H0. pose proof (H 1%nat ltac:(lia)) as H1. cbn in H0, H1.
    replace w0 with (1 - w1 - w2) in * by lra. assert (S0 : s0 = (1 - w1 - w2) * s) by (unfold s0, s; rewrite H0, H1; ring). assert (S1 : s1 = w1 * s) by (unfold s1, s; rewrite H0, H1; ring). assert (S2 : s2 = w2 * s) by (unfold s2, s; rewrite H0, H1; ring).
    rewrite S0, S1, S2, !Rabs_mult, (Rabs_right (1 - w1 - w2)), (Rabs_right w1), (Rabs_right w2) by lra. field.
Qed.
Lemma exact_2_3 cell x : is_cell 3 3 cell -> nondegenerate 3 cell -> length x = 3%nat -> exact_at 3 x cell.
Proof.
  intros IC N LX. apply cell_3_3 in IC. destruct IC as [ax [ay [az [bx [by_ [bz [cx [cy [cz ->]]]]]]]]]. destruct x as [|x0 [|x1 [|x2 [|]]]]; try discriminate LX. pose proof (nondeg_2_3 _ _ _ _ _ _ _ _ _ N) as D. cbv zeta in D.
  unfold exact_at. eexists. split; [reflexivity|]. split; [apply Rabs_pos|]. rewrite Rabs_zero_iff. cbn [map nth app lsum fold_right].
  set (n := rcross (rsub [bx; by_; bz] [ax; ay; az]) (rsub [cx; cy; cz] [ax; ay; az])). set (n2 := rcross (rsub [ax; ay; az] [x0; x1; x2]) (rsub [bx; by_; bz] [x0; x1; x2])). set (n1 := rcross (rsub [ax; ay; az] [x0; x1; x2]) (rsub [cx; cy; cz] [x0; x1; x2])). set (n0 := rcross (rsub [bx; by_; bz] [x0; x1; x2]) (rsub [cx; cy; cz] [x0; x1; x2])).
  assert (NN : 0 < rnorm n). { assert (rnorm n <> 0). { intros Z. apply D. assert (X : rdot n n = 0) by (rewrite <- rnorm_sq, Z; ring). rewrite <- X. unfold n. cbn. ring. } pose proof (rnorm_nonneg n). lra. }
  split.
  - intros H. set (m1 := rscale (-1) n1). assert (M1 : rnorm m1 = rnorm n1). { unfold m1, rnorm. f_equal. unfold n1. cbn. ring. }
    assert (SUM : rdot n n0 + rdot n m1 + rdot n n2 = rdot n n) by (unfold n, n0, m1, n1, n2; cbn; ring).
    pose proof (cauchy_schwarz n n0 eq_refl) as C0. pose proof (cauchy_schwarz n m1 eq_refl) as C1. pose proof (cauchy_schwarz n n2 eq_refl) as C2.
    assert (TOT : rnorm n = rnorm n0 + rnorm m1 + rnorm n2) by lra. assert (TOT2 : rdot n n = rnorm n * rnorm n0 + rnorm n * rnorm m1 + rnorm n * rnorm n2) by (rewrite <- rnorm_sq; rewrite TOT at 2; ring).
    pose proof (cs_equal n n0 eq_refl ltac:(lra)) as E0. pose proof (cs_equal n m1 eq_refl ltac:(lra)) as E1. pose proof (cs_equal n n2 eq_refl ltac:(lra)) as E2.
    set (L := rnorm n) in *. set (l0 := rnorm n0) in *. set (l1 := rnorm m1) in *. set (l2 := rnorm n2) in *.
    assert (P0 : 0 <= l0) by apply rnorm_nonneg. assert (P1 : 0 <= l1) by apply rnorm_nonneg. assert (P2 : 0 <= l2) by apply rnorm_nonneg.
    split; [reflexivity|]. exists [l0 / L; l1 / L; l2 / L]. split; [reflexivity|]. cbn [total]. split; [rewrite TOT; field; lra|]. split; [assert (0 < / L) by (apply Rinv_0_lt_compat; exact NN); fall ltac:(apply Rmult_le_pos; lra)|].
    pose proof (E0 0%nat) as E00. pose proof (E0 1%nat) as E01. pose proof (E0 2%nat) as E02. pose proof (E1 0%nat) as E10. pose proof (E1 1%nat) as E11. pose proof (E1 2%nat) as E12. pose proof (E2 0%nat) as E20. pose proof (E2 1%nat) as E21. pose proof (E2 2%nat) as E22. clear E0 E1 E2.
    destruct (planar (ax - x0) (ay - x1) (az - x2) (bx - x0) (by_ - x1) (bz - x2) (cx - x0) (cy - x1) (cz - x2) (nth 0 n 0) (nth 1 n 0) (nth 2 n 0) L l0 l1 l2 NN TOT) as [F0 [F1 F2]];
      [unfold L; rewrite rnorm_sq; unfold n; cbn; ring|rewrite E00; unfold n0; cbn; ring|rewrite E01; unfold n0; cbn; ring|rewrite E02; unfold n0; cbn; ring|rewrite E10; unfold m1, n1; cbn; ring|rewrite E11; unfold m1, n1; cbn; ring|rewrite E12; unfold m1, n1; cbn; ring|rewrite E20; unfold n2; cbn; ring|rewrite E21; unfold n2; cbn; ring|rewrite E22; unfold n2; cbn; ring|].
    assert (LZ : L <> 0) by lra. intros [|[|[|i]]] Hi; [| | |lia]; cbn [nth weighted]; apply (Rmult_eq_reg_r L); try exact LZ; field_simplify; try exact LZ; rewrite TOT; lra.
  - intros [_ [w [LW [TW [PW H]]]]]. destruct w as [|w0 [|w1 [|w2 [|]]]]; try discriminate LW. cbn in TW. apply Forall3 in PW. destruct PW as [P0 [P1 P2]]. pose proof (H 0%nat ltac:(lia)) as H0. pose proof (H 1%nat ltac:(lia)) as H1. pose proof (H 2%nat ltac:(lia)) as H2. cbn in H0, H1, H2. replace w0 with (1 - w1 - w2) in * by lra.
    assert (S0 : n0 = rscale (1 - w1 - w2) n) by (unfold n0, n, rcross; cbn; rewrite H0, H1, H2; apply (f_equal2 cons); [ring|apply (f_equal2 cons); [ring|apply (f_equal2 cons); [ring|reflexivity]]]). assert (S2 : n2 = rscale w2 n) by (unfold n2, n, rcross; cbn; rewrite H0, H1, H2; apply (f_equal2 cons); [ring|apply (f_equal2 cons); [ring|apply (f_equal2 cons); [ring|reflexivity]]]). assert (S1 : rnorm n1 = rnorm (rscale w1 n)) by (unfold rnorm; f_equal; unfold n1, n; cbn; rewrite H0, H1, H2; ring).
    rewrite S1, S0, S2, !rnorm_scale by lra. field.
Qed.

Definition det4e a1 a2 a3 b1 b2 b3 c1 c2 c3 d1 d2 d3 : R :=
  let u1 := b1 - a1 in let u2 := b2 - a2 in let u3 := b3 - a3 in let v1 := c1 - a1 in let v2 := c2 - a2 in let v3 := c3 - a3 in let w1 := d1 - a1 in let w2 := d2 - a2 in let w3 := d3 - a3 in
  u1 * (v2 * w3 - v3 * w2) - u2 * (v1 * w3 - v3 * w1) + u3 * (v1 * w2 - v2 * w1).
Lemma det4_ones a1 a2 a3 b1 b2 b3 c1 c2 c3 d1 d2 d3 : det 4 [[a1; a2; a3; 1]; [b1; b2; b3; 1]; [c1; c2; c3; 1]; [d1; d2; d3; 1]] = - det4e a1 a2 a3 b1 b2 b3 c1 c2 c3 d1 d2 d3.
Proof. cbn. unfold det4e, at_. cbn. ring. Qed.
Lemma exact_3_3 cell x : is_cell 4 3 cell -> nondegenerate 3 cell -> length x = 3%nat -> exact_at 3 x cell.
Proof.
  intros IC N LX. apply cell_4_3 in IC. destruct IC as [ax [ay [az [bx [by_ [bz [cx [cy [cz [dx [dy [dz ->]]]]]]]]]]]]. destruct x as [|x0 [|x1 [|x2 [|]]]]; try discriminate LX. pose proof (nondeg_3_3 _ _ _ _ _ _ _ _ _ _ _ _ N) as D. cbv zeta in D.
  unfold exact_at. eexists. split; [reflexivity|]. split; [apply Rabs_pos|]. rewrite Rabs_zero_iff. cbn [map nth app lsum fold_right]. rewrite !det4_ones, !Rabs_div_pos, !Rabs_Ropp by lra.
  set (s := det4e ax ay az bx by_ bz cx cy cz dx dy dz). set (s0 := det4e x0 x1 x2 bx by_ bz cx cy cz dx dy dz). set (s1 := det4e x0 x1 x2 ax ay az cx cy cz dx dy dz). set (s2 := det4e x0 x1 x2 ax ay az bx by_ bz dx dy dz). set (s3 := det4e x0 x1 x2 ax ay az bx by_ bz cx cy cz).
  assert (DS : s <> 0) by exact D. assert (E : s = s0 + - s1 + s2 + - s3) by (unfold s, s0, s1, s2, s3, det4e; ring). split.
  - intros H. destruct (abs_parts4 s0 (- s1) s2 (- s3) s E DS) as [P0 [P1 [P2 P3]]]; [rewrite !Rabs_Ropp; lra|]. split; [reflexivity|]. exists [s0 / s; - s1 / s; s2 / s; - s3 / s]. split; [reflexivity|]. cbn [total]. split; [rewrite E at 1 2 3 4; field; rewrite <- E; exact DS|]. split; [fall assumption|].
    intros [|[|[|i]]] Hi; [| | |lia]; cbn [nth weighted]; apply (Rmult_eq_reg_r s); try exact DS; field_simplify; try exact DS; unfold s, s0, s1, s2, s3, det4e; ring.
  - intros [_ [w [LW [TW [PW H]]]]]. destruct w as [|w0 [|w1 [|w2 [|w3 [|]]]]]; try discriminate LW. cbn in TW. apply Forall4 in PW. destruct PW as [P0 [P1 [P2 P3]]]. pose proof (H 0%nat ltac:(lia)) as H0. pose proof (H 1%nat ltac:(lia)) as H1. pose proof (H 2%nat ltac:(lia)) as H2. cbn in H0, H1, H2. replace w0 with (1 - w1 - w2 - w3) in * by lra.
    assert (S0 : s0 = (1 - w1 - w2 - w3) * s) by (unfold s0, s, det4e; rewrite H0, H1, H2; ring). assert (S1 : s1 = - (w1 * s)) by (unfold s1, s, det4e; rewrite H0, H1, H2; ring). assert (S2 : s2 = w2 * s) by (unfold s2, s, det4e; rewrite H0, H1, H2; ring). assert (S3 : s3 = - (w3 * s)) by (unfold s3, s, det4e; rewrite H0, H1, H2; ring).
    rewrite S0, S1, S2, S3, !Rabs_Ropp, !Rabs_mult, (Rabs_right (1 - w1 - w2 - w3)), (Rabs_right w1), (Rabs_right w2), (Rabs_right w3) by lra. field.
Qed.

(** ** Intersections *)
Lemma within_true tol xi : within tol xi = true <-> - tol < xi < 1 + tol.
Proof. unfold within. destruct (Rlt_dec (0 - tol) xi); destruct (Rlt_dec xi (1 + tol)); cbn; split; intros H; try discriminate; try lra; reflexivity. Qed.
Lemma within_iff tol xi (b : bool) : ((- tol < xi < 1 + tol) <-> b = true) -> within tol xi = b.
Proof. rewrite <- within_true. destruct (within tol xi), b; intuition congruence. Qed.
Lemma eps_le a b : (forall tol, 0 < tol -> a < b + tol) -> a <= b.
Proof. intros H. destruct (Rle_lt_dec a b) as [|L]; [assumption|]. specialize (H (a - b) ltac:(lra)). lra. Qed.
Section Cross.
Variable solve : list (list R) -> list R -> res (list R).
Hypothesis SV : solves_exactly solve.
Lemma solve2 a b c d e f : (a * d - b * c = 0 -> solve [[a; b]; [c; d]] [e; f] = Err LinAlgError) /\
  (a * d - b * c <> 0 -> exists y0 y1, solve [[a; b]; [c; d]] [e; f] = Ok [y0; y1] /\ a * y0 + b * y1 = e /\ c * y0 + d * y1 = f).
Proof.
  destruct (SV 2%nat [[a; b]; [c; d]] [e; f]) as [S1 S2]; [auto|split; [reflexivity|fall reflexivity]|reflexivity|]. rewrite det2 in S1, S2. split; [exact S1|]. intros D. destruct (S2 D) as [x [E [L H]]]. destruct x as [|y0 [|y1 [|]]]; try discriminate L. exists y0, y1. cbn in H. injection H as H1 H2. split; [exact E|split; lra].
Qed.
Lemma solve3 a b c d e f g h i x y z : (a * (e * i - f * h) - b * (d * i - f * g) + c * (d * h - e * g) = 0 -> solve [[a; b; c]; [d; e; f]; [g; h; i]] [x; y; z] = Err LinAlgError) /\
  (a * (e * i - f * h) - b * (d * i - f * g) + c * (d * h - e * g) <> 0 -> exists y0 y1 y2, solve [[a; b; c]; [d; e; f]; [g; h; i]] [x; y; z] = Ok [y0; y1; y2] /\ a * y0 + b * y1 + c * y2 = x /\ d * y0 + e * y1 + f * y2 = y /\ g * y0 + h * y1 + i * y2 = z).
Proof.
  destruct (SV 3%nat [[a; b; c]; [d; e; f]; [g; h; i]] [x; y; z]) as [S1 S2]; [auto|split; [reflexivity|fall reflexivity]|reflexivity|]. rewrite det3 in S1, S2. split; [exact S1|]. intros D. destruct (S2 D) as [w [E [L H]]]. destruct w as [|y0 [|y1 [|y2 [|]]]]; try discriminate L. exists y0, y1, y2. cbn in H. injection H as H1 H2 H3. split; [exact E|split; [|split]; lra].
Qed.
End Cross.
