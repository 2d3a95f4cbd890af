(** C84: MeasureFunction has at each dof the measure of the shape there *)
From Coq Require Import Lia Reals Lra.
From Verif Require Import Base BaseProofs FillModel FillProofs EmbedModel ShapeModel ShapeProofs MeasureModel MeasureProofs.
From Verif Require Import ShapeProofs ShapeProps.
Local Open Scope R_scope.

(** Dofs are in range, each is on a cell *)
Definition dofs_covered (dim : nat) (cells : list line_cell) : Prop :=
  (forall c d, In c cells -> In d (l_dofs c) -> (d < dim)%nat) /\ forall i, (i < dim)%nat -> exists c, In c cells /\ In i (l_dofs c).

(** Whatever the shape: the weights with the direction of the first cell that has the dof *)
Theorem C84_values : forall quadrature dim coordinates cells, dofs_covered dim cells ->
  (forall c x, In c cells -> exists q, quadrature x (vminus (l_v0 c) (l_v1 c)) = Ok q) ->
  exists values, MeasureFunction quadrature dim coordinates cells = Ok values /\ length values = dim /\
  forall i, (i < dim)%nat -> exists c v, first_with cells i c /\ measure_on quadrature coordinates c i v /\ nth_error values i = Some (Some v).
Proof. intros quadrature dim coordinates cells [H1 H2] Hq. apply measure_ok; auto. Qed.

Lemma first_in cells i c : first_with cells i c -> In c cells.
Proof. intros [b [a [-> _]]]. apply in_or_app. right. left. auto. Qed.
Lemma nonzero_of c : l_v0 c <> l_v1 c -> nonzero (vminus (l_v0 c) (l_v1 c)).
Proof.
  intros H. destruct c as [[a b c] [d e f] ds]. unfold nonzero, vminus. cbn [l_v0 l_v1 vx vy vz] in *.
  destruct (Req_dec (a - d) 0) as [Ha | Ha]; [| tauto]. destruct (Req_dec (b - e) 0) as [Hb | Hb]; [| tauto]. right. right. intros Hc.
  apply H. f_equal; lra.
Qed.
Lemma value_of quadrature dim coordinates cells (f : nat -> R) : dofs_covered dim cells ->
  (forall c x, In c cells -> exists q, quadrature x (vminus (l_v0 c) (l_v1 c)) = Ok q) ->
  (forall c i p w, In c cells -> In i (l_dofs c) -> quadrature (coordinates i) (vminus (l_v0 c) (l_v1 c)) = Ok (p, w) -> rlsum w = f i) ->
  MeasureFunction quadrature dim coordinates cells = Ok (map (fun i => Some (f i)) (seq 0 dim)).
Proof.
  intros Hd Hq Hf. destruct (C84_values quadrature dim coordinates cells Hd Hq) as [values [-> [Hl H]]]. f_equal.
  apply (nth_ext _ _ None None). { rewrite map_length, seq_length. auto. }
  intros i Hi. rewrite Hl in Hi. destruct (H i Hi) as [c [v [Hc [[p [w [E ->]]] Hn]]]].
  rewrite (nth_error_nth _ _ None Hn). rewrite (nth_indep _ None (Some (f 0%nat))) by (rewrite map_length, seq_length; auto).
  rewrite (map_nth (fun i => Some (f i))), seq_nth by auto. f_equal. apply (Hf c i p w); auto. { apply (first_in _ _ _ Hc). } destruct Hc as [b [a [_ [Hin _]]]]. exact Hin.
Qed.

(** Circles: the circumference, whichever cell is taken *)
Theorem C84_circle : forall radius gauss dim coordinates cells, dofs_covered dim cells -> Forall (fun c => l_v0 c <> l_v1 c) cells ->
  (forall x, 0 <= radius x) -> rlsum (map snd gauss) = 2 ->
  MeasureFunction (circle_quadrature radius gauss) dim coordinates cells = Ok (map (fun i => Some (2 * PI * radius (coordinates i))) (seq 0 dim)).
Proof.
  intros radius gauss dim coordinates cells Hd Hne Hr Hg. rewrite Forall_forall in Hne. apply value_of; auto.
  - intros c x Hc. destruct (C34_circle_partial radius gauss x _ (nonzero_of c (Hne c Hc)) (Hr x) Hg) as [p [w [E _]]]. eauto.
  - intros c i p w Hc _ E. destruct (C34_circle_partial radius gauss (coordinates i) _ (nonzero_of c (Hne c Hc)) (Hr _) Hg) as [p' [w' [E' [_ [_ [_ [_ Hw]]]]]]].
    rewrite E in E'. injection E' as <- <-. exact Hw.
Qed.
(** Disks, with any rule of the unit disk *)
Theorem C84_disk : forall radius rule dim coordinates cells, dofs_covered dim cells -> Forall (fun c => l_v0 c <> l_v1 c) cells ->
  (forall x, 0 <= radius x) -> rlsum (map snd rule) = PI ->
  MeasureFunction (disk_points radius rule) dim coordinates cells = Ok (map (fun i => Some (PI * radius (coordinates i) ^ 2)) (seq 0 dim)).
Proof.
  intros radius rule dim coordinates cells Hd Hne Hr Hg. rewrite Forall_forall in Hne. apply value_of; auto.
  - intros c x Hc. destruct (C34_disk_partial radius rule x _ (nonzero_of c (Hne c Hc)) (Hr x)) as [p [w [E _]]]. eauto.
  - intros c i p w Hc _ E. destruct (C34_disk_partial radius rule (coordinates i) _ (nonzero_of c (Hne c Hc)) (Hr _)) as [p' [w' [E' [_ Hw]]]].
    rewrite E in E'. injection E' as <- <-. rewrite Hw, Hg. ring.
Qed.
(** Squares whose corner is in the plane of each cell that has the dof, and their rims; the
    half diagonal is the distance of the corner from the dof *)
Definition corners_in_planes (P : v3 -> v3) (coordinates : nat -> v3) (cells : list line_cell) : Prop :=
  forall c i, In c cells -> In i (l_dofs c) -> in_plane (coordinates i) (vminus (l_v0 c) (l_v1 c)) (P (coordinates i)).
Lemma side_squared (d : R) : 0 <= d -> (sqrt 2 * d) ^ 2 = 2 * d ^ 2.
Proof. intros H. rewrite Rpow_mult_distr. rewrite pow2_sqrt by lra. ring. Qed.
Lemma square_values quadrature dim coordinates cells (f : nat -> R) : dofs_covered dim cells ->
  (forall c i, In c cells -> In i (l_dofs c) -> exists p w, quadrature (coordinates i) (vminus (l_v0 c) (l_v1 c)) = Ok (p, w) /\ rlsum w = f i) ->
  MeasureFunction quadrature dim coordinates cells = Ok (map (fun i => Some (f i)) (seq 0 dim)).
Proof.
  intros Hd Hf.
  (* points that are no dofs are not asked for: compare with a quadrature that answers there *)
  set (total := fun x n => match quadrature x n with Ok q => Ok q | Err _ => Ok ([], []) end : res (list v3 * list R)).
  assert (Ht : MeasureFunction total dim coordinates cells = Ok (map (fun i => Some (f i)) (seq 0 dim))).
  { apply value_of; auto.
    - intros c x _. unfold total. destruct (quadrature x _); eauto.
    - intros c i p w Hc Hi E. destruct (Hf c i Hc Hi) as [p' [w' [E' Hw]]]. unfold total in E. rewrite E' in E. injection E as <- <-. exact Hw. }
  rewrite <- Ht. unfold MeasureFunction.
  assert (G : forall cs st, incl cs cells -> foldM (measure_cell quadrature coordinates) cs st = foldM (measure_cell total coordinates) cs st).
  { induction cs as [| c cs IH]; intros st Hi; [reflexivity |]. cbn [foldM].
    assert (E : measure_cell quadrature coordinates st c = measure_cell total coordinates st c).
    { unfold measure_cell. assert (Hc : In c cells) by (apply Hi; left; auto). assert (Hin : incl (l_dofs c) (l_dofs c)) by (intros z Hz; auto).
      revert st Hin. generalize (l_dofs c) at 1 3 4. intros ds. induction ds as [| d ds IHd]; intros st Hin; [reflexivity |]. cbn [foldM].
      assert (E : measure_dof quadrature coordinates (vminus (l_v0 c) (l_v1 c)) st d = measure_dof total coordinates (vminus (l_v0 c) (l_v1 c)) st d).
      { unfold measure_dof. destruct (Hf c d Hc (Hin d (or_introl eq_refl))) as [p [w [E _]]]. unfold total. rewrite E. reflexivity. }
      rewrite E. destruct (measure_dof total coordinates _ st d) as [st' | e]; cbn [bind]; [| reflexivity]. apply IHd. intros z Hz. apply Hin. right. auto. }
    rewrite E. destruct (measure_cell total coordinates st c) as [st' | e]; cbn [bind]; [| reflexivity]. apply IH. intros z Hz. apply Hi. right. auto. }
  rewrite G by (intros z Hz; exact Hz). reflexivity.
Qed.
Theorem C84_square : forall P gauss dim coordinates cells, dofs_covered dim cells -> Forall (fun c => l_v0 c <> l_v1 c) cells ->
  corners_in_planes P coordinates cells -> on_interval gauss ->
  MeasureFunction (square_quadrature P gauss) dim coordinates cells = Ok (map (fun i => Some (2 * dist (P (coordinates i)) (coordinates i) ^ 2)) (seq 0 dim)).
Proof.
  intros P gauss dim coordinates cells Hd Hne HP Hg. rewrite Forall_forall in Hne. apply square_values; auto. intros c i Hc Hi.
  destruct (C34_square P gauss (coordinates i) _ (nonzero_of c (Hne c Hc)) (HP c i Hc Hi) Hg) as [p [w [A [B [C [E [[_ [Hs _]] [_ [_ [_ Hw]]]]]]]]]].
  exists p, w. split; auto. rewrite Hw, Hs. apply side_squared. unfold dist. apply sqrt_pos.
Qed.
Theorem C84_rim : forall P gauss dim coordinates cells, dofs_covered dim cells -> Forall (fun c => l_v0 c <> l_v1 c) cells ->
  corners_in_planes P coordinates cells -> on_interval gauss ->
  MeasureFunction (rim_quadrature P gauss) dim coordinates cells = Ok (map (fun i => Some (4 * (sqrt 2 * dist (P (coordinates i)) (coordinates i)))) (seq 0 dim)).
Proof.
  intros P gauss dim coordinates cells Hd Hne HP Hg. rewrite Forall_forall in Hne. apply square_values; auto. intros c i Hc Hi.
  destruct (C34_square_rim P gauss (coordinates i) _ (nonzero_of c (Hne c Hc)) (HP c i Hc Hi) Hg) as [p [w [A [B [C [E [[_ [Hs _]] [_ [_ [_ Hw]]]]]]]]]].
  exists p, w. split; auto. rewrite Hw, Hs. reflexivity.
Qed.

(** A dof on no cell is refused, as is a cell of length zero *)
Theorem C84_uncovered : forall radius gauss dim coordinates cells i values, (i < dim)%nat -> (forall c, In c cells -> ~ In i (l_dofs c)) ->
  MeasureFunction (circle_quadrature radius gauss) dim coordinates cells <> Ok values.
Proof.
  intros radius gauss dim coordinates cells i values Hi Hno. unfold MeasureFunction. set (Q := circle_quadrature radius gauss). clearbody Q.
  assert (K : forall n ds st st', ~ In i ds -> foldM (measure_dof Q coordinates n) ds st = Ok st' -> nth_error (fst st') i = nth_error (fst st) i).
  { intros n. induction ds as [| d ds IH]; intros st st' Hn E; cbn [foldM] in E; [injection E as <-; reflexivity |].
    unfold measure_dof at 1 in E. destruct (nth_error (fst st) d) as [[|] |]; cbn [opt_res bind] in E; try discriminate.
    - apply (IH _ _ (fun H => Hn (or_intror H)) E).
    - destruct (Q (coordinates d) n) as [q |]; cbn [bind] in E; [| discriminate]. rewrite (IH _ _ (fun H => Hn (or_intror H)) E). cbn [fst].
      assert (Hne : i <> d) by (intros ->; apply Hn; left; auto). clear - Hne. generalize dependent (fst st). intros l. revert i d Hne. induction l as [| a l IH]; intros [| i] [| d] Hne; cbn; auto; try congruence. }
  assert (K' : forall cs st st', (forall c, In c cs -> ~ In i (l_dofs c)) -> foldM (measure_cell Q coordinates) cs st = Ok st' -> nth_error (fst st') i = nth_error (fst st) i).
  { induction cs as [| c cs IH]; intros st st' Hn E; cbn [foldM] in E; [injection E as <-; reflexivity |].
    destruct (measure_cell Q coordinates st c) as [st1 |] eqn:E1; cbn [bind] in E; [| discriminate].
    rewrite (IH _ _ (fun c' H => Hn c' (or_intror H)) E). apply (K _ _ _ _ (Hn c (or_introl eq_refl)) E1). }
  destruct (foldM (measure_cell Q coordinates) cells _) as [st |] eqn:E; cbn [bind]; [| discriminate]. apply K' in E; auto. cbn [fst] in E.
  rewrite (nth_error_nth' (repeat false dim) false) in E by (rewrite repeat_length; auto). rewrite nth_repeat in E.
  destruct (forallb (fun b => b) (fst st)) eqn:F; [| discriminate]. rewrite forallb_forall in F. apply nth_error_In in E. specialize (F _ E). discriminate.
Qed.
Theorem C84_degenerate : forall radius g gauss dim coordinates cells v d ds, (d < dim)%nat ->
  MeasureFunction (circle_quadrature radius (g :: gauss)) dim coordinates (LineCell v v (d :: ds) :: cells) = Err AssertionError.
Proof.
  intros radius g gauss dim coordinates cells v d ds Hd. unfold MeasureFunction. cbn [foldM]. unfold measure_cell at 1. cbn [l_v0 l_v1 l_dofs foldM].
  unfold measure_dof at 1. cbn [fst]. rewrite (nth_error_nth' _ false) by (rewrite repeat_length; auto). rewrite nth_repeat. cbn [opt_res bind].
  replace (vminus v v) with (V3 0 0 0) by (unfold vminus; f_equal; ring). rewrite C34_zero_normal. reflexivity.
Qed.

(** Two cells with a corner, three dofs; radius 1 + z *)
Definition corner : list line_cell := [LineCell (V3 0 0 0) (V3 1 0 0) [0; 1]%nat; LineCell (V3 1 0 1) (V3 1 0 0) [2; 1]%nat].
Definition corner_x (i : nat) : v3 := match i with O => V3 0 0 0 | 1%nat => V3 1 0 0 | _ => V3 1 0 1 end.
Example case_corner : MeasureFunction (circle_quadrature (fun x => Rabs (1 + vz x)) [(0, 2)]) 3 corner_x corner =
  Ok [Some (2 * PI * Rabs (1 + 0)); Some (2 * PI * Rabs (1 + 0)); Some (2 * PI * Rabs (1 + 1))].
Proof.
  rewrite C84_circle; [reflexivity | | | |].
  - split.
    + intros c d [<- | [<- | []]] [<- | [<- | []]]; lia.
    + intros [| [| [| i]]] Hi; [exists (LineCell (V3 0 0 0) (V3 1 0 0) [0; 1]%nat) | exists (LineCell (V3 0 0 0) (V3 1 0 0) [0; 1]%nat) | exists (LineCell (V3 1 0 1) (V3 1 0 0) [2; 1]%nat) | lia]; cbn; auto.
  - repeat constructor; cbn; intros E; injection E; lra.
  - intros x. apply Rabs_pos.
  - cbn. ring.
Qed.

Print Assumptions C84_values.
Print Assumptions C84_circle.
Print Assumptions C84_disk.
Print Assumptions C84_square.
Print Assumptions C84_rim.
Print Assumptions C84_uncovered.
Print Assumptions C84_degenerate.
