(** The strip of the harmonic extension: what its cells and facets are *)
From Coq Require Import Reals Lra Lia.
From Verif Require Import StripModel.
Local Open Scope R_scope.

(** Independent vocabulary: a point of a triangle has barycentric weights; the triangle meets a vertical line when
    one of its points has that first coordinate *)
Definition meets_line (nx : nat) (c : gcell) (x : R) : Prop :=
  exists w : list R, length w = length (cell_vertices c) /\ Forall (fun a => 0 <= a) w /\ fold_right Rplus 0 w = 1 /\
    fold_right Rplus 0 (map (fun p => fst p * (INR (fst (snd p)) / INR nx)) (combine w (cell_vertices c))) = x.
(** A facet lies on a vertical line *)
Definition on_line (nx : nat) (f : gfacet) (x : R) : Prop := forall v, In v (facet_vertices f) -> INR (fst v) / INR nx = x.
(** A facet lies on the bottom or on the top *)
Definition on_ends (ny : nat) (f : gfacet) : Prop :=
  (forall v, In v (facet_vertices f) -> snd v = 0%nat) \/ (forall v, In v (facet_vertices f) -> snd v = ny).

Section S.
Variables (k ny : nat) (tol : R).
Let nx : nat := (2 * k + 1)%nat.
Hypothesis Htol : 0 < tol <= / INR nx.

Lemma nx_pos : 0 < INR nx.
Proof. apply lt_0_INR; unfold nx; lia. Qed.
Lemma nx_val : INR nx = 2 * INR k + 1.
Proof. unfold nx; rewrite plus_INR, mult_INR; simpl; lra. Qed.
Lemma A_val : line_A nx = INR k / INR nx.
Proof. unfold line_A; rewrite nx_val; f_equal; lra. Qed.
Lemma B_val : line_B nx = INR (S k) / INR nx.
Proof. unfold line_B; rewrite nx_val, S_INR; f_equal; lra. Qed.
Lemma grid_step : forall a b, (b < a)%nat -> INR b / INR nx <= INR a / INR nx - / INR nx.
Proof.
  intros a b H. pose proof nx_pos as P.
  assert (E : INR a / INR nx - / INR nx - INR b / INR nx = (INR a - INR b - 1) * / INR nx) by (field; lra).
  assert (Q : 0 < / INR nx) by (apply Rinv_0_lt_compat; lra).
  assert (INR b + 1 <= INR a) by (rewrite <- S_INR; apply le_INR; lia).
  assert (0 <= (INR a - INR b - 1) * / INR nx) by (apply Rmult_le_pos; lra). lra.
Qed.
Lemma grid_mono : forall a b, (a <= b)%nat -> INR a / INR nx <= INR b / INR nx.
Proof.
  intros a b H. pose proof nx_pos as P. unfold Rdiv. apply Rmult_le_compat_r; [left; apply Rinv_0_lt_compat; lra|apply le_INR; lia].
Qed.
Lemma above : forall a b, INR a / INR nx - tol < INR b / INR nx <-> (a <= b)%nat.
Proof.
  intros a b; split; intros H.
  - destruct (le_lt_dec a b) as [L|L]; [exact L|]. pose proof (grid_step _ _ L). lra.
  - pose proof (grid_mono _ _ H). lra.
Qed.
Lemma below : forall a b, INR b / INR nx < INR a / INR nx + tol <-> (b <= a)%nat.
Proof.
  intros a b; split; intros H.
  - destruct (le_lt_dec b a) as [L|L]; [exact L|]. pose proof (grid_step _ _ L). lra.
  - pose proof (grid_mono _ _ H). lra.
Qed.
Lemma between_iff : forall x, between nx tol x = true <-> line_A nx - tol < x < line_B nx + tol.
Proof. intros x; unfold between; destruct (Rlt_dec (line_A nx - tol) x); [destruct (Rlt_dec x (line_B nx + tol))|]; split; intros; try easy; lra. Qed.
Lemma near_iff : forall a x, near tol a x = true <-> a - tol < x < a + tol.
Proof. intros a x; unfold near; destruct (Rlt_dec (a - tol) x); [destruct (Rlt_dec x (a + tol))|]; split; intros; try easy; lra. Qed.

(** A condition that cuts an interval is decided by the vertices *)
Lemma tested_interval : forall (p : R -> bool) lo hi vs, (forall x, p x = true <-> lo < x < hi) -> vs <> [] ->
  (tested nx p vs = true <-> forall v, In v vs -> lo < INR (fst v) / INR nx < hi).
Proof.
  intros p lo hi vs Hp N. unfold tested. rewrite andb_true_iff, forallb_forall. split.
  - intros [H _] v I. apply Hp, H. apply (in_map (coord nx)) in I. exact I.
  - intros H. split.
    + intros x I. apply in_map_iff in I. destruct I as (v & <- & I). apply Hp, H, I.
    + apply Hp. unfold mid.
      assert (G : forall l, (forall v, In v l -> lo < INR (fst v) / INR nx < hi) -> l <> [] ->
        INR (length l) * lo < fold_right Rplus 0 (map (coord nx) l) < INR (length l) * hi).
      { induction l as [|v l IH]; intros F NE; [easy|]. destruct l as [|u l].
        - pose proof (F v (or_introl eq_refl)). unfold coord; simpl in *; lra.
        - assert (IH' := IH (fun w I => F w (or_intror I)) ltac:(easy)).
          pose proof (F v (or_introl eq_refl)) as Fv.
          change (length (v :: u :: l)) with (S (length (u :: l))). rewrite S_INR.
          change (map (coord nx) (v :: u :: l)) with (coord nx v :: map (coord nx) (u :: l)).
          cbn [fold_right]. unfold coord at 1 3. cbn [fold_right] in IH'. lra. }
      specialize (G vs H N).
      assert (P : 0 < INR (length vs)) by (apply lt_0_INR; destruct vs; [easy|simpl; lia]).
      split.
      * apply Rmult_lt_reg_l with (INR (length vs)); [exact P|]. unfold Rdiv. rewrite (Rmult_comm _ (/ _)), <- Rmult_assoc, Rinv_r by lra. lra.
      * apply Rmult_lt_reg_l with (INR (length vs)); [exact P|]. unfold Rdiv. rewrite (Rmult_comm _ (/ _)), <- Rmult_assoc, Rinv_r by lra. lra.
Qed.

Definition column (c : gcell) : nat := match c with Lower i _ | Upper i _ => i end.
Lemma cell_f_iff : forall c, cell_f nx tol c = true <-> column c = k.
Proof.
  intros c. unfold cell_f. rewrite (tested_interval _ _ _ _ between_iff) by (destruct c; easy).
  rewrite A_val, B_val. split.
  - intros H.
    assert (H1 : In (column c, match c with Lower _ j | Upper _ j => j end) (cell_vertices c)) by (destruct c; simpl; auto).
    assert (H2 : In (S (column c), S match c with Lower _ j | Upper _ j => j end) (cell_vertices c)) by (destruct c; simpl; auto).
    apply H in H1; apply H in H2. destruct H1 as [H1 _], H2 as [_ H2].
    apply above in H1. apply below in H2. simpl in *. lia.
  - intros E v I. rewrite above, below. destruct c; simpl in E; subst; simpl in I; intuition; subst; simpl; lia.
Qed.
Lemma line_iff : forall a f, tested nx (near tol (INR a / INR nx)) (facet_vertices f) = true <-> exists j, f = Ver a j.
Proof.
  intros a f. rewrite (tested_interval _ _ _ _ (near_iff _)) by (destruct f; easy). split.
  - intros H. assert (G : forall v, In v (facet_vertices f) -> fst v = a).
    { intros v I. apply H in I. destruct I as [I1 I2]. apply above in I1. apply below in I2. lia. }
    destruct f as [i j|i j|i j]; simpl in G.
    + pose proof (G _ (or_introl eq_refl)); pose proof (G _ (or_intror (or_introl eq_refl))); simpl in *; lia.
    + pose proof (G _ (or_introl eq_refl)) as E; simpl in E; subst; eauto.
    + pose proof (G _ (or_introl eq_refl)); pose proof (G _ (or_intror (or_introl eq_refl))); simpl in *; lia.
  - intros (j & ->) v I. rewrite above, below. simpl in I; intuition; subst; simpl; lia.
Qed.
Lemma grid_inj : forall a b, INR a / INR nx = INR b / INR nx -> a = b.
Proof.
  intros a b E. pose proof (proj1 (above a b)) as H1. pose proof (proj1 (above b a)) as H2.
  assert (a <= b)%nat by (apply H1; lra). assert (b <= a)%nat by (apply H2; lra). lia.
Qed.
Lemma on_line_iff : forall a f, on_line nx f (INR a / INR nx) <-> exists j, f = Ver a j.
Proof.
  intros a f; split.
  - intros H. assert (G : forall v, In v (facet_vertices f) -> fst v = a) by (intros v I; apply grid_inj, H, I).
    destruct f as [i j|i j|i j]; simpl in G.
    + pose proof (G _ (or_introl eq_refl)); pose proof (G _ (or_intror (or_introl eq_refl))); simpl in *; lia.
    + pose proof (G _ (or_introl eq_refl)) as E; simpl in E; subst; eauto.
    + pose proof (G _ (or_introl eq_refl)); pose proof (G _ (or_intror (or_introl eq_refl))); simpl in *; lia.
  - intros (j & ->) v I; simpl in I; intuition; subst; reflexivity.
Qed.
Lemma left_iff : forall f, tested nx (left nx tol) (facet_vertices f) = true <-> exists j, f = Ver k j.
Proof. intros f. rewrite <- line_iff. unfold left. rewrite A_val. reflexivity. Qed.
Lemma right_iff : forall f, tested nx (right nx tol) (facet_vertices f) = true <-> exists j, f = Ver (S k) j.
Proof. intros f. rewrite <- line_iff. unfold right. rewrite B_val. reflexivity. Qed.

(** The triangle of column i covers the first coordinates from i/nx to (i+1)/nx *)
Lemma meets_iff : forall c, meets_line nx c (1 / 2) <-> column c = k.
Proof.
  intros c. pose proof nx_pos as P. pose proof nx_val as V.
  assert (H2 : 1 / 2 = INR k / INR nx + / 2 * / INR nx) by (rewrite V; field; rewrite <- V; lra).
  assert (Q : 0 < / INR nx) by (apply Rinv_0_lt_compat; lra).
  assert (ST : forall i, INR (S i) / INR nx = INR i / INR nx + / INR nx) by (intros i; rewrite S_INR; field; lra).
  split.
  - intros (w & L & F & S1 & E).
    assert (G : INR (column c) / INR nx <= 1 / 2 <= INR (S (column c)) / INR nx).
    { rewrite ST. destruct c as [i j|i j]; simpl in L; destruct w as [|a [|b [|d [|? ?]]]]; try discriminate L;
      inversion F as [|? ? Fa F1]; inversion F1 as [|? ? Fb F2]; inversion F2 as [|? ? Fd F3]; subst;
      cbn [fold_right map combine cell_vertices fst snd column] in *; rewrite ?ST in E; set (g := INR i / INR nx) in *; set (h := / INR nx) in *;
      assert (a = 1 - b - d) by lra; subst a; split; nra. }
    destruct (lt_eq_lt_dec (column c) k) as [[L1|L1]|L1]; [|exact L1|].
    + pose proof (grid_mono (S (column c)) k L1). lra.
    + pose proof (grid_mono (S k) (column c) L1) as M. rewrite ST in M. lra.
  - intros E. exists [/ 2; 0; / 2]. destruct c as [i j|i j]; simpl in E; subst i;
    (split; [reflexivity|split; [repeat constructor; lra|split; [simpl; lra|]]]);
    cbn [fold_right map combine cell_vertices fst snd]; rewrite ?ST; lra.
Qed.

Lemma in_mesh : forall c, In c (mesh_cells nx ny) <-> (column c < nx)%nat /\ (match c with Lower _ j | Upper _ j => j end < ny)%nat.
Proof.
  intros c. unfold mesh_cells. rewrite in_flat_map. split.
  - intros (i & I & H). apply in_flat_map in H. destruct H as (j & J & H). apply in_seq in I, J.
    simpl in H. destruct H as [<-|[<-|[]]]; simpl; lia.
  - intros [H1 H2]. exists (column c). rewrite in_seq. split; [lia|]. apply in_flat_map.
    exists (match c with Lower _ j | Upper _ j => j end). rewrite in_seq. split; [lia|]. destruct c; simpl; auto.
Qed.
Lemma gfacet_eqb_iff : forall f g, gfacet_eqb f g = true <-> f = g.
Proof.
  intros f g; destruct f, g; simpl; rewrite ?andb_true_iff, ?Nat.eqb_eq; split; intros H; try easy;
  try (destruct H as [-> ->]; reflexivity); inversion H; auto.
Qed.

(** The cells of the strip, in order *)
Definition strip_cells (n : nat) : list gcell := flat_map (fun j => [Lower k j; Upper k j]) (seq 0 n).
Lemma filter_flat_map : forall (A B : Type) (p : B -> bool) (g : A -> list B) l,
  filter p (flat_map g l) = flat_map (fun a => filter p (g a)) l.
Proof. intros A B p g l; induction l as [|a l IH]; simpl; [reflexivity|]. rewrite filter_app, IH. reflexivity. Qed.
Lemma flat_map_none : forall (A B : Type) (g : A -> list B) l, (forall a, In a l -> g a = []) -> flat_map g l = [].
Proof. intros A B g l; induction l as [|a l IH]; simpl; intros H; [reflexivity|]. rewrite (H a) by auto. simpl. apply IH; auto. Qed.
Lemma filter_column : forall i n, filter (cell_f nx tol) (flat_map (fun j => [Lower i j; Upper i j]) (seq 0 n)) =
  if (i =? k)%nat then strip_cells n else [].
Proof.
  intros i n. rewrite filter_flat_map. destruct (Nat.eqb_spec i k) as [->|N].
  - unfold strip_cells. apply flat_map_ext. intros j. simpl.
    rewrite (proj2 (cell_f_iff (Lower k j)) eq_refl), (proj2 (cell_f_iff (Upper k j)) eq_refl). reflexivity.
  - apply flat_map_none. intros j _. simpl.
    destruct (cell_f nx tol (Lower i j)) eqn:E1; [apply cell_f_iff in E1; simpl in E1; lia|].
    destruct (cell_f nx tol (Upper i j)) eqn:E2; [apply cell_f_iff in E2; simpl in E2; lia|]. reflexivity.
Qed.
Lemma aux_cells_eq : aux_cells nx ny tol = strip_cells ny.
Proof.
  unfold aux_cells, mesh_cells. rewrite filter_flat_map.
  rewrite (flat_map_ext _ (fun i => if (i =? k)%nat then strip_cells ny else [])) by (intros i; apply filter_column).
  replace nx with (k + (1 + k))%nat by (unfold nx; lia). rewrite seq_app, flat_map_app, Nat.add_0_l.
  rewrite (flat_map_none _ _ _ (seq 0 k)).
  2:{ intros a I. apply in_seq in I. destruct (Nat.eqb_spec a k); [lia|reflexivity]. }
  cbn [Nat.add seq flat_map app]. rewrite Nat.eqb_refl. rewrite flat_map_none, app_nil_r; [reflexivity|].
  intros a I. apply in_seq in I. destruct (Nat.eqb_spec a k); [lia|reflexivity].
Qed.

(** How many cells of the strip a facet has *)
Definition expected (n : nat) (f : gfacet) : nat :=
  (match f with
   | Hor i j => if i =? k then (if j <? n then 1 else 0) + (if (1 <=? j) && (j <=? n) then 1 else 0) else 0
   | Ver i j => if j <? n then (if i =? S k then 1 else 0) + (if i =? k then 1 else 0) else 0
   | Dia i j => if (i =? k) && (j <? n) then 2 else 0
   end)%nat.
Definition count_in (f : gfacet) (l : list gcell) : nat := length (filter (fun c => existsb (gfacet_eqb f) (cell_facets c)) l).
Lemma count_strip : forall f n, count_in f (strip_cells n) = expected n f.
Proof.
  intros f n; induction n as [|n IH].
  - destruct f as [i j|i j|i j]; simpl; destruct (i =? k)%nat; simpl; try reflexivity.
    destruct j; reflexivity.
  - unfold strip_cells. rewrite seq_S, flat_map_app. unfold count_in in *. rewrite filter_app, app_length.
    unfold strip_cells in IH. rewrite IH. clear IH. cbn [Nat.add flat_map app filter cell_facets existsb].
    destruct f as [i j|i j|i j]; unfold expected, gfacet_eqb; cbn [orb];
    repeat match goal with
    | |- context [(?a =? ?b)%nat] => destruct (Nat.eqb_spec a b)
    | |- context [(?a <? ?b)%nat] => destruct (Nat.ltb_spec a b)
    | |- context [(?a <=? ?b)%nat] => destruct (Nat.leb_spec a b)
    end; cbn [andb orb length Nat.add]; try lia.
Qed.
End S.
