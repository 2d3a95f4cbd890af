(** Specification vocabulary and proofs for SpaceOpModel.v *)
From Coq Require Import Lia.
From Verif Require Import Base BaseProofs Mat MatProofs FillModel FillProofs EmbedModel SpaceOpModel.
Local Open Scope nat_scope.

(** The i-th unit vector *)
Definition unit_vec (n i : nat) : vec := map (fun j => if j =? i then q1 else q0) (seq 0 n).
(** A linear map from vectors of length [n] to vectors of length [m] *)
Definition linear_map (n m : nat) (f : vec -> vec) : Prop :=
  (forall x, length x = n -> length (f x) = m) /\
  (forall x y z, length x = n -> length y = n -> length z = n -> (forall i, i < n -> vnth z i = (vnth x i + vnth y i)%Qc) -> forall k, k < m -> vnth (f z) k = (vnth (f x) k + vnth (f y) k)%Qc) /\
  (forall a x z, length x = n -> length z = n -> (forall i, i < n -> vnth z i = (a * vnth x i)%Qc) -> forall k, k < m -> vnth (f z) k = (a * vnth (f x) k)%Qc).

Lemma unit_length n i : length (unit_vec n i) = n.
Proof. unfold unit_vec. rewrite map_length, seq_length. reflexivity. Qed.
Lemma vnth_map n (f : nat -> Qc) i : i < n -> vnth (map f (seq 0 n)) i = f i.
Proof. apply vnth_vtab. Qed.
Lemma unit_nth n i j : j < n -> vnth (unit_vec n i) j = if j =? i then q1 else q0.
Proof. intros H. unfold unit_vec. rewrite vnth_map by auto. reflexivity. Qed.

(** A linear map is the combination of the images of unit vectors *)
Lemma linear_sum n m f x : linear_map n m f -> length x = n -> forall k, k < m -> vnth (f x) k = sumn n (fun j => (vnth (f (unit_vec n j)) k * vnth x j)%Qc).
Proof.
  intros [Hl [Ha Hs]] Hx k Hk.
  assert (K : forall p, p <= n -> vnth (f (vtab n (fun i => if i <? p then vnth x i else q0))) k = sumn p (fun j => (vnth (f (unit_vec n j)) k * vnth x j)%Qc)).
  { induction p as [| p IH]; intros Hp; cbn [sumn].
    - rewrite (Hs q0 x (vtab n (fun i => if i <? 0 then vnth x i else q0))); auto using vtab_length.
      + unfold q0. ring.
      + intros i Hi. rewrite vnth_vtab by auto. cbn. unfold q0. ring.
    - rewrite <- IH by lia.
      rewrite (Ha (vtab n (fun i => if i <? p then vnth x i else q0)) (vtab n (fun i => (vnth x p * vnth (unit_vec n p) i)%Qc)) (vtab n (fun i => if i <? S p then vnth x i else q0))); auto using vtab_length.
      + f_equal. rewrite (Hs (vnth x p) (unit_vec n p) (vtab n (fun i => (vnth x p * vnth (unit_vec n p) i)%Qc))); auto using vtab_length, unit_length; [ring |].
        intros i Hi. rewrite vnth_vtab by auto. reflexivity.
      + intros i Hi. rewrite !vnth_vtab, unit_nth by auto. destruct (Nat.ltb_spec i p), (Nat.ltb_spec i (S p)), (Nat.eqb_spec i p); try lia; subst; unfold q0, q1; ring. }
  rewrite <- (K n) by lia. f_equal. f_equal. apply vec_ext; [rewrite vtab_length; auto |]. intros i Hi. rewrite vnth_vtab by lia. destruct (Nat.ltb_spec i n); [reflexivity | lia].
Qed.

(** What the i-th column is computed from: entries before [i] were reset *)
Definition asked (pool : vec) (i : nat) : vec := map (fun j => if j =? i then q1 else if j <? i then q0 else vnth pool j) (seq 0 (length pool)).

Lemma columns_ok op pool f : (forall x, length x = length pool -> so_matvec op x = Ok (f x)) -> forall k i columns, i + k <= length pool ->
  foldM (collapse_column op) (seq i k) (map (fun j => if j <? i then q0 else vnth pool j) (seq 0 (length pool)), columns) =
  Ok (map (fun j => if j <? i + k then q0 else vnth pool j) (seq 0 (length pool)), columns ++ map (fun j => f (asked pool j)) (seq i k)).
Proof.
  intros Hf. induction k as [| k IH]; intros i columns Hi; cbn [seq foldM map].
  - rewrite Nat.add_0_r, app_nil_r. reflexivity.
  - unfold collapse_column at 1. set (n := length pool) in *.
    assert (E1 : set_nth (map (fun j => if j <? i then q0 else vnth pool j) (seq 0 n)) i q1 = asked pool i).
    { apply vec_ext. { rewrite set_nth_length, map_length, seq_length. unfold asked. rewrite map_length, seq_length. reflexivity. }
      intros j Hj. rewrite set_nth_length, map_length, seq_length in Hj. unfold asked. rewrite vnth_map by auto. unfold vnth at 1. rewrite nth_set_nth, map_length, seq_length.
      destruct (Nat.ltb_spec i n); [| lia]. rewrite andb_true_r. destruct (Nat.eqb_spec j i); [reflexivity |]. change (nth j _ q0) with (vnth (map (fun j => if j <? i then q0 else vnth pool j) (seq 0 n)) j). rewrite vnth_map by auto. reflexivity. }
    rewrite E1, Hf by (unfold asked; rewrite map_length, seq_length; reflexivity). cbn [bind].
    assert (E2 : set_nth (asked pool i) i q0 = map (fun j => if j <? S i then q0 else vnth pool j) (seq 0 n)).
    { assert (La : length (asked pool i) = n) by (unfold asked; rewrite map_length, seq_length; reflexivity).
      apply vec_ext; [rewrite set_nth_length, La, map_length, seq_length; reflexivity |]. intros j Hj. rewrite set_nth_length, La in Hj. rewrite vnth_map by auto.
      unfold vnth at 1. rewrite nth_set_nth, La. destruct (Nat.ltb_spec i n); [| lia]. rewrite andb_true_r. change (nth j (asked pool i) q0) with (vnth (asked pool i) j). unfold asked. rewrite vnth_map by auto.
      destruct (Nat.eqb_spec j i), (Nat.ltb_spec j i), (Nat.ltb_spec j (S i)); try lia; reflexivity. }
    rewrite E2, IH by lia. rewrite <- app_assoc. replace (S i + k) with (i + S k) by lia. reflexivity.
Qed.
Lemma vstack_ok rows m : rows <> [] -> (forall r, In r rows -> length r = m) -> vstack rows = Ok (of_rows (length rows) m rows).
Proof.
  intros Hne H. destruct rows as [| r rows]; [congruence |]. unfold vstack.
  replace (forallb (fun s : list Qc => length s =? length r) (r :: rows)) with true.
  - rewrite (H r (or_introl eq_refl)). reflexivity.
  - symmetry. apply forallb_forall. intros s Hs. rewrite (H s Hs), (H r (or_introl eq_refl)). apply Nat.eqb_refl.
Qed.
(** whatever the pool gave: the matrix and its columns *)
Lemma collapse_columns op pool f m : so_repr op = None -> so_V1 op = length pool -> 0 < length pool ->
  (forall x, length x = length pool -> so_matvec op x = Ok (f x) /\ length (f x) = m) ->
  exists M op', collapse pool op = Ok (M, op') /\ so_repr op' = Some M /\ nr M = m /\ nc M = length pool /\
    forall i j, i < m -> j < length pool -> ent M i j = vnth (f (asked pool j)) i.
Proof.
  intros Hr Hd Hn Hf. unfold collapse. rewrite Hr, Hd.
  replace (pool, @nil vec) with (map (fun j => if j <? 0 then q0 else vnth pool j) (seq 0 (length pool)), @nil vec).
  2:{ f_equal. apply vec_ext; [rewrite map_length, seq_length; reflexivity |]. intros i Hi. rewrite map_length, seq_length in Hi. rewrite vnth_map by auto. reflexivity. }
  rewrite (columns_ok op pool f (fun x Hx => proj1 (Hf x Hx))) by lia. cbn [bind snd app].
  assert (La : forall j, length (asked pool j) = length pool) by (intros j; unfold asked; rewrite map_length, seq_length; reflexivity).
  rewrite (vstack_ok _ m).
  - cbn [bind]. eexists _, _. split; [reflexivity |]. split; [reflexivity |]. cbn [nr nc mtr of_rows ent]. rewrite map_length, seq_length. split; [reflexivity |]. split; [reflexivity |].
    intros i j Hi Hj. cbn. rewrite (nth_indep _ [] (f (asked pool 0))) by (rewrite map_length, seq_length; auto).
    rewrite (map_nth (fun j => f (asked pool j))), seq_nth by auto. reflexivity.
  - destruct (length pool); [lia | discriminate].
  - intros r Hin. apply in_map_iff in Hin. destruct Hin as [j [<- _]]. apply Hf. apply La.
Qed.
Lemma asked_zero n i : i < n -> asked (repeat q0 n) i = unit_vec n i.
Proof.
  intros Hi. unfold asked, unit_vec. rewrite repeat_length. apply map_ext. intros j. destruct (j =? i); [reflexivity |]. destruct (j <? i); [reflexivity |].
  unfold vnth. apply nth_repeat.
Qed.

(** ** Regular matrices and solvers *)
(** square, and only zero is sent to zero *)
Definition regular (n : nat) (A : mat) : Prop :=
  nr A = n /\ nc A = n /\ forall x, length x = n -> (forall i, i < n -> vnth (mv A x) i = q0) -> forall i, i < n -> vnth x i = q0.
(** a solver of regular systems *)
Definition solves_regular (solve : mat -> vec -> res vec) : Prop :=
  forall n A b, regular n A -> length b = n -> exists x, solve A b = Ok x /\ length x = n /\ mv A x = b.

Lemma mv_combine A a b x y z n : nc A = n -> length x = n -> length y = n -> length z = n ->
  (forall i, i < n -> vnth z i = (a * vnth x i + b * vnth y i)%Qc) -> forall k, k < nr A -> vnth (mv A z) k = (a * vnth (mv A x) k + b * vnth (mv A y) k)%Qc.
Proof.
  intros HA Hx Hy Hz H k Hk. rewrite !vnth_mv, HA by auto. rewrite <- !sumn_scal, <- sumn_plus. apply sumn_ext. intros i Hi. rewrite H by auto. ring.
Qed.
Lemma regular_unique n A x y : regular n A -> length x = n -> length y = n -> mv A x = mv A y -> x = y.
Proof.
  intros [Hr [Hc Hi]] Hx Hy E. apply vec_ext; [congruence |]. rewrite Hx. intros i Hlt.
  assert (H : forall i, i < n -> vnth (vtab n (fun i => (vnth x i - vnth y i)%Qc)) i = q0).
  { apply Hi; [apply vtab_length |]. intros k Hk. rewrite (mv_combine A q1 (- q1)%Qc x y _ n) by (auto using vtab_length; try (intros j Hj; rewrite vnth_vtab by auto; unfold q1; ring); lia). rewrite E. unfold q1, q0. ring. }
  specialize (H i Hlt). rewrite vnth_vtab in H by auto. replace (vnth x i) with (vnth x i - vnth y i + vnth y i)%Qc by ring. rewrite H. unfold q0. ring.
Qed.
(** the values of a solver *)
Definition solution (solve : mat -> vec -> res vec) (A : mat) (b : vec) : vec := match solve A b with Ok x => x | Err _ => [] end.
Lemma solution_ok solve n A b : solves_regular solve -> regular n A -> length b = n ->
  solve A b = Ok (solution solve A b) /\ length (solution solve A b) = n /\ mv A (solution solve A b) = b.
Proof. intros Hs HA Hb. destruct (Hs n A b HA Hb) as [x [E [Hx H]]]. unfold solution. rewrite E. auto. Qed.
(** a solution depends linearly on the right hand side *)
Lemma solution_combine solve n A a b x y z : solves_regular solve -> regular n A -> length x = n -> length y = n -> length z = n ->
  (forall i, i < n -> vnth z i = (a * vnth x i + b * vnth y i)%Qc) ->
  forall i, i < n -> vnth (solution solve A z) i = (a * vnth (solution solve A x) i + b * vnth (solution solve A y) i)%Qc.
Proof.
  intros Hs HA Hx Hy Hz H. destruct (solution_ok solve n A x Hs HA Hx) as [_ [Lx Ex]]. destruct (solution_ok solve n A y Hs HA Hy) as [_ [Ly Ey]]. destruct (solution_ok solve n A z Hs HA Hz) as [_ [Lz Ez]].
  set (w := vtab n (fun i => (a * vnth (solution solve A x) i + b * vnth (solution solve A y) i)%Qc)).
  assert (Ew : solution solve A z = w).
  { apply (regular_unique n A); auto; [apply vtab_length |]. rewrite Ez. destruct HA as [Hr [Hc _]]. apply vec_ext; [rewrite mv_length; congruence |]. intros i Hi. rewrite Hz in Hi.
    rewrite (mv_combine A a b (solution solve A x) (solution solve A y) w n) by (auto; try (unfold w; apply vtab_length); try (intros j Hj; unfold w; rewrite vnth_vtab by auto; reflexivity); lia).
    rewrite Ex, Ey. apply H. auto. }
  rewrite Ew. intros i Hi. unfold w. rewrite vnth_vtab by auto. reflexivity.
Qed.
Lemma linear_of n m (f : vec -> vec) : (forall x, length x = n -> length (f x) = m) ->
  (forall a b x y z, length x = n -> length y = n -> length z = n -> (forall i, i < n -> vnth z i = (a * vnth x i + b * vnth y i)%Qc) ->
     forall k, k < m -> vnth (f z) k = (a * vnth (f x) k + b * vnth (f y) k)%Qc) -> linear_map n m f.
Proof.
  intros Hl Hc. split; [auto |]. split.
  - intros x y z Hx Hy Hz H k Hk. rewrite (Hc q1 q1 x y z) by (auto; intros i Hi; rewrite H by auto; unfold q1; ring). unfold q1. ring.
  - intros a x z Hx Hz H k Hk. rewrite (Hc a q0 x x z) by (auto; intros i Hi; rewrite H by auto; unfold q0; ring). unfold q0. ring.
Qed.
