(** Specification vocabulary and proofs for EvalModel.v. *)
From Verif Require Import Base BaseProofs Mat MatProofs FillModel FillProofs AverageProofs EvalModel.
Local Open Scope nat_scope.
Local Close Scope Q_scope.
Local Close Scope Qc_scope.
Local Arguments Nat.ltb : simpl never.
Local Arguments Nat.leb : simpl never.
Local Arguments Nat.eqb : simpl never.

(** ** Specification vocabulary *)

(** Sum over the local basis functions of a cell: coefficient times value. *)
Definition local_sum (u : vec) (dofs : list nat) (value : nat -> Qc) : Qc :=
  sumn (length dofs) (fun l => (vnth u (nth l dofs 0%nat) * value l)%Qc).
(** Value of row [i] of the product of [A] and [u]; rows are numbered from 0. *)
Definition row_times (A : mat) (u : vec) (i : nat) : Qc := sumn (nc A) (fun j => (ent A i j * vnth u j)%Qc).

Section FluxSpec.
Context {X N : Type}.
Variable collision : X -> nat.
Variable limit : nat.
Variable basis : nat -> X -> list Qc.
Variable V_dofs : nat -> list nat.
Variable size : nat.
Variable quadrature_normal : X -> N -> list X * list Qc * list vec.
(** Component of the function in the direction [nv] at [x]. *)
Definition normal_component (u : vec) (x : X) (nv : vec) : Qc :=
  sumn size (fun k => (fe_value collision basis V_dofs size u k x * vnth nv k)%Qc).
(** Quadrature of the normal component over the points inside, divided by the sum of all weights. *)
Definition shape_flux (u : vec) (x : X) (n : N) : Qc :=
  let '(pts, w, nvs) := quadrature_normal x n in
  (sumn (length pts) (fun q => if inside collision limit (nth q pts x) then (vnth w q * normal_component u (nth q pts x) (nth q nvs []))%Qc else q0) / sumn (length w) (vnth w))%Qc.
Definition normals_ok : Prop := forall x n, let '(pts, w, nvs) := quadrature_normal x n in length pts = length w /\ length pts = length nvs.
End FluxSpec.

(** ** The flux average is a scalar average over points with normals *)
Section Flux.
Context {X N : Type}.
Variable collision : X -> nat.
Variable limit : nat.
Variable basis : nat -> X -> list Qc.
Variable V_dofs : nat -> list nat.
Variable size : nat.
Variable quadrature_normal : X -> N -> list X * list Qc * list vec.

Let collision' (p : X * vec) : nat := collision (fst p).
Let basis' (c : nat) (p : X * vec) : list Qc := normal_values basis V_dofs size c (fst p) (snd p).
Let quadrature' (p : X * vec) (n : N) : list (X * vec) * list Qc :=
  let '(pts, w, nvs) := quadrature_normal (fst p) n in (combine pts nvs, w).
Let lift (lc : N * list (nat * X)) : N * list (nat * (X * vec)) := (fst lc, map (fun rx => (fst rx, (snd rx, []))) (snd lc)).

Lemma flux_point_avg measure d p : flux_point collision limit basis V_dofs size measure d p = avg_point collision' limit basis' V_dofs measure d p.
Proof. destruct p as [[ip nv] w]. reflexivity. Qed.
Lemma flux_row_avg x nn n : flux_row collision limit basis V_dofs size quadrature_normal x n = avg_row collision' limit basis' V_dofs quadrature' (x, nn) n.
Proof.
  unfold flux_row, avg_row, quadrature'. cbn [fst]. destruct (quadrature_normal x n) as [[pts w] nvs].
  generalize (@nil (nat * Qc)). generalize (combine (combine pts nvs) w). generalize (qplus_list w). intros ms l.
  induction l as [|p l IH]; intros d; [reflexivity|]. cbn [fold_left]. rewrite flux_point_avg. apply IH.
Qed.
Lemma flux_average_avg m n cells : flux_average collision limit basis V_dofs size quadrature_normal m n cells =
  scalar_average collision' limit basis' V_dofs quadrature' m n (map lift cells).
Proof.
  unfold flux_average, scalar_average. f_equal. induction cells as [|lc cells IH]; [reflexivity|]. cbn [flat_map map]. f_equal; [|exact IH].
  unfold lift. cbn [fst snd]. clear IH. induction (snd lc) as [|rx l IH]; [reflexivity|]. cbn [flat_map map fst snd]. f_equal; [|exact IH].
  rewrite (flux_row_avg (snd rx) []). reflexivity.
Qed.

Lemma normal_values_length c x nv : length (normal_values basis V_dofs size c x nv) = length (V_dofs c).
Proof. unfold normal_values. rewrite map_length. apply reshape_length. Qed.
Lemma fe_value_normal u x nv : fe_value collision' basis' V_dofs 1 u 0 (x, nv) = normal_component collision basis V_dofs size u x nv.
Proof.
  unfold fe_value, normal_component, collision', basis'. cbn [fst snd]. unfold fe_value.
  transitivity (sumn (length (V_dofs (collision x))) (fun l => sumn size (fun k =>
     (vnth u (nth l (V_dofs (collision x)) 0%nat) * nth (l * size + k)%nat (basis (collision x) x) q0 * vnth nv k)%Qc))).
  - apply sumn_ext. intros l Hl. rewrite Nat.mul_1_r, Nat.add_0_r. unfold normal_values.
    match goal with |- context [map ?f (reshape _ _ _)] => set (F := f) end.
    rewrite (nth_indep _ q0 (F [])) by (rewrite map_length, reshape_length; assumption). rewrite map_nth. unfold F.
    rewrite qplus_qsum, (qsum_map_sumn _ _ 0), seq_length, <- sumn_scal. apply sumn_ext. intros k Hk. rewrite seq_nth by assumption. cbn [Nat.add].
    unfold vnth at 2. rewrite reshape_nth by assumption. ring.
  - rewrite sumn_swap. apply sumn_ext. intros k _. rewrite <- sumn_scal_r. reflexivity.
Qed.

Lemma shape_average_flux u x nn n : normals_ok quadrature_normal ->
  shape_average collision' limit basis' V_dofs quadrature' 1 u 0 (x, nn) n = shape_flux collision limit basis V_dofs size quadrature_normal u x n.
Proof.
  intros NO. unfold shape_average, shape_flux, quadrature'. cbn [fst]. specialize (NO x n). destruct (quadrature_normal x n) as [[pts w] nvs].
  destruct NO as [L1 L2]. rewrite combine_length, <- L2, Nat.min_id. f_equal. apply sumn_ext. intros q Hq.
  assert (E : nth q (combine pts nvs) (x, nn) = (nth q pts x, nth q nvs [])).
  { rewrite combine_nth by assumption. f_equal. apply nth_indep. lia. }
  rewrite E, fe_value_normal. reflexivity.
Qed.

Lemma flux_average_apply m u cells r y n dofs : space_ok limit basis V_dofs size (length u) -> normals_ok quadrature_normal ->
  NoDup (flat_map (fun lc => map fst (snd lc)) cells) -> r < m -> In (n, dofs) cells -> In (r, y) dofs ->
  vnth (mv (flux_average collision limit basis V_dofs size quadrature_normal m (length u) cells) u) r =
  shape_flux collision limit basis V_dofs size quadrature_normal u y n.
Proof.
  intros SO NO ND Hr Hc Hd. rewrite flux_average_avg, <- (shape_average_flux u y [] n NO). apply scalar_average_apply.
  - intros c Hc'. destruct (SO c Hc') as (A & B & _). repeat split; [assumption..|]. intros p. unfold basis'. rewrite normal_values_length. lia.
  - intros p nn. unfold quadrature'. specialize (NO (fst p) nn). destruct (quadrature_normal (fst p) nn) as [[pts w] nvs]. cbn [fst snd]. rewrite combine_length. lia.
  - replace (flat_map (fun lc => map fst (snd lc)) (map lift cells)) with (flat_map (fun lc : N * list (nat * X) => map fst (snd lc)) cells); [assumption|].
    clear. induction cells as [|lc cells IH]; [reflexivity|]. cbn [flat_map map]. rewrite IH. f_equal. unfold lift. cbn [snd]. rewrite map_map. reflexivity.
  - rewrite map_map. apply (in_map (fun lc => fst (lift lc))) in Hc. exact Hc.
  - assumption.
  - exists (map (fun rx => (fst rx, (snd rx, []))) dofs). split; [apply (in_map lift _ _ Hc)|]. apply (in_map (fun rx : nat * X => (fst rx, (snd rx, @nil Qc))) _ _ Hd).
Qed.
End Flux.

(** ** Evaluation at a vertex *)

Lemma nonzero_spec l : nonzero l = true <-> exists x, In x l /\ x <> q0.
Proof.
  unfold nonzero. rewrite negb_true_iff. split.
  - intros H. induction l as [|x l IH]; [discriminate|]. cbn [forallb] in H. destruct (Qc_eq_bool x q0) eqn:E.
    + destruct (IH H) as (y & Hy & N). exists y. split; [right|]; assumption.
    + exists x. split; [left; reflexivity|]. intros ->. unfold Qc_eq_bool in E. destruct (Qc_eq_dec q0 q0); congruence.
  - intros (x & Hx & N). destruct (forallb _ l) eqn:E; [|reflexivity]. rewrite forallb_forall in E. specialize (E x Hx). apply Qc_eq_bool_correct in E. contradiction.
Qed.
Lemma fam_eqb_spec a b : fam_eqb a b = true <-> a = b.
Proof. destruct a, b; cbn; split; congruence. Qed.
Lemma shape_eqb_spec a b : shape_eqb a b = true <-> a = b.
Proof. unfold shape_eqb. destruct (list_eq_dec Nat.eq_dec a b); split; congruence. Qed.
Lemma existsb_in c l : existsb (Nat.eqb c) l = true <-> In c l.
Proof. rewrite existsb_exists. split; [intros (x & H & E); apply Nat.eqb_eq in E; subst; assumption|intros H; exists c; split; [assumption|apply Nat.eqb_refl]]. Qed.

Lemma row_times_mv A u i : i < nr A -> vnth (mv A u) i = row_times A u i.
Proof. intros H. rewrite vnth_mv by assumption. reflexivity. Qed.

Lemma zip3_row row dofs vals : length vals = length dofs ->
  zip3 (repeat row (length dofs)) dofs vals = map (fun cv => (row, fst cv, snd cv)) (combine dofs vals).
Proof.
  unfold zip3. revert vals. induction dofs as [|d dofs IH]; intros [|v vals] L; try discriminate; [reflexivity|]. cbn [length repeat combine map fst snd]. f_equal. apply IH. cbn in L. lia.
Qed.
Lemma coo_row_times m n row dofs vals u : row < m -> length vals = length dofs -> (forall j, In j dofs -> j < n) ->
  row_times (coo m n (zip3 (repeat row (length dofs)) dofs vals)) u row = local_sum u dofs (fun l => nth l vals q0).
Proof.
  intros Hr L B. rewrite <- row_times_mv by exact Hr. rewrite coo_apply; [|assumption|].
  2:{ intros t Ht. rewrite zip3_row in Ht by assumption. apply in_map_iff in Ht. destruct Ht as (cv & <- & Ht). cbn [fst snd]. destruct cv as [c v]. apply B. eapply in_combine_l, Ht. }
  rewrite zip3_row, map_map by assumption. cbn [fst snd]. rewrite Nat.eqb_refl. unfold local_sum.
  rewrite (combine_sumn (fun c v => (v * vnth u c)%Qc) _ _ 0 q0) by (symmetry; assumption). apply sumn_ext. intros. ring.
Qed.
Lemma coo_other_rows m n row dofs vals i j : length vals = length dofs -> i <> row ->
  ent (coo m n (zip3 (repeat row (length dofs)) dofs vals)) i j = q0.
Proof.
  intros L N. cbn [ent coo]. unfold coo_ent. rewrite qplus_qsum. apply qsum_zero. intros t Ht. rewrite zip3_row in Ht by assumption.
  apply in_map_iff in Ht. destruct Ht as (cv & <- & _). cbn [fst snd]. destruct (Nat.eqb_spec row i); [congruence|reflexivity].
Qed.

Lemma dot_rows_length gdim count l tau : length (dot_rows gdim count l tau) = count.
Proof. unfold dot_rows. rewrite map_length. apply reshape_length. Qed.
Lemma dot_rows_nth gdim count l tau i : i < count ->
  nth i (dot_rows gdim count l tau) q0 = sumn gdim (fun k => (nth (i * gdim + k) l q0 * vnth tau k)%Qc).
Proof.
  intros Hi. unfold dot_rows. match goal with |- context [map ?f (reshape _ _ _)] => set (F := f) end.
  rewrite (nth_indep _ q0 (F [])) by (rewrite map_length, reshape_length; assumption). rewrite map_nth. unfold F.
  rewrite qplus_qsum, (qsum_map_sumn _ _ 0), seq_length. apply sumn_ext. intros k Hk. rewrite seq_nth by assumption. cbn [Nat.add]. unfold vnth at 1. rewrite reshape_nth by assumption. reflexivity.
Qed.
Lemma local_sum_ext u dofs f g : (forall l, l < length dofs -> f l = g l) -> local_sum u dofs f = local_sum u dofs g.
Proof. intros H. apply sumn_ext. intros l Hl. rewrite H by assumption. reflexivity. Qed.
Lemma local_sum_swap u dofs n f tau : local_sum u dofs (fun l => sumn n (fun k => (f l k * vnth tau k)%Qc)) = sumn n (fun k => (local_sum u dofs (fun l => f l k) * vnth tau k)%Qc).
Proof.
  unfold local_sum. transitivity (sumn (length dofs) (fun l => sumn n (fun k => (vnth u (nth l dofs 0%nat) * f l k * vnth tau k)%Qc))).
  - apply sumn_ext. intros l _. rewrite <- sumn_scal. apply sumn_ext. intros. ring.
  - rewrite sumn_swap. apply sumn_ext. intros k _. rewrite <- sumn_scal_r. reflexivity.
Qed.

(** ** The nonconforming trace *)
Section Nonconforming.
Variable limit : nat.
Variable collisions : nat -> nat.
Variable V_dofs : nat -> list nat.
Variable dof_value : nat -> nat -> nat -> nat -> Qc.

(** one cell per dof *)
Let columns (d : nat) : list nat := if limit <=? collisions d then [] else V_dofs (collisions d).
Let single (t k d : nat) : fcell := FCell [d] (columns d) (fun l _ => dof_value t k (collisions d) l).
Fixpoint singles (t k : nat) (ds : list nat) : list fcell := match ds with [] => [] | d :: ds' => single t k d :: singles t (S k) ds' end.
Fixpoint all_singles (t : nat) (cells : list (list nat)) : list fcell := match cells with [] => [] | ds :: cells' => singles t 0 ds ++ all_singles (S t) cells' end.

Lemma nonconforming_dofs_fill t k ds s : nonconforming_dofs limit collisions V_dofs dof_value t k ds s =
  fold_left (fun s c => fill_dofs c 0 (f_rows c) s) (singles t k ds) s.
Proof.
  revert k s. induction ds as [|d ds IH]; intros k s; [reflexivity|]. cbn [nonconforming_dofs singles fold_left].
  cbn [single f_rows fill_dofs f_cols f_val]. destruct (nth d (fst s) true); [apply IH|]. unfold columns.
  destruct (limit <=? collisions d); cbn [length seq map set_row combine fold_left]; rewrite IH; reflexivity.
Qed.
Lemma nonconforming_cells_fill t cells s : nonconforming_cells limit collisions V_dofs dof_value t cells s =
  fold_left (fun s c => fill_dofs c 0 (f_rows c) s) (all_singles t cells) s.
Proof.
  revert t s. induction cells as [|ds cells IH]; intros t s; [reflexivity|]. cbn [nonconforming_cells all_singles]. rewrite fold_left_app, IH, nonconforming_dofs_fill. reflexivity.
Qed.
Lemma nonconforming_fill m n cells : nonconforming_trace_mat limit collisions V_dofs dof_value m n cells = restriction_fill m n (all_singles 0 cells).
Proof. unfold nonconforming_trace_mat, restriction_fill. rewrite nonconforming_cells_fill. reflexivity. Qed.

Lemma singles_rows t k ds c : In c (singles t k ds) -> exists d, In d ds /\ f_rows c = [d] /\ f_cols c = columns d.
Proof.
  revert k. induction ds as [|d ds IH]; intros k H; [destruct H|]. destruct H as [<-|H]; [exists d; cbn; auto|].
  destruct (IH _ H) as (d' & A & B). exists d'. split; [right; assumption|assumption].
Qed.
Lemma all_singles_rows t cells c : In c (all_singles t cells) -> exists ds d, In ds cells /\ In d ds /\ f_rows c = [d] /\ f_cols c = columns d.
Proof.
  revert t. induction cells as [|ds cells IH]; intros t H; [destruct H|]. cbn [all_singles] in H. apply in_app_or in H. destruct H as [H|H].
  - destruct (singles_rows _ _ _ _ H) as (d & A & B). exists ds, d. split; [left; reflexivity|auto].
  - destruct (IH _ H) as (ds' & d & A & B). exists ds', d. split; [right; assumption|assumption].
Qed.
Lemma singles_split t k ds p i : nth_error ds p = Some i -> exists a b, singles t k ds = a ++ single t (k + p) i :: b /\
  forall c, In c a -> exists q j, q < p /\ nth_error ds q = Some j /\ f_rows c = [j].
Proof.
  revert k p. induction ds as [|d ds IH]; intros k [|p] H; try discriminate; cbn [nth_error] in H.
  - injection H as ->. exists [], (singles t (S k) ds). rewrite Nat.add_0_r. split; [reflexivity|intros ? []].
  - destruct (IH (S k) p H) as (a & b & E & P). exists (single t k d :: a), b. cbn [singles app]. rewrite E. split; [replace (k + S p) with (S k + p) by lia; reflexivity|].
    intros c [<-|Hc]; [exists 0, d; repeat split; lia|]. destruct (P c Hc) as (q & j & A & B & C). exists (S q), j. repeat split; [lia|assumption..].
Qed.
Lemma all_singles_split t pre ds post : all_singles t (pre ++ ds :: post) = all_singles t pre ++ singles (t + length pre) 0 ds ++ all_singles (S (t + length pre)) post.
Proof.
  revert t. induction pre as [|d pre IH]; intros t; cbn [app all_singles length].
  - rewrite Nat.add_0_r. reflexivity.
  - rewrite IH, <- app_assoc. replace (t + S (length pre)) with (S t + length pre) by lia. reflexivity.
Qed.

Lemma nonconforming_apply m u cells pre ds post i k :
  (forall ds', In ds' cells -> NoDup ds' /\ forall d, In d ds' -> d < m) ->
  (forall c, c < limit -> NoDup (V_dofs c) /\ forall j, In j (V_dofs c) -> j < length u) ->
  cells = pre ++ ds :: post -> nth_error ds k = Some i -> (forall ds', In ds' pre -> ~ In i ds') ->
  row_times (nonconforming_trace_mat limit collisions V_dofs dof_value m (length u) cells) u i =
  if collisions i <? limit then local_sum u (V_dofs (collisions i)) (dof_value (length pre) k (collisions i)) else q0.
Proof.
  intros HT HV E Hk Hp. rewrite nonconforming_fill.
  assert (Hi : In ds cells) by (rewrite E; apply in_or_app; right; left; reflexivity).
  assert (Li : i < m) by (apply (HT ds Hi); eapply nth_error_In, Hk).
  rewrite <- row_times_mv by exact Li.
  assert (F : Forall (dofmap_ok m (length u)) (all_singles 0 cells)).
  { apply Forall_forall. intros c Hc. destruct (all_singles_rows _ _ _ Hc) as (ds' & d & A & B & C & D). unfold dofmap_ok. rewrite C, D. unfold columns.
    destruct (HT _ A) as [_ R]. repeat split.
    - constructor; [intros []|constructor].
    - destruct (Nat.leb_spec limit (collisions d)); [constructor|apply HV; assumption].
    - intros j [<-|[]]. apply R, B.
    - intros j. destruct (Nat.leb_spec limit (collisions d)); [intros []|apply HV; assumption]. }
  destruct (restriction_fill_first m (length u) _ F) as [F1 _].
  destruct (singles_split (length pre) 0 ds k i Hk) as (a & b & ES & PA). cbn [Nat.add] in ES.
  assert (EA : all_singles 0 cells = (all_singles 0 pre ++ a) ++ single (length pre) k i :: (b ++ all_singles (S (length pre)) post)).
  { rewrite E, all_singles_split. cbn [Nat.add]. rewrite ES, <- !app_assoc. reflexivity. }
  assert (CR := F1 _ _ _ i EA (or_introl eq_refl)).
  rewrite (computes_row_apply m (length u) (single (length pre) k i) i _ u 0).
  - cbn [f_val f_cols single]. unfold columns. rewrite Nat.leb_antisym. destruct (collisions i <? limit); cbn [negb]; [|reflexivity].
    unfold local_sum. rewrite (qsum_map_sumn _ _ 0), seq_length. apply sumn_ext. intros l Hl. rewrite seq_nth by assumption. cbn [Nat.add]. ring.
  - rewrite Forall_forall in F. apply F. rewrite EA. apply in_or_app. right. left. reflexivity.
  - exact Li.
  - reflexivity.
  - reflexivity.
  - apply CR. intros c Hc Hin. apply in_app_or in Hc. destruct Hc as [Hc|Hc].
    + destruct (all_singles_rows _ _ _ Hc) as (ds' & d & A & B & C & _). rewrite C in Hin. destruct Hin as [<-|[]]. apply (Hp ds' A B).
    + destruct (PA c Hc) as (q & j & A & B & C). rewrite C in Hin. destruct Hin as [->|[]].
      destruct (HT ds Hi) as [ND _]. assert (q = k); [|lia]. apply (proj1 (NoDup_nth_error ds) ND); [apply nth_error_Some; congruence|congruence].
Qed.
Lemma nonconforming_none m u cells i : (forall ds, In ds cells -> NoDup ds /\ forall d, In d ds -> d < m) ->
  (forall c, c < limit -> NoDup (V_dofs c) /\ forall j, In j (V_dofs c) -> j < length u) -> (forall ds, In ds cells -> ~ In i ds) ->
  row_times (nonconforming_trace_mat limit collisions V_dofs dof_value m (length u) cells) u i = q0.
Proof.
  intros HT HV N. rewrite nonconforming_fill. unfold row_times.
  assert (F : Forall (dofmap_ok m (length u)) (all_singles 0 cells)).
  { apply Forall_forall. intros c Hc. destruct (all_singles_rows _ _ _ Hc) as (ds' & d & A & B & C & D). unfold dofmap_ok. rewrite C, D. unfold columns.
    destruct (HT _ A) as [_ R]. repeat split.
    - constructor; [intros []|constructor].
    - destruct (Nat.leb_spec limit (collisions d)); [constructor|apply HV; assumption].
    - intros j [<-|[]]. apply R, B.
    - intros j. destruct (Nat.leb_spec limit (collisions d)); [intros []|apply HV; assumption]. }
  destruct (restriction_fill_first m (length u) _ F) as [_ F2]. apply sumn_zero. intros j _. rewrite F2; [unfold q0; ring|].
  intros c Hc Hin. destruct (all_singles_rows _ _ _ Hc) as (ds' & d & A & B & C & _). rewrite C in Hin. destruct Hin as [<-|[]]. exact (N _ A B).
Qed.
End Nonconforming.
