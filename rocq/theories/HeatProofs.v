(** Lemmas for HeatProps.v *)
From Verif Require Import Base BaseProofs Mat MatProofs ConvertModel ConvertProofs BcModel BcProofs BcApplyProofs BcUpdaterProofs BcReturnsProofs HeatModel.
Local Open Scope nat_scope.

(** What dolfin gives fits together; the dofs of a condition do not change with time *)
Definition sound (H : heat_problem) (n m : nat) : Prop :=
  (nr (h_M H) = n /\ nc (h_M H) = n) /\ (nr (h_K H) = n /\ nc (h_K H) = n) /\ (nr (h_T H) = m /\ nc (h_T H) = n) /\
  (forall t, length (h_f H t) = n) /\ (forall t, length (h_g H t) = m) /\
  (forall t, map fst (h_V H t) = map fst (h_V H q0)) /\
  (forall d, In d (map fst (h_V H q0)) -> d < n) /\ (forall d, In d (map fst (h_Q H)) -> d < m) /\
  (h_V H q0 <> [] \/ h_Q H <> []).

(** One step of the implicit method of Euler from u to u' at time t, written out: boundary values hold, and
    for the other test functions (u' - u, v)/dt + (grad u', grad v) + (p, Tv) = (f, v) and (q, Tu') = (gD, q) *)
Definition euler_step (H : heat_problem) (n m : nat) (dt t : Qc) (u u' : vec) : Prop :=
  exists p, length u' = n /\ length p = m /\
  (forall d v, assigned (h_V H t) d v -> vnth u' d = v) /\
  (forall d v, assigned (h_Q H) d v -> vnth p d = v) /\
  (forall d, d < n -> ~ In d (map fst (h_V H t)) ->
     ((vnth (mv (h_M H) u') d - vnth (mv (h_M H) u) d) / dt + vnth (mv (h_K H) u') d + vnth (mv (mtr (h_T H)) p) d = vnth (h_f H t) d)%Qc) /\
  (forall d, d < m -> ~ In d (map fst (h_Q H)) -> vnth (mv (h_T H) u') d = vnth (h_g H t) d).

Definition prescribed_at (H : heat_problem) (n : nat) (t : Qc) : items :=
  h_V H t ++ map (fun dv => (n + fst dv, snd dv)) (h_Q H).

Lemma map_id_items (l : items) : map (fun dv => (0 + fst dv, snd dv)) l = l.
Proof. induction l as [| [a b] l IH]; cbn; [reflexivity |]. f_equal. exact IH. Qed.
Lemma prescribed_conditions H n m t : prescribed false [n; m] (BVal (PList (conditions H t))) = prescribed_at H n t.
Proof.
  unfold prescribed, prescribed_at, conditions. cbn -[Nat.add]. rewrite !app_nil_r. unfold off. cbn -[Nat.add].
  rewrite map_id_items. rewrite Nat.add_0_r. reflexivity.
Qed.

Section Assigned.
Lemma assigned_in pairs k v : assigned pairs k v -> In k (map fst pairs).
Proof. intros (pre & post & -> & _). rewrite map_app. apply in_or_app. right. left. reflexivity. Qed.
Lemma assigned_at_V H n m t d v : sound H n m -> assigned (h_V H t) d v -> assigned (prescribed_at H n t) d v.
Proof.
  intros S A. assert (Hd : d < n). { apply S. destruct S as (_ & _ & _ & _ & _ & E & _). rewrite <- (E t). exact (assigned_in _ _ _ A). }
  destruct A as (pre & post & E & Hn). exists pre, (post ++ map (fun dv => (n + fst dv, snd dv)) (h_Q H)). split.
  - unfold prescribed_at. rewrite E, <- app_assoc. reflexivity.
  - rewrite map_app. intros C. apply in_app_or in C. destruct C as [C | C]; [auto |].
    rewrite map_map in C. apply in_map_iff in C. destruct C as [x [C _]]. cbn [fst] in C. lia.
Qed.
Lemma assigned_at_Q H n t d v : assigned (h_Q H) d v -> assigned (prescribed_at H n t) (n + d) v.
Proof.
  intros (pre & post & E & Hn). exists (h_V H t ++ map (fun dv => (n + fst dv, snd dv)) pre), (map (fun dv => (n + fst dv, snd dv)) post). split.
  - unfold prescribed_at. rewrite E, map_app, app_assoc. reflexivity.
  - rewrite map_map. intros C. apply in_map_iff in C. destruct C as [x [C Hx]]. cbn [fst] in C. apply Hn. apply in_map_iff. exists x. split; [lia | auto].
Qed.
Lemma free_V H n t d : d < n -> ~ In d (map fst (h_V H t)) -> ~ constrained (prescribed_at H n t) d.
Proof.
  intros Hd Hn C. unfold constrained, prescribed_at in C. rewrite map_app in C. apply in_app_or in C. destruct C as [C | C]; [auto |].
  rewrite map_map in C. apply in_map_iff in C. destruct C as [x [C _]]. cbn [fst] in C. lia.
Qed.
Lemma free_Q H n m t d : sound H n m -> ~ In d (map fst (h_Q H)) -> ~ constrained (prescribed_at H n t) (n + d).
Proof.
  intros S Hn C. unfold constrained, prescribed_at in C. rewrite map_app in C. apply in_app_or in C. destruct C as [C | C].
  - destruct S as (_ & _ & _ & _ & _ & E & B & _). rewrite (E t) in C. apply B in C. lia.
  - rewrite map_map in C. apply in_map_iff in C. destruct C as [x [C Hx]]. cbn [fst] in C. apply Hn. apply in_map_iff. exists x. split; [lia | auto].
Qed.
Lemma rows_at H n m t : sound H n m -> map fst (prescribed_at H n t) = map fst (prescribed_at H n q0).
Proof. intros S. unfold prescribed_at. rewrite !map_app. f_equal. apply S. Qed.
Lemma rows_bound H n m t k : sound H n m -> constrained (prescribed_at H n t) k -> k < n + m.
Proof.
  intros S C. unfold constrained in C. rewrite (rows_at H n m t S) in C. unfold prescribed_at in C. rewrite map_app in C.
  apply in_app_or in C. destruct C as [C | C].
  - destruct S as (_ & _ & _ & _ & _ & _ & B & _). apply B in C. lia.
  - rewrite map_map in C. apply in_map_iff in C. destruct C as [x [C Hx]]. cbn [fst] in C.
    destruct S as (_ & _ & _ & _ & _ & _ & _ & B & _). specialize (B (fst x) (in_map fst _ _ Hx)). lia.
Qed.
Lemma prescribed_nonempty H n m t : sound H n m -> prescribed_at H n t <> [].
Proof.
  intros S C. assert (E : map fst (prescribed_at H n q0) = []) by (rewrite <- (rows_at H n m t S), C; reflexivity).
  unfold prescribed_at in E. rewrite map_app in E. apply app_eq_nil in E. destruct E as [E1 E2].
  destruct S as (_ & _ & _ & _ & _ & _ & _ & _ & [N | N]).
  - destruct (h_V H q0); [congruence | discriminate].
  - destruct (h_Q H); [congruence | discriminate].
Qed.
End Assigned.

(** The matrix of the system *)
Lemma lhs_converts f H n m dt : sound H n m -> exists AA, convert_bmat (S f) (lhs H dt) = Ok AA /\
  nr AA = n + m /\ nc AA = n + m /\
  (forall i j, i < n -> j < n -> ent AA i j = (ent (h_K H) i j + q1 / dt * ent (h_M H) i j)%Qc) /\
  (forall i j, i < n -> j < m -> ent AA i (n + j) = ent (h_T H) j i) /\
  (forall i j, i < m -> j < n -> ent AA (n + i) j = ent (h_T H) i j) /\
  (forall i j, i < m -> j < m -> ent AA (n + i) (n + j) = q0).
Proof.
  intros ((M1 & M2) & (K1 & K2) & (T1 & T2) & _).
  assert (E : convert_blocks (S f) (lhs H dt) =
    Ok [[madd (h_K H) (mscale (q1 / dt)%Qc (h_M H)); mtr (h_T H)]; [h_T H; diagonal_matrix m q0]]).
  { unfold convert_blocks, lhs, bmat_sizes. cbn [nbrows nbcols length seq mapM map blk nth create_dims option_map first_some opt_res bind fst snd madd mtr nr nc].
    unfold convert_block. cbn [collapse bind nth Nat.eqb andb]. rewrite ?K1, ?T1. rewrite Nat.eqb_refl. reflexivity. }
  unfold convert_bmat. rewrite E. cbn [bind]. clear E. unfold numpy_block_mat, lhs.
  cbn [nbrows nbcols length seq map mnth nth nr nc madd mtr diagonal_matrix mdiag forallb]. rewrite K1, K2, T1, T2, !Nat.eqb_refl. cbn [andb].
  eexists. split; [reflexivity |]. cbn [nr nc ent list_sum fold_right]. rewrite Nat.add_0_r. split; [reflexivity |]. split; [reflexivity |].
  assert (L1 : forall k, k < n -> locate [n; m] k = (0, k)). { intros k Hk. cbn [locate]. apply Nat.ltb_lt in Hk. rewrite Hk. reflexivity. }
  assert (L2 : forall k, k < m -> locate [n; m] (n + k) = (1, k)).
  { intros k Hk. cbn [locate]. replace (n + k <? n) with false by (symmetry; apply Nat.ltb_ge; lia). replace (n + k - n) with k by lia.
    apply Nat.ltb_lt in Hk. rewrite Hk. reflexivity. }
  split; [| split; [| split]]; intros i j Hi Hj.
  - rewrite (L1 i Hi), (L1 j Hj). reflexivity.
  - rewrite (L1 i Hi), (L2 j Hj). reflexivity.
  - rewrite (L2 i Hi), (L1 j Hj). reflexivity.
  - rewrite (L2 i Hi), (L2 j Hj). cbn. destruct (i =? j); reflexivity.
Qed.

(** Rows of the system, block by block *)
Lemma row_V H n m dt AA u p b i : sound H n m -> nc AA = n + m -> length u = n -> length p = m ->
  (forall i j, i < n -> j < n -> ent AA i j = (ent (h_K H) i j + q1 / dt * ent (h_M H) i j)%Qc) ->
  (forall i j, i < n -> j < m -> ent AA i (n + j) = ent (h_T H) j i) ->
  i < n ->
  (row_holds AA b (u ++ p) i <->
   (q1 / dt * vnth (mv (h_M H) u) i + vnth (mv (h_K H) u) i + vnth (mv (mtr (h_T H)) p) i = vnth b i)%Qc).
Proof.
  intros ((M1 & M2) & (K1 & K2) & (T1 & T2) & _) Hc Lu Lp E1 E2 Hi. unfold row_holds. rewrite Hc, sumn_app.
  rewrite (sumn_ext n _ (fun j => (q1 / dt * (ent (h_M H) i j * vnth u j) + ent (h_K H) i j * vnth u j)%Qc)).
  2: { intros j Hj. rewrite E1, vnth_app_l by lia. ring. }
  rewrite (sumn_ext m _ (fun j => (ent (h_T H) j i * vnth p j)%Qc)).
  2: { intros j Hj. rewrite E2 by lia. rewrite <- Lu at 1. rewrite vnth_app_r. reflexivity. }
  rewrite sumn_plus, sumn_scal. rewrite !vnth_mv by (cbn [mtr nr]; lia). cbn [mtr nc ent]. rewrite M2, K2, T1. reflexivity.
Qed.
Lemma row_Q H n m AA u p b i : sound H n m -> nc AA = n + m -> length u = n -> length p = m ->
  (forall i j, i < m -> j < n -> ent AA (n + i) j = ent (h_T H) i j) ->
  (forall i j, i < m -> j < m -> ent AA (n + i) (n + j) = q0) ->
  i < m -> (row_holds AA b (u ++ p) (n + i) <-> vnth (mv (h_T H) u) i = vnth b (n + i)).
Proof.
  intros ((M1 & M2) & (K1 & K2) & (T1 & T2) & _) Hc Lu Lp E1 E2 Hi. unfold row_holds. rewrite Hc, sumn_app.
  rewrite (sumn_ext n _ (fun j => (ent (h_T H) i j * vnth u j)%Qc)).
  2: { intros j Hj. rewrite E1, vnth_app_l by lia. reflexivity. }
  rewrite (sumn_zero m). 2: { intros j Hj. rewrite E2 by lia. unfold q0. ring. }
  rewrite vnth_mv by lia. rewrite T2. replace (_ + q0)%Qc with (sumn n (fun j => (ent (h_T H) i j * vnth u j)%Qc)) by (unfold q0; ring). reflexivity.
Qed.

Lemma rhs_lengths H n m dt t u : sound H n m -> map (@length Qc) (rhs H dt t u) = [n; m].
Proof.
  intros ((M1 & M2) & _ & _ & F & G & _). unfold rhs. cbn [map]. unfold vadd, vscale. rewrite !vtab_length, mv_length, M1, G. reflexivity.
Qed.
Lemma conditions_ok H t : ok_arg false 2 (BVal (PList (conditions H t))).
Proof. cbn. split; [reflexivity |]. repeat constructor. Qed.
Lemma conditions_dirichlet H t : dirichlet_only (BVal (PList (conditions H t))).
Proof. cbn. repeat constructor; cbn; eauto. Qed.
Lemma conditions_current H t dt : current (nbrows (lhs H dt)) (BVal (PList (conditions H t))) (conditions H t).
Proof. exists (conditions H t). split; reflexivity. Qed.

Lemma applied f H n m dt t u : sound H n m ->
  exists out, apply_bc (S f) (ABlock (lhs H dt)) (VBlock (rhs H dt t u)) (BVal (PList (conditions H t))) q1 true true = Ok out.
Proof.
  intros S. destruct (lhs_converts f H n m dt S) as (AA & E & N1 & N2 & _). apply (apply_bc_returns _ _ _ _ _ _ _ AA); cbn [vec_blocks is_plain mat_blocks].
  - discriminate.
  - discriminate.
  - exact E.
  - rewrite rhs_lengths with (n := n) (m := m) by auto. cbn. lia.
  - rewrite rhs_lengths with (n := n) (m := m) by auto. cbn. lia.
  - reflexivity.
  - apply conditions_ok.
  - rewrite rhs_lengths with (n := n) (m := m) by auto. rewrite prescribed_conditions. apply (prescribed_nonempty _ _ m); auto.
  - rewrite rhs_lengths with (n := n) (m := m) by auto. rewrite prescribed_conditions. intros k Hk. apply (rows_bound H n m t) in Hk; auto. cbn. lia.
  - auto.
Qed.

(** What the updater gives in a later step, with the matrix of the first *)
Lemma updated f H n m dt u0 AA0 b0 apply M0 : sound H n m ->
  apply_bc (S f) (ABlock (lhs H dt)) (VBlock (rhs H dt q0 u0)) (BVal (PList (conditions H q0))) q1 true true = Ok (RTriple AA0 b0 apply) ->
  convert_bmat (S f) (mat_blocks AA0) = Ok M0 ->
  nr M0 = n + m /\ nc M0 = n + m /\
  forall t u, exists bb, apply (conditions H t) (rhs H dt t u) = Ok bb /\ length (convert_bvec bb) = n + m /\
  forall w, length w = n + m -> mv M0 w = convert_bvec bb -> euler_step H n m dt t u (firstn n w).
Proof.
  intros S A0 C0. pose proof (rhs_lengths H n m dt q0 u0 S) as L0.
  assert (P0 : prescribed false [n; m] (BVal (PList (conditions H q0))) <> []).
  { rewrite prescribed_conditions. apply (prescribed_nonempty _ _ m); auto. }
  destruct (apply_bc_reassembles _ _ _ _ _ _ _ _ f A0) as (AA & A' & b' & M' & E1 & EL & _ & _ & E4 & Q & _).
  { discriminate. } { cbn [vec_blocks is_plain]. rewrite L0. exact P0. }
  cbn [out_A vec_blocks is_plain mat_blocks] in *. rewrite E4 in C0. injection C0 as <-. rewrite L0 in EL. rewrite prescribed_conditions in EL.
  destruct (lhs_converts f H n m dt S) as (AA' & E & N1 & N2 & B1 & B2 & B3 & B4). rewrite E in E1. injection E1 as <-.
  destruct Q as (Q1 & Q2 & Q3). destruct EL as (R1 & R2 & R3 & R4 & R5 & R6 & R7 & R8).
  split; [lia |]. split; [lia |]. intros t u.
  destruct (applied f H n m dt t u S) as [out A1]. pose proof (rhs_lengths H n m dt t u S) as L1.
  assert (P1 : prescribed false [n; m] (BVal (PList (conditions H t))) <> []).
  { rewrite prescribed_conditions. apply (prescribed_nonempty _ _ m); auto. }
  exists (vec_blocks (out_b out)).
  split.
  { refine (updater_correct (Datatypes.S f) (lhs H dt) (rhs H dt q0 u0) (rhs H dt t u) _ _ q1 AA0 b0 apply true out (conditions H t) A0 _ _ _ _ A1 _).
    - rewrite L0. exact P0.
    - apply conditions_dirichlet.
    - rewrite L0, !prescribed_conditions. apply (rows_at _ _ m); auto.
    - rewrite L0, L1. reflexivity.
    - apply conditions_current. }
  destruct (apply_bc_reassembles _ _ _ _ _ _ _ _ f A1) as (AA1 & A'' & b'' & M'' & F1 & FL & _ & F3 & _).
  { discriminate. } { cbn [vec_blocks is_plain]. rewrite L1. exact P1. }
  cbn [vec_blocks is_plain mat_blocks] in *. rewrite E in F1. injection F1 as <-. rewrite L1, prescribed_conditions in FL.
  assert (Lb : length (concat (rhs H dt t u)) = n + m) by (rewrite length_concat, L1; cbn; lia).
  assert (FL' := FL). destruct FL' as (T1 & T2 & T3 & T4 & T5 & T6 & T7 & T8).
  split; [rewrite F3; lia |]. intros w Lw Hw.
  assert (CC : forall k, constrained (prescribed_at H n t) k <-> constrained (prescribed_at H n q0) k).
  { intros k. unfold constrained. rewrite (rows_at H n m t S). reflexivity. }
  assert (ROW : forall i, i < n + m -> row_holds A'' b'' w i).
  { intros i Hi. unfold row_holds. rewrite <- F3, <- Hw. rewrite vnth_mv by lia. rewrite T2, Q2, R2. apply sumn_ext. intros j Hj. f_equal.
    rewrite Q3 by lia. destruct (in_dec Nat.eq_dec i (map fst (prescribed_at H n q0))) as [Ci | Ci].
    - rewrite R4, T4; auto. apply CC. exact Ci.
    - assert (Ci' : ~ constrained (prescribed_at H n t) i) by (rewrite CC; exact Ci).
      destruct (in_dec Nat.eq_dec j (map fst (prescribed_at H n q0))) as [Cj | Cj].
      + rewrite R7, T7; auto. apply CC. exact Cj.
      + rewrite R6, T6; auto. rewrite CC. exact Cj. }
  assert (SOL := proj1 (eliminated_solutions true q1 AA' (concat (rhs H dt t u)) (prescribed_at H n t) A'' b'' w
     ltac:(discriminate) ltac:(lia) ltac:(lia) ltac:(intros k Hk; rewrite Lb; exact (rows_bound H n m t k S Hk)) FL)).
  destruct SOL as [S1 S2]. { intros i Hi. apply ROW. lia. }
  rewrite <- (firstn_skipn n w) in S1, S2.
  set (u' := firstn n w) in *. set (p := skipn n w) in *.
  assert (Lu : length u' = n) by (unfold u'; rewrite firstn_length; lia).
  assert (Lp : length p = m) by (unfold p; rewrite skipn_length; lia).
  assert (Lf : length (vadd (vscale (q1 / dt)%Qc (mv (h_M H) u)) (h_f H t)) = n).
  { unfold vadd, vscale. rewrite !vtab_length, mv_length. apply S. }
  exists p. split; [exact Lu |]. split; [exact Lp |]. split; [| split; [| split]].
  - intros d v Hd. assert (Hdn : d < n). { apply S. destruct S as (_ & _ & _ & _ & _ & EV & _). rewrite <- (EV t). exact (assigned_in _ _ _ Hd). }
    rewrite <- (S1 d v) by (apply (assigned_at_V H n m); auto). rewrite vnth_app_l by lia. reflexivity.
  - intros d v Hd. rewrite <- (S1 (n + d) v) by (apply assigned_at_Q; auto). rewrite <- Lu at 1. rewrite vnth_app_r. reflexivity.
  - intros d Hd Hn. specialize (S2 d ltac:(lia) (free_V H n t d Hd Hn)).
    apply (row_V H n m dt) in S2; auto. unfold rhs in S2. cbn [concat] in S2. rewrite vnth_app_l in S2 by lia.
    unfold vadd in S2. rewrite vnth_vtab in S2 by (unfold vscale; rewrite vtab_length, mv_length; destruct S as ((HM & _) & _); lia).
    unfold vscale in S2. rewrite vnth_vtab in S2 by (rewrite mv_length; destruct S as ((HM & _) & _); lia).
    unfold Qcdiv in *. rewrite Qcmult_1_l in S2.
    transitivity ((/ dt * vnth (mv (h_M H) u') d + vnth (mv (h_K H) u') d + vnth (mv (mtr (h_T H)) p) d) - / dt * vnth (mv (h_M H) u) d)%Qc; [ring |].
    rewrite S2. ring.
  - intros d Hd Hn. specialize (S2 (n + d) ltac:(lia) (free_Q H n m t d S Hn)).
    apply (row_Q H n m) in S2; auto. unfold rhs in S2. cbn [concat] in S2. rewrite app_nil_r in S2. rewrite <- Lf in S2. rewrite vnth_app_r in S2. exact S2.
Qed.

Definition qn (k : nat) : Qc := qz (Z.of_nat k).
Lemma qn_0 : qn 0 = q0. Proof. reflexivity. Qed.
Lemma qn_S k : qn (S k) = (qn k + q1)%Qc.
Proof.
  unfold qn. replace (Z.of_nat (S k)) with (Z.of_nat k + 1)%Z by lia. apply Qc_is_canon. unfold qz, q1, Qcplus, Q2Qc, this.
  rewrite !Qred_correct, inject_Z_plus. reflexivity.
Qed.

Section March.
Variable lu : mat -> vec -> res vec.
Hypothesis lu_solves : forall A b x, lu A b = Ok x -> length x = nc A /\ mv A x = b.

Lemma march_steps fuel H n m dt A apply : sound H n m -> nc A = n + m ->
  (forall t u, exists bb, apply (conditions H t) (rhs H dt t u) = Ok bb /\ length (convert_bvec bb) = n + m /\
     forall w, length w = n + m -> mv A w = convert_bvec bb -> euler_step H n m dt t u (firstn n w)) ->
  forall t u t1 u1, march lu fuel H dt A apply t u = Ok (t1, u1) ->
  exists k us, us 0 = u /\ us k = u1 /\ t1 = (t + qn k * dt)%Qc /\ (q1 <= t1)%Qc /\
    forall i, i < k -> (t + qn i * dt < q1)%Qc /\ euler_step H n m dt (t + qn (S i) * dt)%Qc (us i) (us (S i)).
Proof.
  intros S HA HU. induction fuel as [| fuel IH]; intros t u t1 u1 E; cbn [march] in E.
  - destruct (qltb t q1) eqn:Q; [discriminate |]. injection E as <- <-. exists 0, (fun _ => u). repeat split; auto; try lia.
    + rewrite qn_0. unfold q0. ring.
    + unfold qltb in Q. apply negb_false_iff in Q. apply qleb_le. exact Q.
  - destruct (qltb t q1) eqn:Q.
    2: { injection E as <- <-. exists 0, (fun _ => u). repeat split; auto; try lia.
         - rewrite qn_0. unfold q0. ring.
         - unfold qltb in Q. apply negb_false_iff in Q. apply qleb_le. exact Q. }
    destruct (HU (t + dt)%Qc u) as (bb & E1 & Lb & Hstep). rewrite E1 in E. cbn [bind] in E.
    destruct (lu A (convert_bvec bb)) as [w |] eqn:EL; cbn [bind] in E; [| discriminate].
    destruct (lu_solves _ _ _ EL) as [Lw Hw]. replace (nr (h_M H)) with n in E by (symmetry; apply S).
    destruct (IH _ _ _ _ E) as (k & us & U0 & Uk & T & G & ST).
    exists (Datatypes.S k), (fun i => match i with O => u | Datatypes.S i' => us i' end). split; [reflexivity |]. split; [exact Uk |].
    split; [rewrite T, qn_S; unfold q1; ring |]. split; [exact G |]. intros [| i] Hi.
    + rewrite qn_0. split. { replace (t + q0 * dt)%Qc with t by (unfold q0; ring). apply qltb_lt. exact Q. }
      rewrite U0. replace (t + qn 1 * dt)%Qc with (t + dt)%Qc by (rewrite qn_S, qn_0; unfold q0, q1; ring). apply Hstep; [lia | exact Hw].
    + destruct (ST i ltac:(lia)) as [ST1 ST2]. split.
      * rewrite qn_S. replace (t + (qn i + q1) * dt)%Qc with (t + dt + qn i * dt)%Qc by (unfold q1; ring). exact ST1.
      * rewrite qn_S. replace (t + (qn (Datatypes.S i) + q1) * dt)%Qc with (t + dt + qn (Datatypes.S i) * dt)%Qc by (unfold q1; ring). exact ST2.
Qed.

Lemma march_returns fuel H n m dt A apply : sound H n m -> nc A = n + m -> (q0 < dt)%Qc ->
  (forall t u, exists bb, apply (conditions H t) (rhs H dt t u) = Ok bb /\ length (convert_bvec bb) = n + m /\
     forall w, length w = n + m -> mv A w = convert_bvec bb -> euler_step H n m dt t u (firstn n w)) ->
  forall t u, (q1 <= t + qn fuel * dt)%Qc ->
  (exists r, march lu fuel H dt A apply t u = Ok r) \/
  (exists b e, length b = n + m /\ lu A b = Err e /\ march lu fuel H dt A apply t u = Err e).
Proof.
  intros S HA Hdt HU. induction fuel as [| fuel IH]; intros t u T; cbn [march].
  - replace (qltb t q1) with false; [left; eexists; reflexivity |]. symmetry. unfold qltb. apply negb_false_iff, qleb_le.
    replace t with (t + qn 0 * dt)%Qc by (rewrite qn_0; unfold q0; ring). exact T.
  - destruct (qltb t q1) eqn:Q; [| left; eexists; reflexivity].
    destruct (HU (t + dt)%Qc u) as (bb & E1 & Lb & _). rewrite E1. cbn [bind].
    destruct (lu A (convert_bvec bb)) as [w | e] eqn:EL; cbn [bind].
    + destruct (IH (t + dt)%Qc (firstn (nr (h_M H)) w)) as [[r E] | (b & e & L & E & E')].
      * replace (t + dt + qn fuel * dt)%Qc with (t + qn (Datatypes.S fuel) * dt)%Qc by (rewrite qn_S; unfold q1; ring). exact T.
      * left. exists r. exact E.
      * right. exists b, e. auto.
    + right. exists (convert_bvec bb), e. auto.
Qed.
End March.


(** ** Energy *)
Definition energy (M : mat) (x y : vec) : Qc := sumn (nr M) (fun i => (vnth x i * vnth (mv M y) i)%Qc).

Lemma energy_minus M x y z w : length x = nr M -> length y = nr M -> nr M = nc M -> (forall i, i < nr M -> vnth z i = (vnth x i - vnth y i)%Qc) ->
  (forall i, i < nr M -> vnth w i = vnth z i) ->
  energy M w z = (energy M x x - energy M x y - energy M y x + energy M y y)%Qc.
Proof.
  intros Lx Ly HM Hz Hw. unfold energy.
  assert (E : forall i, i < nr M -> vnth (mv M z) i = (vnth (mv M x) i - vnth (mv M y) i)%Qc).
  { intros i Hi. rewrite !vnth_mv by auto. rewrite <- sumn_minus. apply sumn_ext. intros j Hj. rewrite Hz by lia. ring. }
  rewrite <- !sumn_minus, <- sumn_plus. apply sumn_ext. intros i Hi. rewrite E, Hw, Hz by auto. ring.
Qed.
Lemma energy_sym M x y : nr M = nc M -> (forall i j, i < nr M -> j < nr M -> ent M i j = ent M j i) -> energy M x y = energy M y x.
Proof.
  intros HM HS. unfold energy.
  rewrite (sumn_ext _ _ (fun i => sumn (nr M) (fun j => (vnth x i * ent M i j * vnth y j)%Qc))).
  2: { intros i Hi. rewrite vnth_mv, <- HM by auto. rewrite <- sumn_scal. apply sumn_ext. intros j Hj. ring. }
  rewrite sumn_swap. apply sumn_ext. intros j Hj. rewrite vnth_mv, <- HM by auto. rewrite <- sumn_scal. apply sumn_ext. intros i Hi.
  rewrite (HS i j) by auto. ring.
Qed.
Lemma transposed T u p : sumn (nc T) (fun i => (vnth u i * vnth (mv (mtr T) p) i)%Qc) = sumn (nr T) (fun j => (vnth p j * vnth (mv T u) j)%Qc).
Proof.
  rewrite (sumn_ext _ _ (fun i => sumn (nr T) (fun j => (vnth u i * ent T j i * vnth p j)%Qc))).
  2: { intros i Hi. rewrite vnth_mv by (cbn; auto). cbn [mtr nc ent]. rewrite <- sumn_scal. apply sumn_ext. intros j Hj. ring. }
  rewrite sumn_swap. apply sumn_ext. intros j Hj. rewrite vnth_mv by auto. rewrite <- sumn_scal. apply sumn_ext. intros i Hi. ring.
Qed.

Lemma zero_value (l : items) d x : (forall v, In v (map snd l) -> v = q0) -> (forall v, assigned l d v -> x = v) -> In d (map fst l) -> x = q0.
Proof.
  intros Hz Hx Hd. destruct (assigned_exists l d Hd) as [v Hv]. rewrite (Hx v Hv). apply Hz.
  destruct Hv as (pre & post & -> & _). rewrite map_app. apply in_or_app. right. left. reflexivity.
Qed.

Lemma Qc_minus_nonneg a b : (q0 <= a - b)%Qc <-> (b <= a)%Qc.
Proof. unfold q0. rewrite (Qcle_minus_iff b a). unfold Qcminus. reflexivity. Qed.

(** Without sources and with boundary values zero the norm of the solution does not grow *)
Lemma euler_stable H n m dt t u u' : sound H n m -> length u = n -> (q0 < dt)%Qc ->
  (forall i j, i < n -> j < n -> ent (h_M H) i j = ent (h_M H) j i) ->
  (forall x, length x = n -> (q0 <= energy (h_M H) x x)%Qc) -> (forall x, length x = n -> (q0 <= energy (h_K H) x x)%Qc) ->
  (forall i, vnth (h_f H t) i = q0) -> (forall i, vnth (h_g H t) i = q0) ->
  (forall v, In v (map snd (h_V H t)) -> v = q0) -> (forall v, In v (map snd (h_Q H)) -> v = q0) ->
  euler_step H n m dt t u u' -> (energy (h_M H) u' u' <= energy (h_M H) u u)%Qc.
Proof.
  intros S Lu Hdt SM PM PK Zf Zg ZV ZQ (p & Lu' & Lp & AV & AQ & RV & RQ).
  assert (S' := S). destruct S' as ((M1 & M2) & (K1 & K2) & (T1 & T2) & _).
  assert (Hdt0 : dt <> q0). { intros ->. exact (Qclt_not_le _ _ Hdt (Qcle_refl _)). }
  assert (T0 : sumn n (fun i => (vnth u' i * vnth (mv (mtr (h_T H)) p) i)%Qc) = q0).
  { rewrite <- T2, transposed, T1. apply sumn_zero. intros j Hj. destruct (in_dec Nat.eq_dec j (map fst (h_Q H))) as [C | C].
    - rewrite (zero_value (h_Q H) j (vnth p j)); auto. unfold q0. ring.
    - rewrite RQ, Zg by auto. unfold q0. ring. }
  assert (E : (energy (h_M H) u' u' - energy (h_M H) u' u + dt * energy (h_K H) u' u' = q0)%Qc).
  { unfold energy. rewrite M1, K1. rewrite <- sumn_minus, <- sumn_scal, <- sumn_plus.
    transitivity (dt * - sumn n (fun i => (vnth u' i * vnth (mv (mtr (h_T H)) p) i)))%Qc.
    2: { rewrite T0. unfold q0. ring. }
    replace (dt * - sumn n (fun i => (vnth u' i * vnth (mv (mtr (h_T H)) p) i)))%Qc with ((- dt) * sumn n (fun i => (vnth u' i * vnth (mv (mtr (h_T H)) p) i)))%Qc by ring.
    rewrite <- sumn_scal. apply sumn_ext. intros i Hi. destruct (in_dec Nat.eq_dec i (map fst (h_V H t))) as [C | C].
    - rewrite (zero_value (h_V H t) i (vnth u' i)); auto. unfold q0. ring.
    - specialize (RV i Hi C). rewrite Zf in RV.
      assert (R : (vnth (mv (h_M H) u') i - vnth (mv (h_M H) u) i + dt * vnth (mv (h_K H) u') i + dt * vnth (mv (mtr (h_T H)) p) i = q0)%Qc).
      { transitivity (dt * ((vnth (mv (h_M H) u') i - vnth (mv (h_M H) u) i) / dt + vnth (mv (h_K H) u') i + vnth (mv (mtr (h_T H)) p) i))%Qc.
        - field. exact Hdt0.
        - rewrite RV. unfold q0. ring. }
      transitivity (vnth u' i * (vnth (mv (h_M H) u') i - vnth (mv (h_M H) u) i + dt * vnth (mv (h_K H) u') i + dt * vnth (mv (mtr (h_T H)) p) i) - dt * (vnth u' i * vnth (mv (mtr (h_T H)) p) i))%Qc; [ring |].
      rewrite R. unfold q0. ring. }
  assert (P : (q0 <= energy (h_M H) u' u' - energy (h_M H) u' u - energy (h_M H) u u' + energy (h_M H) u u)%Qc).
  { rewrite <- (energy_minus (h_M H) u' u (vtab n (fun i => (vnth u' i - vnth u i)%Qc)) (vtab n (fun i => (vnth u' i - vnth u i)%Qc))); try lia.
    - apply PM. apply vtab_length.
    - rewrite M1. intros i Hi. apply vnth_vtab. exact Hi.
    - auto. }
  rewrite (energy_sym (h_M H) u u') in P by (rewrite ?M1, ?M2; auto).
  pose proof (PK u' Lu') as PK'.
  assert (PD : (q0 <= dt * energy (h_K H) u' u')%Qc).
  { replace q0 with (q0 * energy (h_K H) u' u')%Qc by (unfold q0; ring). apply Qcmult_le_compat_r; [apply Qclt_le_weak; exact Hdt | exact PK']. }
  apply Qc_minus_nonneg.
  assert (F : energy (h_M H) u' u = (energy (h_M H) u' u' + dt * energy (h_K H) u' u')%Qc).
  { transitivity (energy (h_M H) u' u' + dt * energy (h_K H) u' u' - (energy (h_M H) u' u' - energy (h_M H) u' u + dt * energy (h_K H) u' u'))%Qc; [ring |]. rewrite E. unfold q0. ring. }
  rewrite F in P.
  replace (energy (h_M H) u u - energy (h_M H) u' u')%Qc with
    ((energy (h_M H) u' u' - (energy (h_M H) u' u' + dt * energy (h_K H) u' u') - (energy (h_M H) u' u' + dt * energy (h_K H) u' u') + energy (h_M H) u u) + (dt * energy (h_K H) u' u' + dt * energy (h_K H) u' u'))%Qc by ring.
  replace q0 with (q0 + (q0 + q0))%Qc by (unfold q0; ring). apply Qcplus_le_compat; [exact P |]. apply Qcplus_le_compat; exact PD.
Qed.
Lemma qn_lt i j : i < j -> (qn i < qn j)%Qc.
Proof.
  intros H. unfold qn, qz, Qclt, Q2Qc, this. rewrite !Qred_correct. apply Z.lt_0_sub in H || idtac.
  unfold Qlt. cbn. lia.
Qed.
