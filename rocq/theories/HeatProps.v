(** Property C112: time steps *)
From Coq Require Import SpecFloat.
From Verif Require Import Base BaseProofs Mat MatProofs ConvertModel BcModel BcProofs BcReturnsProofs HeatModel HeatProofs.
Local Open Scope nat_scope.

Section Solver.
Variable lu : mat -> vec -> res vec.
Hypothesis lu_solves : forall A b x, lu A b = Ok x -> length x = nc A /\ mv A x = b.

(** What is returned is the end of a sequence of implicit steps from u0, at the times dt, 2 dt, ..., with the
    boundary values and sources of those times; steps are made while the time is less than 1 *)
Theorem C112_euler : forall fuel H n m dt u0 t u, sound H n m -> heat lu fuel H dt u0 = Ok (t, u) ->
  exists k us, us 0 = u0 /\ us k = u /\ t = (qn k * dt)%Qc /\ (q1 <= t)%Qc /\
    forall i, i < k -> (qn i * dt < q1)%Qc /\ euler_step H n m dt (qn (S i) * dt)%Qc (us i) (us (S i)).
Proof.
  intros fuel H n m dt u0 t u S E. unfold heat in E. destruct fuel as [| f].
  { destruct (apply_bc 0 _ _ _ _ _ _) as [out |] eqn:A0; cbn [bind] in E; [| discriminate]. destruct out as [? ? | AA0 b0 apply]; [discriminate |].
    unfold convert_bmat in E. destruct (convert_blocks 0 _) eqn:C; cbn [bind] in E; [| discriminate].
    destruct (numpy_block_mat _ _ _) as [M0 |] eqn:C2; cbn [bind] in E; [| discriminate]. cbn [march] in E.
    assert (Q : qltb q0 q1 = true) by reflexivity. rewrite Q in E. discriminate. }
  destruct (apply_bc (Datatypes.S f) _ _ _ _ _ _) as [out |] eqn:A0; cbn [bind] in E; [| discriminate].
  destruct out as [? ? | AA0 b0 apply]; [discriminate |]. cbv iota beta in E.
  assert (X : (do A <- convert_bmat (Datatypes.S f) (mat_blocks AA0); march lu (Datatypes.S f) H dt A apply q0 u0) = Ok (t, u)) by exact E.
  clear E. rename X into E.
  destruct (convert_bmat (Datatypes.S f) (mat_blocks AA0)) as [M0 |] eqn:C0; cbn [bind] in E; [| discriminate].
  destruct (updated f H n m dt u0 AA0 b0 apply M0 S A0 C0) as (N1 & N2 & HU).
  destruct (march_steps lu lu_solves _ H n m dt M0 apply S N2 HU _ _ _ _ E) as (k & us & U0 & Uk & T & G & ST).
  exists k, us. split; [exact U0 |]. split; [exact Uk |]. split; [rewrite T; unfold q0; ring |]. split; [exact G |].
  intros i Hi. destruct (ST i Hi) as [S1 S2].
  split; [replace (qn i * dt)%Qc with (q0 + qn i * dt)%Qc by (unfold q0; ring); exact S1 |].
  replace (qn (Datatypes.S i) * dt)%Qc with (q0 + qn (Datatypes.S i) * dt)%Qc by (unfold q0; ring). exact S2.
Qed.

(** It returns, unless the solver raises *)
Theorem C112_returns : forall fuel H n m dt u0, sound H n m -> (q0 < dt)%Qc -> (q1 <= qn fuel * dt)%Qc ->
  (exists r, heat lu fuel H dt u0 = Ok r) \/ (exists A b e, nr A = n + m /\ length b = n + m /\ lu A b = Err e /\ heat lu fuel H dt u0 = Err e).
Proof.
  intros [| f] H n m dt u0 S Hdt Hf.
  { exfalso. apply (Qclt_not_le q0 q1); [reflexivity |]. replace q0 with (qn 0 * dt)%Qc by (rewrite qn_0; unfold q0; ring). exact Hf. }
  unfold heat. destruct (applied f H n m dt q0 u0 S) as [out A0]. rewrite A0. cbn [bind].
  destruct out as [AA0 b0 | AA0 b0 apply].
  { exfalso. apply (BcUpdaterProofs.apply_bc_block_eq (Datatypes.S f) (lhs H dt) (rhs H dt q0 u0)) in A0.
    - destruct A0 as (l & AA & x & A' & b' & _ & _ & _ & _ & _ & _ & _ & _ & E). discriminate.
    - rewrite (rhs_lengths H n m dt q0 u0 S), prescribed_conditions. apply (prescribed_nonempty _ _ m). exact S. }
  enough (X : (exists r, (do A <- convert_bmat (Datatypes.S f) (mat_blocks AA0); march lu (Datatypes.S f) H dt A apply q0 u0) = Ok r) \/
    (exists A b e, nr A = n + m /\ length b = n + m /\ lu A b = Err e /\ (do A <- convert_bmat (Datatypes.S f) (mat_blocks AA0); march lu (Datatypes.S f) H dt A apply q0 u0) = Err e)) by exact X.
  destruct (BcUpdaterProofs.apply_bc_reassembles _ _ _ _ _ _ _ _ f A0) as (AA & A' & b' & M0 & _ & _ & _ & _ & C0 & _).
  { discriminate. } { cbn [vec_blocks is_plain]. rewrite (rhs_lengths H n m dt q0 u0 S), prescribed_conditions. apply (prescribed_nonempty _ _ m). exact S. }
  cbn [out_A] in C0. rewrite C0. cbn [bind]. destruct (updated f H n m dt u0 AA0 b0 apply M0 S A0 C0) as (N1 & N2 & HU).
  destruct (march_returns lu (Datatypes.S f) H n m dt M0 apply S N2 Hdt HU q0 u0) as [R | (b & e & L & E1 & E2)].
  - replace (q0 + qn (Datatypes.S f) * dt)%Qc with (qn (Datatypes.S f) * dt)%Qc by (unfold q0; ring). exact Hf.
  - left. exact R.
  - right. exists M0, b, e. auto.
Qed.

(** The final time: less than one step after 1, and 1 if dt divides it *)
Theorem C112_final_time : forall fuel H n m dt u0 t u, sound H n m -> (q0 < dt)%Qc -> heat lu fuel H dt u0 = Ok (t, u) ->
  ((q1 <= t)%Qc /\ (t < q1 + dt)%Qc) /\ (forall N, (qn N * dt)%Qc = q1 -> t = q1).
Proof.
  intros fuel H n m dt u0 t u S Hdt E. destruct (C112_euler fuel H n m dt u0 t u S E) as (k & us & _ & _ & -> & G & ST).
  assert (L : (qn k * dt < q1 + dt)%Qc).
  { destruct k as [| k].
    - exfalso. apply (Qclt_not_le q0 q1); [reflexivity |]. replace q0 with (qn 0 * dt)%Qc by (rewrite qn_0; unfold q0; ring). exact G.
    - destruct (ST k ltac:(lia)) as [L _]. rewrite qn_S. replace ((qn k + q1) * dt)%Qc with (dt + qn k * dt)%Qc by (unfold q1; ring).
      rewrite (Qcplus_comm q1). apply Qclt_minus_iff. replace (dt + q1 + - (dt + qn k * dt))%Qc with (q1 + - (qn k * dt))%Qc by ring. apply Qclt_minus_iff in L. exact L. }
  split; [split; assumption |]. intros N HN.
  destruct (lt_eq_lt_dec k N) as [[C | ->] | C]; [| exact HN |].
  - exfalso. apply (Qclt_not_le (qn k * dt) q1); [| exact G]. rewrite <- HN. apply Qcmult_lt_compat_r; [exact Hdt |]. apply qn_lt. exact C.
  - exfalso. destruct (ST N C) as [L' _]. rewrite HN in L'. exact (Qclt_not_le _ _ L' (Qcle_refl _)).
Qed.

(** Without sources and boundary values the solution does not grow *)
Theorem C112_stable : forall fuel H n m dt u0 t u, sound H n m -> length u0 = n -> (q0 < dt)%Qc ->
  (forall i j, i < n -> j < n -> ent (h_M H) i j = ent (h_M H) j i) ->
  (forall x, length x = n -> (q0 <= energy (h_M H) x x)%Qc) -> (forall x, length x = n -> (q0 <= energy (h_K H) x x)%Qc) ->
  (forall t i, vnth (h_f H t) i = q0) -> (forall t i, vnth (h_g H t) i = q0) ->
  (forall t v, In v (map snd (h_V H t)) -> v = q0) -> (forall v, In v (map snd (h_Q H)) -> v = q0) ->
  heat lu fuel H dt u0 = Ok (t, u) -> (energy (h_M H) u u <= energy (h_M H) u0 u0)%Qc.
Proof.
  intros fuel H n m dt u0 t u S L0 Hdt SM PM PK Zf Zg ZV ZQ E.
  destruct (C112_euler fuel H n m dt u0 t u S E) as (k & us & U0 & Uk & _ & _ & ST). subst u u0. clear E.
  assert (G : forall i, i <= k -> length (us i) = n /\ (energy (h_M H) (us i) (us i) <= energy (h_M H) (us 0%nat) (us 0%nat))%Qc).
  { induction i as [| i IH]; intros Hi; [split; [exact L0 | apply Qcle_refl] |].
    destruct (IH ltac:(lia)) as [L I]. destruct (ST i ltac:(lia)) as [_ St]. split; [destruct St as (p & Lu & _); exact Lu |].
    eapply Qcle_trans; [| exact I].
    apply (euler_stable H n m dt (qn (Datatypes.S i) * dt)%Qc (us i) (us (Datatypes.S i)) S L Hdt SM PM PK (Zf _) (Zg _) (ZV _) ZQ St). }
  apply G. lia.
Qed.
End Solver.
Print Assumptions C112_euler.
Print Assumptions C112_returns.
Print Assumptions C112_final_time.
Print Assumptions C112_stable.

(** The value of a double *)
Definition sf_value (x : spec_float) : Q :=
  match x with
  | S754_finite s m e =>
      let v := inject_Z (if s then Z.neg m else Z.pos m) in
      match e with Zneg p => v / inject_Z (2 ^ Zpos p) | _ => v * inject_Z (2 ^ e) end
  | _ => 0
  end.
(** dt = 0.1 of line 79: ten steps of its value are past 1, but in double precision there are eleven steps, to 1.1 *)
Definition tenth : spec_float := S754_finite false 7205759403792794 (-56).
Definition quarter : spec_float := S754_finite false 4503599627370496 (-54).
Theorem C112_float_refuted : (1 # 10 < sf_value tenth /\ sf_value tenth < (1 # 10) + (1 # (10 ^ 16)))%Q /\ (1 <= inject_Z 10 * sf_value tenth)%Q /\
  (exists t, float_steps 11 tenth (S754_zero false) = Some (11, t) /\ (1 + sf_value tenth - (1 # (10 ^ 15)) < sf_value t /\ sf_value t < 1 + sf_value tenth)%Q) /\
  (* a step of 1/4 is exact and the loop ends at 1 *)
  (sf_value quarter == 1 # 4)%Q /\ float_steps 5 quarter (S754_zero false) = Some (4, float_one).
Proof.
  split; [split; vm_compute; reflexivity |]. split; [vm_compute; discriminate |]. split; [| split; vm_compute; reflexivity].
  exists (S754_finite false 4953959590107545 (-52)). split; [vm_compute; reflexivity |]. split; vm_compute; reflexivity.
Qed.
Print Assumptions C112_float_refuted.

(** Two unknowns, the second on the boundary, no multiplier there: two steps of 1/2 *)
Definition rod : heat_problem :=
  Heat (of_rows 2 2 [[q1; (- q1)%Qc]; [(- q1)%Qc; q1]]) (mid 2) (of_rows 1 2 [[q0; q1]])
    (fun _ => [q0; q0]) (fun _ => [q0]) (fun t => [(1, t)]) [(0, q0)].
Example case_rod : sound rod 2 1 /\
  euler_step rod 2 1 (q1 / qz 2)%Qc (q1 / qz 2)%Qc [q0; q0] [(q1 / qz 6)%Qc; (q1 / qz 2)%Qc].
Proof.
  split.
  - unfold sound. cbn. repeat split; auto; try (intros d [<- | []]; lia). left. discriminate.
  - exists [q0]. split; [reflexivity |]. split; [reflexivity |]. split; [| split; [| split]].
    + intros d v ([| p [| ? ?]] & post & E & _); cbn in E; inversion E; subst. reflexivity.
    + intros d v ([| p [| ? ?]] & post & E & _); cbn in E; inversion E; subst. reflexivity.
    + intros [| [| d]] Hd Hn; [apply Qc_is_canon; vm_compute; reflexivity | cbn in Hn; lia | lia].
    + intros [| d] Hd Hn; [cbn in Hn; lia | lia].
Qed.
