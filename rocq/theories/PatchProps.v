(** C37: patch averages with and without colouring. *)
From Verif Require Import Base BaseProofs Mat MatProofs FillModel FillProofs PatchModel PatchProofs.
Local Open Scope nat_scope.
Local Close Scope Q_scope.
Local Close Scope Qc_scope.

(** Assembled patch by patch, a row is the average over its patch; rows of colour 0
    vanish.  The matrix exists iff all the patches have cells. *)
Theorem C37_plain m n cells ids A i j color : patch_avg m n cells None ids = Ok A -> nth_error ids i = Some color ->
  ent A i j = if color =? 0 then q0 else patch_mean cells color j.
Proof. apply plain_entries. Qed.
Theorem C37_plain_exists m n cells ids : (exists A, patch_avg m n cells None ids = Ok A) <-> forall color, In color ids -> color <> 0 -> exists c, In c cells /\ pc_mark c = color.
Proof. apply plain_ok. Qed.
(** The averages reproduce constants: the weights of a patch of nonzero volume add
    up to one when the basis functions of each cell do. *)
Theorem C37_constants m n cells ids A i color : patch_avg m n cells None ids = Ok A -> nth_error ids i = Some color -> color <> 0 ->
  (forall c d, In c cells -> In d (map fst (pc_ints c)) -> d < n) -> (forall c, In c cells -> qsum (map snd (pc_ints c)) = pc_vol c) -> patch_vol cells color <> q0 ->
  sumn n (fun j => ent A i j) = q1.
Proof.
  intros E Hi N H U V. apply Nat.eqb_neq in N. rewrite (sumn_ext n _ (fun j => (/ patch_vol cells color * patch_int cells color j)%Qc)).
  - rewrite sumn_scal, sumn_patch by assumption. unfold q1. field. exact V.
  - intros j _. rewrite (C37_plain _ _ _ _ _ _ j _ E Hi), N. unfold patch_mean, Qcdiv. ring.
Qed.
(** Assembled group by group, provided the patches of a group have no common dofs:
    the first row of a colour has the average times the number of rows with that
    colour, the other rows vanish. *)
Theorem C37_coloring_partial m n cells coloring ids A i j color : patch_avg m n cells (Some coloring) ids = Ok A -> proper cells coloring ids -> nth_error ids i = Some color ->
  (first_row ids color i -> (exists g, In (color, g) coloring) -> ent A i j = (qz (Z.of_nat (count_occ Nat.eq_dec ids color)) * patch_mean cells color j)%Qc) /\
  (~ first_row ids color i \/ (forall g, ~ In (color, g) coloring) -> ent A i j = q0).
Proof. apply coloring_entries. Qed.
(** C37 when moreover no colour but 0 is repeated and the coloured patches are those
    other than 0. *)
Theorem C37_agree_partial m n cells coloring ids : proper cells coloring ids ->
  (forall i k color, color <> 0 -> nth_error ids i = Some color -> nth_error ids k = Some color -> i = k) ->
  (forall color, In color ids -> (exists g, In (color, g) coloring) <-> color <> 0) ->
  ((exists A, patch_avg m n cells None ids = Ok A) <-> (exists B, patch_avg m n cells (Some coloring) ids = Ok B)) /\
  forall A B, patch_avg m n cells None ids = Ok A -> patch_avg m n cells (Some coloring) ids = Ok B ->
    forall i j, i < length ids -> ent A i j = ent B i j.
Proof.
  intros P U D. split.
  - cbn [patch_avg]. rewrite plain_ok, coloring_ok. split.
    + intros H color g HC HA. apply (H color HC), (D color HC). exists g. apply assoc_In, HA.
    + intros H color HC N. apply (D color HC) in N. apply assoc_domain in N. destruct N as (g & Hg). apply (H color g HC Hg).
  - intros A B EA EB i j Hi. destruct (nth_error ids i) as [color|] eqn:NC; [|apply nth_error_None in NC; lia]. rewrite (C37_plain _ _ _ _ _ _ j _ EA NC).
    destruct (coloring_entries _ _ _ _ _ _ i j color EB P NC) as [E1 E2]. pose proof (nth_error_In _ _ NC) as HC. destruct (Nat.eqb_spec color 0) as [->|N].
    + symmetry. apply E2. right. intros g Hg. apply (D 0 HC); [eauto|reflexivity].
    + rewrite E1.
      * rewrite (count_one ids color i NC); [change (qz (Z.of_nat 1)) with q1; unfold q1; ring|]. intros k Hk. symmetry. apply (U i k color); assumption.
      * split; [assumption|]. intros k L Hk. assert (i = k) by (apply (U i k color); assumption). lia.
      * apply (D color HC), N.
Qed.

(** Without these hypotheses the matrices differ.  Patches of one group that share
    a dof: *)
Definition two_patches : list pcell := [PCell 1 (qz 1) [(0, qz 1); (1, qz 1)]; PCell 2 (qz 1) [(1, qz 1); (2, qz 1)]].
Theorem C37_shared_dof_refuted : exists A B, patch_avg 2 3 two_patches None [1; 2] = Ok A /\ patch_avg 2 3 two_patches (Some [(1, 0); (2, 0)]) [1; 2] = Ok B /\
  ent A 0 1 = qz 1 /\ ent B 0 1 = qz 2.
Proof. eexists. eexists. split; [reflexivity|]. split; [reflexivity|]. split; vm_compute; reflexivity. Qed.
(** a colour on two rows: *)
Theorem C37_repeated_color_refuted : exists A B, patch_avg 2 3 two_patches None [1; 1] = Ok A /\ patch_avg 2 3 two_patches (Some [(1, 0)]) [1; 1] = Ok B /\
  ent A 0 0 = qz 1 /\ ent A 1 0 = qz 1 /\ ent B 0 0 = qz 2 /\ ent B 1 0 = qz 0.
Proof. eexists. eexists. split; [reflexivity|]. split; [reflexivity|]. repeat split; vm_compute; reflexivity. Qed.
(** a patch without a colour in [patch_coloring]: *)
Theorem C37_uncolored_refuted : exists A B, patch_avg 2 3 two_patches None [1; 2] = Ok A /\ patch_avg 2 3 two_patches (Some [(1, 0)]) [1; 2] = Ok B /\
  ent A 1 2 = qz 1 /\ ent B 1 2 = qz 0.
Proof. eexists. eexists. split; [reflexivity|]. split; [reflexivity|]. split; vm_compute; reflexivity. Qed.

(** With point evaluation instead of patches, a row picks the nearest dof, within
    the tolerance. *)
Theorem C37_dirac m n sqdists A i ds j : dirac_matrix m n sqdists = Ok A -> nth_error sqdists i = Some ds ->
  exists col d, nth_error ds col = Some d /\ (d < q1 / qz (10 ^ 20))%Qc /\ (forall x, In x ds -> (d <= x)%Qc) /\ ent A i j = if j =? col then q1 else q0.
Proof.
  unfold dirac_matrix. destruct (mapM _ _) as [rows|] eqn:E; [|discriminate]. cbn [bind]. intros EA Hi. assert (A = coo m n rows) by congruence. subst A. clear EA. cbn [ent coo].
  assert (LI : i < length sqdists) by (apply nth_error_Some; congruence).
  assert (K : forall l rows, mapM dirac_row l = Ok rows -> forall k t, nth_error rows k = Some t -> exists rd, nth_error l k = Some rd /\ dirac_row rd = Ok t).
  { clear. induction l as [|x l IH]; intros rows E k t Hk; [injection E as <-; destruct k; discriminate|]. rewrite mapM_cons in E. destruct (dirac_row x) as [y|] eqn:D; [|discriminate]. destruct (mapM dirac_row l) as [ys|]; [|discriminate]. injection E as <-. destruct k as [|k]; cbn in *; [injection Hk as <-; eauto|]. eapply IH; eauto. }
  assert (LEN : length rows = length sqdists).
  { apply mapM_length in E. rewrite E, combine_length, seq_length. lia. }
  destruct (nth_error rows i) as [t|] eqn:T; [|apply nth_error_None in T; lia]. destruct (K _ _ E i t T) as ([r ds'] & R1 & R2).
  rewrite nth_error_combine, Hi in R1. rewrite nth_error_nth' with (d := 0) in R1 by (rewrite seq_length; assumption). rewrite seq_nth in R1 by assumption. assert (r = i) by (cbn in R1; congruence). assert (ds' = ds) by congruence. subst r ds'.
  destruct (dirac_row_spec _ _ _ R2) as (col & d & -> & D1 & D2 & D3). exists col, d. split; [assumption|]. split; [assumption|]. split; [assumption|].
  unfold coo_ent. rewrite qplus_qsum, (qsum_single _ _ i (i, col, q1) T).
  - cbn [fst snd]. rewrite Nat.eqb_refl, (Nat.eqb_sym col j). reflexivity.
  - intros k y Hk N. destruct (K _ _ E k y Hk) as ([r ds'] & Q1 & Q2). rewrite nth_error_combine in Q1. destruct (nth_error (seq 0 (length sqdists)) k) as [r'|] eqn:S0; [|discriminate]. destruct (nth_error sqdists k); [|discriminate]. assert (r' = r) by congruence. subst r'.
    assert (LK : k < length sqdists) by (rewrite <- (seq_length (length sqdists) 0); apply nth_error_Some; congruence). rewrite nth_error_nth' with (d := 0) in S0 by (rewrite seq_length; assumption). rewrite seq_nth in S0 by assumption. injection S0 as S0.
    destruct (dirac_row_spec _ _ _ Q2) as (col' & d' & -> & _). cbn [fst snd]. replace (r =? i) with false by (symmetry; apply Nat.eqb_neq; lia). reflexivity.
Qed.

(** A case meeting the hypotheses of the agreement: disjoint patches in one group, a
    row of colour 0. *)
Definition apart : list pcell := [PCell 1 (qz 1) [(0, qz 1)]; PCell 2 (qz 2) [(1, qz 1); (2, qz 1)]; PCell 1 (qz 1) [(0, qz 1)]].
Example C37_hypotheses_met : proper apart [(1, 0); (2, 0)] [2; 0; 1] /\
  (forall i k color, color <> 0 -> nth_error [2; 0; 1] i = Some color -> nth_error [2; 0; 1] k = Some color -> i = k) /\
  (forall color, In color [2; 0; 1] -> (exists g, In (color, g) [(1, 0); (2, 0)]) <-> color <> 0) /\
  exists A, patch_avg 3 3 apart None [2; 0; 1] = Ok A /\ ent A 0 1 = (qz 1 / qz 2)%Qc /\ ent A 2 0 = qz 1.
Proof.
  split; [|split; [|split]].
  - intros c1 c2 g H1 H2 N G1 G2 p q d Hp Hq Mp Mq Dp Dq. cbn in Hp, Hq.
    destruct Hp as [<-|[<-|[<-|[]]]], Hq as [<-|[<-|[<-|[]]]]; cbn in *; subst; try (apply N; reflexivity); intuition (subst; discriminate).
  - intros i k color N Hi Hk. destruct i as [|[|[|[|i]]]], k as [|[|[|[|k]]]]; cbn in *; try reflexivity; congruence.
  - intros color H. split.
    + intros (g & [E|[E|[]]]); congruence.
    + intros N. destruct H as [<-|[<-|[<-|[]]]]; [exists 0; cbn; auto|congruence|exists 0; cbn; auto].
  - eexists. split; [reflexivity|]. split; vm_compute; reflexivity.
Qed.
Print Assumptions C37_agree_partial.
