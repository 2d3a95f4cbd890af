(** C123: the preconditioners of the demos with iterative solvers *)
From Coq Require Import Reals Lra Qreals.
From Verif Require Import Base BaseProofs MmsModel MmsProofs Mms2Model Mms3Model PrecModel.
Local Open Scope R_scope.

(** ** The norms of the multipliers *)
(** The curve consists of the sides of the multiplier; it is constrained where the curve meets a side with conditions for u, nowhere else, and the system constrains it there too *)
Theorem C123_ends s x y : (lm_curve x y <-> exists t, In t (PBC_lm_tags s) /\ on_side t x y) /\ (lm_curve x y -> (PBI_constrained s x y <-> exists t, In t (PBC_dir_tags s) /\ on_side t x y) /\ (PBI_constrained s x y <-> exists g, In ((x, y), g) (PBC_Q_bcs s))).
Proof.
  split.
  { unfold lm_curve. split.
    - intros [C | C]; [exists 2%nat | exists 4%nat]; destruct s; cbn [PBC_lm_tags In]; unfold on_side, in_square; (split; [tauto | lra]).
    - intros (t & T & S). assert (t = 2 \/ t = 4)%nat as [-> | ->] by (destruct s; cbn in T; intuition auto); destruct S as [S1 S2]; unfold in_square in S1; lra. }
  intros C. unfold lm_curve in C. destruct s; cbn [PBI_constrained PBC_dir_tags PBC_Q_bcs In]; unfold domain_boundary; split; split.
  - intros E. exists 1%nat. unfold on_side, in_square. split; [tauto | lra].
  - intros (t & [<- | []] & S). apply S.
  - intros E. exists 0. left. f_equal. f_equal; lra.
  - intros (g & [E | []]). injection E as <- _ _. reflexivity.
  - intros [[-> ->] | [-> ->]]; [exists 3%nat | exists 1%nat]; unfold on_side, in_square; (split; [tauto | lra]).
  - intros (t & [<- | [<- | []]] & [_ S]); lra.
  - intros [[-> ->] | [-> ->]]; exists 0; [left | right; left]; reflexivity.
  - intros (g & [E | [E | []]]); injection E as <- <- _; [left | right]; split; reflexivity.
  - intros [].
  - intros (t & [] & _).
  - intros [].
  - intros (g & []).
Qed.
Print Assumptions C123_ends.

(** mixed_poisson_babuska_iter.py: the end of the curve on the side with conditions for the flux is constrained *)
Theorem C123_mixed_partial x y t : lm_curve x y -> In t MP_flux_tags -> on_side t x y -> MPI_constrained x y.
Proof. unfold lm_curve, MPI_constrained. intros C [<- | []] [_ S]. lra. Qed.
Print Assumptions C123_mixed_partial.
(** but so is all of the right side, which are inner points of the multiplier's curve with no conditions *)
Theorem C123_mixed_refuted : forall y, 0 < y < 1 -> lm_curve 1 y /\ MPI_constrained 1 y /\ ~ domain_boundary 1 y /\ forall t, In t (MP_flux_tags ++ MP_pressure_tags) -> ~ on_side t 1 y.
Proof.
  intros y H. split; [left; split; [reflexivity | lra] |]. split; [reflexivity |]. split; [unfold domain_boundary; lra |]. intros t [<- | [<- | []]] [_ S]; lra.
Qed.
Print Assumptions C123_mixed_refuted.

(** Every choice of the norm that the parser accepts is made by the first two demos *)
Theorem C123_choices_partial h : In h choices_3 -> hs_all h = Ok tt.
Proof. intros [<- | [<- | [<- | []]]]; reflexivity. Qed.
Print Assumptions C123_choices_partial.
(** but not by the others: mg is accepted and raises *)
Theorem C123_choices_refuted : exists h, In h choices_2 /\ hs_eig_only h = Err UnboundLocalError /\ forall h', In h' choices_2 -> h' <> h -> hs_eig_only h' = Ok tt.
Proof. exists HsMg_. split; [right; left; reflexivity |]. split; [reflexivity |]. intros h' [<- | [<- | []]] N; [reflexivity | contradiction N; reflexivity]. Qed.
Print Assumptions C123_choices_refuted.

(** ** Blocks *)
(** The block is that of the system, without data and multipliers, if there are conditions *)
Notation j0 := (Jet 0 0 0).
Theorem C123_same_blocks :
  (forall s u v, PBC_dir_tags s <> [] -> PBI_V s u v = PBC_row0_dx u v 0) /\
  (forall par u v, TDI_V par u v = TD_row0_dx par u v 0) /\ (forall par u1 v1, TDI_V1 par u1 v1 = TD_row1_gamma par u1 v1 j0 0) /\
  (forall par uS vS, LYI_VS_dx par uS vS = DS_stokes_dx par uS vS j0 (0, 0)) /\
  (forall par t uS vS, In t DS_lm_tags -> LYI_VS_side par t uS vS = LY_row0_side par t uS vS 0 (0, 0) 0) /\
  (forall par hA n up um vp vm, LYI_stab par hA n up um vp vm = LY_stab par hA n up um vp vm).
Proof.
  split; [| split; [| split; [| split; [| split]]]].
  - intros s u v N. unfold PBI_V, PBC_row0_dx. destruct (PBC_dir_tags s); [contradiction N; reflexivity | ring].
  - intros par u v. unfold TDI_V, TD_row0_dx. ring.
  - intros par u1 v1. unfold TDI_V1, TD_row1_gamma. cbn [va]. ring.
  - intros par uS vS. unfold LYI_VS_dx, DS_stokes_dx, MmsModel.dot. cbn [va fst snd]. ring.
  - intros par t uS vS [<- | [<- | [<- | [<- | []]]]]; unfold LYI_VS_side, LY_row0_side; cbn [among existsb Nat.eqb DS_lm_tags DS_neumann_tags orb]; ring.
  - reflexivity.
Qed.
Print Assumptions C123_same_blocks.
(** Conditions are on the same sides as those of the systems *)
Theorem C123_same_conditions : (forall s t, In t (PBI_V_tags s) <-> exists g, In (t, g) (PBC_V_bcs s)) /\ (forall t, In t LYI_VS_tags <-> exists g, In (t, g) DS_VS_bcs).
Proof.
  split.
  - intros s t. destruct s; cbn; split; intros H; repeat match goal with H : _ \/ _ |- _ => destruct H as [H | H] | H : False |- _ => contradiction H | H : exists _, _ |- _ => destruct H as [? H] end; try (injection H as <- _); subst; eauto.
  - intros t. cbn. split; intros H; repeat match goal with H : _ \/ _ |- _ => destruct H as [H | H] | H : False |- _ => contradiction H | H : exists _, _ |- _ => destruct H as [? H] end; try (injection H as <- _); subst; eauto.
Qed.
Print Assumptions C123_same_conditions.

(** Symmetric, nonnegative at every point, and zero only if the derivatives are (with the value, in the norms with it) *)
Definition riesz {A} (F : A -> A -> R) (zero : A -> Prop) : Prop := (forall u v, F u v = F v u) /\ (forall u, 0 <= F u u) /\ forall u, F u u = 0 -> zero u.
Lemma two_squares a b : 0 <= a * a + b * b /\ (a * a + b * b = 0 -> a = 0 /\ b = 0).
Proof. split; [nra |]. intros E. split; nra. Qed.
Lemma weight_pos c s : 0 < c -> 0 <= s -> 0 <= c * s /\ (c * s = 0 -> s = 0).
Proof. intros C S. split; [apply Rmult_le_pos; lra |]. intros E. apply Rmult_integral in E. lra. Qed.
Definition flat (u : jet) : Prop := da u = 0 /\ db u = 0.
Definition rigid (u : jet * jet) : Prop := da (fst u) = 0 /\ db (snd u) = 0 /\ db (fst u) + da (snd u) = 0.
Theorem C123_riesz par : 0 < nth 0 par 0 -> 0 < nth 1 par 0 -> 0 <= nth 2 par 0 ->
  (forall s, riesz (PBI_V s) (fun u => flat u /\ (PBC_dir_tags s = [] -> va u = 0))) /\
  riesz MPI_S (fun s => jval s = (0, 0) /\ jdiv s = 0) /\ riesz MPI_V (fun u => va u = 0) /\
  riesz (TDI_V par) flat /\ riesz (TDI_V1 par) (fun u => db u = 0) /\
  riesz (LYI_VS_dx par) rigid /\ (forall t, riesz (LYI_VS_side par t) (fun u => 0 < nth 2 par 0 -> dot (jval u) (rot (nS_ t)) = 0)) /\
  riesz (LYI_VD par) (fun s => jval s = (0, 0) /\ jdiv s = 0) /\ riesz (LYI_QS par) (fun p => va p = 0) /\ riesz (LYI_QD par) (fun p => va p = 0).
Proof.
  intros P0 P1 P2. assert (Q : forall a, 0 <= a * a) by (intros; nra). assert (Z : forall a, a * a = 0 -> a = 0) by (intros a E; apply Rmult_integral in E; tauto).
  split; [| split; [| split; [| split; [| split; [| split; [| split; [| split; [| split]]]]]]]].
  - intros s. unfold PBI_V, flat, jgrad, MmsModel.dot. destruct (PBC_dir_tags s) as [| t l]; cbn [fst snd]; (split; [intros; ring | split]); intros u; pose proof (two_squares (da u) (db u)) as [A B]; pose proof (Q (va u)).
    + lra.
    + intros E. split; [apply B; lra |]. intros _. apply Z. lra.
    + exact A.
    + intros E. split; [apply B, E | discriminate].
  - unfold MPI_S, MmsModel.dot, jval. cbn [fst snd]. split; [intros; ring | split]; intros u; pose proof (two_squares (va (fst u)) (va (snd u))) as [A B]; pose proof (Q (jdiv u)); [lra |].
    intros E. destruct B as [-> ->]; [lra |]. split; [reflexivity | apply Z; lra].
  - unfold MPI_V. split; [intros; ring | split]; [intros u; apply Q | intros u; apply Z].
  - unfold TDI_V, flat, jgrad, MmsModel.dot. cbn [fst snd]. split; [intros; ring | split]; intros u; pose proof (two_squares (da u) (db u)) as [A B]; destruct (weight_pos _ _ P0 A) as [C D]; auto.
  - unfold TDI_V1. split; [intros; ring | split]; intros u; destruct (weight_pos _ _ P1 (Q (db u))) as [C D]; auto.
  - unfold LYI_VS_dx, rigid, inner2, jsym, MmsModel.dot. cbn [fst snd]. split; [intros; ring | split]; intros u;
      set (a := da (fst u)); set (b := db (snd u)); set (c := db (fst u)); set (d := da (snd u)); pose proof (Q a); pose proof (Q b); pose proof (Q ((c + d) / 2));
      replace (a * a + (c + d) / 2 * ((c + d) / 2) + ((d + c) / 2 * ((d + c) / 2) + b * b)) with (a * a + 2 * ((c + d) / 2 * ((c + d) / 2)) + b * b) by field.
    + apply Rmult_le_pos; lra.
    + intros E. apply Rmult_integral in E. destruct E as [E | E]; [lra |]. split; [apply Z; lra |]. split; [apply Z; lra |]. assert ((c + d) / 2 = 0) by (apply Z; lra). lra.
  - intros t. unfold LYI_VS_side. split; [intros; ring | split]; intros u; pose proof (Q (dot (jval u) (rot (nS_ t)))).
    + apply Rmult_le_pos; assumption.
    + intros E Pa. apply Rmult_integral in E. destruct E as [E | E]; [lra | apply Z, E].
  - assert (P1' : 0 < 1 / nth 1 par 0) by (apply Rdiv_lt_0_compat; lra). unfold LYI_VD, MmsModel.dot, jval. cbn [fst snd]. split; [intros; ring | split]; intros u;
      pose proof (two_squares (va (fst u)) (va (snd u))) as [A B]; destruct (weight_pos _ _ P1' A) as [C D]; destruct (weight_pos _ _ P1' (Q (jdiv u))) as [F G]; [lra |].
    intros E. destruct B as [-> ->]; [apply D; lra |]. split; [reflexivity | apply Z, G; lra].
  - assert (P0' : 0 < 1 / nth 0 par 0) by (apply Rdiv_lt_0_compat; lra). unfold LYI_QS. split; [intros; ring | split]; intros u; destruct (weight_pos _ _ P0' (Q (va u))) as [C D]; auto.
  - unfold LYI_QD. split; [intros; ring | split]; intros u; destruct (weight_pos _ _ P1 (Q (va u))) as [C D]; auto.
Qed.
Print Assumptions C123_riesz.

(** The flux block of Layton's system is below that of the preconditioner, which adds the divergence, and the same for
    fluxes without divergence; so for mixed_poisson_babuska_iter.py *)
Theorem C123_flux par s t : 0 < nth 1 par 0 -> LY_row1_dx par s s j0 <= LYI_VD par s s /\ (jdiv t = 0 -> LYI_VD par s t = LY_row1_dx par s t j0) /\
  MP_row0_dx s s j0 <= MPI_S s s /\ (jdiv t = 0 -> MPI_S s t = MP_row0_dx s t j0).
Proof.
  intros P. assert (P' : 0 < 1 / nth 1 par 0) by (apply Rdiv_lt_0_compat; lra). unfold LY_row1_dx, LYI_VD, MP_row0_dx, MPI_S. cbn [va]. assert (Q : 0 <= jdiv s * jdiv s) by nra. pose proof (Rmult_le_pos _ _ (Rlt_le _ _ P') Q).
  split; [lra |]. split; [intros ->; ring |]. split; [lra |]. intros ->; ring.
Qed.
Print Assumptions C123_flux.

Example ex_curve : lm_curve 0 1 /\ lm_curve 1 0 /\ lm_curve 1 (1 / 2) /\ (0 < nth 0 [1; 2; 3] 0 /\ 0 < nth 1 [1; 2; 3] 0 /\ 0 <= nth 2 [1; 2; 3] 0).
Proof. unfold lm_curve. cbn. lra. Qed.
