(** Property C91: the monitor of convergence studies *)
From Coq Require Import Reals Lra Lia.
From Verif Require Import Base BaseProofs HistoryModel HistoryProofs.
Local Open Scope R_scope.

(** Positive errors on meshes of different sizes: nothing is raised, the lists have one entry per
    solution and the rates are the logarithmic slopes between neighbours *)
Theorem C91_rates_partial : forall us, regular us ->
  exists s, study approx0 us = (s, None) /\
    errors s = map s_error us /\ hs s = map s_h us /\ Vdims s = map s_dim us /\ rates s = increments us.
Proof. intros us H. rewrite (study_regular us H). eexists. split; [reflexivity |]. repeat split. Qed.
(** Errors of order p are found to be of order p, by the increments and by the fit *)
Theorem C91_order : forall C p u us polyfit, 0 < C -> regular (u :: us) -> us <> [] ->
  Forall (of_order C p) (u :: us) ->
  least_squares polyfit (map ln (map s_h (u :: us))) (map ln (map s_error (u :: us))) ->
  exists s, study approx0 (u :: us) = (s, None) /\ rates s = None :: map (fun _ => Some p) us /\
    get_rate polyfit s = Ok (Some p, Some p).
Proof.
  intros C p u us polyfit HC Hr Hn Ho LS. rewrite (study_regular _ Hr). eexists. split; [reflexivity |].
  destruct Hr as [F D]. inversion F as [| u' us' Pu F']; subst. inversion Ho as [| u' us' Ou Os]; subst.
  assert (RS : increments (u :: us) = None :: map (fun _ => Some p) us).
  { cbn [increments]. rewrite (slopes_of_order C p us HC u Pu F' D Ou Os). reflexivity. }
  cbn [of_samples rates]. split; [exact RS |]. unfold get_rate. cbn [of_samples rates]. rewrite RS.
  assert (RV : exists t, rev (None :: map (fun _ => Some p) us) = Some p :: t).
  { cbn [rev]. destruct (exists_last Hn) as [l [x ->]]. rewrite map_app, rev_app_distr. cbn. eauto. }
  destruct RV as [t ->]. f_equal. f_equal. f_equal. cbn [hs errors of_samples].
  assert (LY : map ln (map s_error (u :: us)) = map (fun x => p * x + ln C) (map ln (map s_h (u :: us)))).
  { rewrite !map_map. apply map_ext_in. intros v Hv. rewrite Forall_forall in Ho. pose proof (Ho v Hv) as Ov. unfold of_order in Ov. rewrite Ov.
    rewrite ln_mult by (try assumption; apply exp_pos). unfold Rpower. rewrite ln_exp. ring. }
  rewrite LY in LS |- *. destruct us as [| v us]; [congruence |]. destruct D as [D _].
  inversion F' as [| v' us' Pv _]; subst.
  apply (fit_line polyfit p (ln C) _ (ln (s_h u)) (ln (s_h v)) LS); [cbn; tauto | cbn; tauto |].
  intros X. apply ln_inv in X; [| apply Pu | apply Pv]. congruence.
Qed.
(** The first solution has no rate *)
Theorem C91_first : forall u polyfit, exists s, study approx0 [u] = (s, None) /\ rates s = [None] /\ get_rate polyfit s = Ok (None, None).
Proof. intros u polyfit. eexists. split; [reflexivity |]. split; reflexivity. Qed.
(** The same mesh twice: no rate *)
Theorem C91_same_mesh : forall u v, positive u -> positive v -> s_h u = s_h v ->
  study approx0 [u; v] = (Approx [s_error u; s_error v] [s_h u; s_h v] [s_dim u; s_dim v] [None; None], None).
Proof.
  intros u v [Eu Hu] [Ev Hv] E. cbn [study]. unfold append_approx, approx0. cbn [errors hs Vdims rates app length Nat.ltb Nat.leb last2 rev].
  unfold rate_of, py_div, py_ln. destruct (Req_EM_T (s_error u) 0) as [Z | _]; [lra |]. cbn [bind].
  assert (P : 0 < s_error v / s_error u) by (apply Rdiv_lt_0_compat; assumption).
  destruct (Rlt_dec 0 (s_error v / s_error u)) as [_ | N]; [| contradiction]. cbn [bind].
  destruct (Req_EM_T (s_h u) 0) as [Z | _]; [lra |]. cbn [bind]. rewrite <- E.
  replace (s_h u / s_h u) with 1 by (field; lra). destruct (Rlt_dec 0 1) as [_ | N]; [| lra]. cbn [bind]. rewrite ln_1.
  destruct (Req_EM_T 0 0) as [_ | N]; [| lra]. reflexivity.
Qed.
(** The claim that every study is recorded with one rate (or nan) per solution is false: an error
    of zero raises from the logarithm and the lists of rates and errors no longer have the same length *)
Theorem C91_rates_refuted : exists us s, Forall (fun u => 0 <= s_error u /\ 0 < s_h u) us /\
  study approx0 us = (s, Some ValueError) /\ length (errors s) = 2%nat /\ length (rates s) = 1%nat.
Proof.
  exists [Sample 1 1 4; Sample 0 (1/2) 9]. eexists. split; [repeat constructor; cbn; lra |]. cbn [study]. unfold append_approx, approx0. cbn [errors hs Vdims rates app length Nat.ltb Nat.leb last2 rev s_error s_h s_dim].
  unfold rate_of, py_div, py_ln. destruct (Req_EM_T 1 0) as [Z | _]; [lra |]. cbn [bind].
  destruct (Rlt_dec 0 (0 / 1)) as [L | _]; [lra |]. cbn [bind]. repeat split; reflexivity.
Qed.
(** A value for every name that fits it: each history grows by its own value, by name as by position *)
Theorem C91_add : forall variables new log, NoDup (map fst variables) ->
  (forall k, In k (map fst variables) -> exists t x t', get k log = Some t /\ get k new = Some x /\ append_item t x = (t', None)) ->
  exists log', add_dict variables new log = (log', None) /\
    (forall k t x t', In k (map fst variables) -> get k log = Some t -> get k new = Some x -> append_item t x = (t', None) -> get k log' = Some t') /\
    (forall k, ~ In k (map fst variables) -> get k log' = get k log).
Proof.
  intros variables new log ND H. destruct (add_keys_all (keys variables) new log (keys_NoDup _ ND)) as [log' [E [G F]]].
  - intros k Hk. apply H. apply keys_In. exact Hk.
  - exists log'. split; [exact E |]. split.
    + intros k t x t' Hk. apply G. apply keys_In. exact Hk.
    + intros k Hk. apply F. rewrite keys_In. exact Hk.
Qed.
Theorem C91_add_position : forall variables new log, NoDup (map fst variables) ->
  (forall i k, nth_error (map fst variables) i = Some k -> exists t x t', get k log = Some t /\ nth_error new i = Some x /\ append_item t x = (t', None)) ->
  exists log', add_values variables new log = (log', None) /\
    forall i k t x t', nth_error (map fst variables) i = Some k -> get k log = Some t -> nth_error new i = Some x -> append_item t x = (t', None) -> get k log' = Some t'.
Proof.
  intros variables new log ND H. destruct (C91_add variables (combine (map fst variables) new) log ND) as [log' [E [G _]]].
  - intros k Hk. apply In_nth_error in Hk. destruct Hk as [i Hi]. destruct (H i k Hi) as [t [x [t' [H1 [H2 H3]]]]].
    exists t, x, t'. split; [exact H1 |]. split; [| exact H3]. exact (get_combine _ _ i k x ND Hi H2).
  - exists log'. split; [exact E |]. intros i k t x t' Hi H1 H2 H3.
    apply (G k t x t'); [exact (nth_error_In _ _ Hi) | exact H1 | exact (get_combine _ _ i k x ND Hi H2) | exact H3].
Qed.
(** A name without a value: KeyError - but what came before is already recorded *)
Theorem C91_missing_refuted : exists variables new log', NoDup (map fst variables) /\
  add_values variables new (log0 variables) = (log', Some KeyError) /\ get 0%nat log' = Some (Values [7]) /\ get 1%nat log' = Some (Values []).
Proof.
  exists [(0%nat, false); (1%nat, false)], [Number 7], [(0%nat, Values [7]); (1%nat, Values [])].
  split; [repeat constructor; cbn; intuition discriminate |]. repeat split; reflexivity.
Qed.
(** What raises is recorded as far as it came, what follows is not *)
Theorem C91_stops : forall variables pre k post new log, keys variables = pre ++ k :: post -> NoDup (map fst variables) ->
  (forall j, In j pre -> exists t x t', get j log = Some t /\ get j new = Some x /\ append_item t x = (t', None)) ->
  forall t x t' e, get k log = Some t -> get k new = Some x -> append_item t x = (t', Some e) ->
  exists log', add_dict variables new log = (log', Some e) /\ get k log' = Some t' /\
    (forall j t x t', In j pre -> get j log = Some t -> get j new = Some x -> append_item t x = (t', None) -> get j log' = Some t') /\
    forall j, In j post -> get j log' = get j log.
Proof.
  intros variables pre k post new log Ek ND Hpre t x t' e Ht Hx Ha. unfold add_dict. pose proof (keys_NoDup variables ND) as NK. rewrite Ek in *. clear Ek ND.
  assert (N1 : NoDup pre /\ ~ In k pre /\ (forall j, In j post -> ~ In j pre /\ j <> k)).
  { clear - NK. induction pre as [| a pre IH]; cbn [app] in NK; inversion NK as [| a' l NI NK']; subst.
    - split; [constructor |]. split; [intros [] |]. intros j Hj. split; [intros [] |]. intros ->. contradiction.
    - destruct (IH NK') as [I1 [I2 I3]]. split; [constructor; [intros X; apply NI; apply in_app_iff; tauto | exact I1] |]. split.
      + intros [-> | X]; [apply NI; apply in_app_iff; right; left; reflexivity | contradiction].
      + intros j Hj. destruct (I3 j Hj) as [J1 J2]. split; [intros [-> | X]; [apply NI; apply in_app_iff; right; right; exact Hj | contradiction] | exact J2]. }
  destruct N1 as [N1 [N2 N3]]. destruct (add_keys_all pre new log N1 Hpre) as [log1 [E1 [G1 F1]]].
  assert (S : forall l ks, (exists log1, add_keys pre new l = (log1, None)) -> add_keys (pre ++ ks) new l = add_keys ks new (fst (add_keys pre new l))).
  { clear. induction pre as [| a pre IH]; intros l ks [log1 E]; [reflexivity |]. cbn [app add_keys] in *. destruct (get a l) as [t |]; [| discriminate]. destruct (get a new) as [x |]; [| discriminate].
    destruct (append_item t x) as [t' [e |]]; [discriminate |]. apply IH. eauto. }
  rewrite S by eauto. rewrite E1. cbn [fst add_keys]. assert (Hk1 : get k log1 = Some t) by (rewrite F1 by exact N2; exact Ht). rewrite Hk1, Hx, Ha.
  exists (put k t' log1). split; [reflexivity |]. split; [rewrite get_put, Nat.eqb_refl, Hk1; reflexivity |]. split.
  - intros j u y u' Hj Hu Hy Hau. rewrite get_put. destruct (Nat.eqb_spec j k) as [-> | _]; [contradiction |]. exact (G1 j Hj u y u' Hu Hy Hau).
  - intros j Hj. destruct (N3 j Hj) as [J1 J2]. rewrite get_put. destruct (Nat.eqb_spec j k) as [-> | _]; [contradiction |]. apply F1. exact J1.
Qed.
(** Values that are too many are dropped *)
Theorem C91_surplus : forall variables new more log, length new = length variables ->
  add_values variables (new ++ more) log = add_values variables new log.
Proof.
  intros variables new more log H. unfold add_values. f_equal. rewrite <- (map_length fst) in H. revert H. generalize (map fst variables) as ks.
  induction new as [| x new IH]; intros [| k ks] H; try discriminate H; [reflexivity |]. cbn [combine app]. f_equal. apply IH. injection H as H. exact H.
Qed.
(** The report has the columns of the header, each showing the latest entry of what it is named after *)
Theorem C91_report : forall variables log es, report_last variables log = Ok es ->
  exists cols, header variables log = Ok cols /\ Forall2 (shows log) cols es.
Proof.
  intros variables log es H. unfold report_last in H. apply bind_Ok in H. destruct H as [ess [H Ec]]. assert (es = concat ess) as -> by congruence. clear Ec.
  apply mapM_ok_forall in H. unfold header.
  assert (K : exists css, mapM (fun k => do t <- opt_res KeyError (get k log); Ok (map (pair k) (columns_of t))) (keys variables) = Ok css /\ Forall2 (shows log) (concat css) (concat ess)).
  { induction H as [| k es0 ks ess0 Hk H IH]; [exists []; split; [reflexivity | constructor] |].
    destruct IH as [css [E F]]. apply bind_Ok in Hk. destruct Hk as [t [Ht Hl]].
    destruct (get k log) as [t' |] eqn:G; [| discriminate Ht]. assert (t' = t) as -> by (cbn in Ht; congruence).
    exists (map (pair k) (columns_of t) :: css). rewrite mapM_cons, E, G. cbn [opt_res bind]. split; [reflexivity |].
    cbn [concat]. apply Forall2_app; [exact (last_of_shows log k t es0 G Hl) | exact F]. }
  destruct K as [css [E F]]. rewrite E. exists (concat css). split; [reflexivity | exact F].
Qed.
(** The columns of the header have every name, but not in the order of the names: the values come first *)
Theorem C91_columns_refuted : exists variables, NoDup (map fst variables) /\
  header variables (log0 variables) = Ok [(1%nat, CValue); (0%nat, CMeshSize); (0%nat, CError); (0%nat, CRate); (0%nat, CDim)] /\
  map fst variables = [0%nat; 1%nat].
Proof.
  exists [(0%nat, true); (1%nat, false)]. split; [repeat constructor; cbn; intuition discriminate |]. split; reflexivity.
Qed.

(** Second order on three meshes *)
Lemma pow2 h : 0 < h -> Rpower h 2 = h * h.
Proof. intros H. replace 2 with (INR 2) by (cbn; lra). rewrite Rpower_pow by assumption. cbn. ring. Qed.
Example case_study : regular [Sample 3 1 4; Sample (3/4) (1/2) 9; Sample (3/16) (1/4) 25] /\
  Forall (of_order 3 2) [Sample 3 1 4; Sample (3/4) (1/2) 9; Sample (3/16) (1/4) 25] /\
  least_squares (fun _ _ => (2, ln 3)) [ln 1; ln (1/2); ln (1/4)] [ln 3; ln (3/4); ln (3/16)].
Proof.
  assert (L : forall h e, 0 < h -> e = 3 * (h * h) -> ln e = 2 * ln h + ln 3).
  { intros h e H ->. rewrite ln_mult by nra. rewrite ln_mult by assumption. ring. }
  split; [| split].
  - split; [repeat constructor; cbn; lra |]. cbn. repeat split; lra.
  - repeat constructor; unfold of_order; cbn [s_error s_h]; rewrite pow2 by lra; lra.
  - assert (EL : [ln 3; ln (3/4); ln (3/16)] = map (fun x => 2 * x + ln 3) [ln 1; ln (1 / 2); ln (1 / 4)]).
    { cbn [map]. rewrite <- (L 1 3), <- (L (1/2) (3/4)), <- (L (1/4) (3/16)) by lra. reflexivity. }
    rewrite EL. intros a b. cbn [fst snd].
    rewrite squares_exact. apply squares_nonneg.
Qed.
Example case_add : exists a, add_values [(5%nat, true); (6%nat, false)] [Func (Sample 2 1 7); Number 4] (log0 [(5%nat, true); (6%nat, false)]) =
  ([(5%nat, Approximations a); (6%nat, Values [4])], None) /\ errors a = [2] /\ rates a = [None].
Proof. eexists. split; [reflexivity |]. split; reflexivity. Qed.

Print Assumptions C91_rates_partial.
Print Assumptions C91_order.
Print Assumptions C91_first.
Print Assumptions C91_same_mesh.
Print Assumptions C91_rates_refuted.
Print Assumptions C91_add.
Print Assumptions C91_add_position.
Print Assumptions C91_missing_refuted.
Print Assumptions C91_stops.
Print Assumptions C91_surplus.
Print Assumptions C91_report.
Print Assumptions C91_columns_refuted.
