(** Property C114: demos as tests *)
From Coq Require Import Reals Lra String.
From Verif Require Import Base BaseProofs HistoryModel HistoryProofs HistoryProps DemoModel DemoProofs.
Local Open Scope R_scope.

(** A test passes exactly if the code is 1 and "Error" is nowhere in the output *)
Theorem C114_run : forall printed e, run printed e = true <-> returncode e = 1%Z /\ ~ within "Error" (output printed e).
Proof.
  intros printed e. unfold run. rewrite <- occurs_within. destruct (occurs _ _).
  - split; [discriminate | intros [_ H]; exfalso; apply H; reflexivity].
  - rewrite Z.eqb_eq. split; [intros H; split; auto | tauto].
Qed.
(** For a demo that comes to its end without having written "Error" it is the verdict *)
Theorem C114_sound_partial : forall printed, ~ within "Error" printed ->
  (forall passed, run printed (SysExit passed) = passed) /\
  (forall w e, e <> StopIteration -> run printed (ending_of w (Err e)) = false) /\
  (forall n, run printed (Signal n) = false).
Proof.
  intros printed H. split; [| split].
  - intros passed. unfold run, output. rewrite append_nil. replace (occurs "Error" printed) with false by (symmetry; apply not_true_is_false; rewrite occurs_within; exact H).
    destruct passed; reflexivity.
  - intros w e He. apply not_true_is_false. rewrite C114_run. intros [_ C]. apply C. apply within_right, within_right. cbn [ending_of].
    destruct e; try (exfalso; apply He; reflexivity); apply occurs_within; reflexivity.
  - intros n. apply not_true_is_false. rewrite C114_run. intros [C _]. cbn in C. lia.
Qed.
(** A demo that ends with an exception whose traceback has no "Error" passes: StopIteration *)
Theorem C114_sound_refuted : exists printed e, run printed (Raised e) = true /\ ~ within "Error" printed.
Proof.
  exists "h(V(u)) |e_u|_1"%string, (exn_name StopIteration). split; [reflexivity |]. rewrite <- occurs_within. discriminate.
Qed.
(** and one that passes but has written "Error" fails *)
Theorem C114_complete_refuted : exists printed, run printed (SysExit true) = false.
Proof. exists "Error of u: 0.1"%string. reflexivity. Qed.
(** It is never an exception of a name ending in Error that passes, whatever is printed *)
Theorem C114_named : forall printed w name rest, run printed (Raised (w ++ name ++ "Error" ++ rest)) = false.
Proof.
  intros. apply not_true_is_false. rewrite C114_run. intros [_ C]. apply C. apply within_right, within_right.
  exists name, rest. reflexivity.
Qed.

(** The verdict asks for the slope between the last two meshes *)
Definition last_slope (us : list sample) (r : R) : Prop :=
  exists pre p u, us = pre ++ [p; u] /\ r = ln (s_error u / s_error p) / ln (s_h u / s_h p).
Definition satisfied (polyfit : list R -> list R -> R * R) (v : want * list sample) : Prop :=
  exists r, last_slope (snd v) r /\
  match fst v with
  | Above t => t < r
  | BothAbove t => t < r /\ t < fst (polyfit (map ln (map s_h (snd v))) (map ln (map s_error (snd v))))
  | Near e delta => Rabs (r - e) < delta
  end.
Theorem C114_verdict : forall polyfit variables,
  (forall v, In v variables -> regular (snd v) /\ (2 <= length (snd v))%nat) ->
  exists passed, verdict polyfit variables = Ok passed /\ (passed = true <-> Forall (satisfied polyfit) variables).
Proof.
  intros polyfit. induction variables as [| v variables IH]; intros H.
  - exists true. split; [reflexivity |]. split; auto.
  - destruct IH as (b & Eb & Hb); [intros; apply H; right; auto |]. destruct (H v (or_introl eq_refl)) as [Hr Hl].
    destruct (rate_last polyfit (snd v) Hr Hl) as (r & (pre & p & u & Es & Er) & Eg). unfold verdict in *. rewrite mapM_cons. cbv beta.
    rewrite Eg. cbn [bind]. destruct (mapM _ variables) as [rates |]; cbn [bind] in *; [| discriminate]. injection Eb as Eb.
    eexists. split; [reflexivity |]. cbn [map combine forallb fst snd]. rewrite Eb, andb_true_iff, Hb.
    assert (U : forall r', last_slope (snd v) r' -> r' = r).
    { intros r' (pre' & p' & u' & Es' & Er'). rewrite Es in Es'. apply (f_equal (@rev _)) in Es'. rewrite !rev_app_distr in Es'. injection Es' as -> -> _. congruence. }
    assert (Q : meets (fst v) (Some r, Some (fst (polyfit (map ln (map s_h (snd v))) (map ln (map s_error (snd v)))))) = true <-> satisfied polyfit v).
    { unfold satisfied, meets. destruct (fst v) as [t | t | e d]; cbn [fst snd]; rewrite ?andb_true_iff, ?r_above_spec, ?r_near_spec.
      - split; [intros (x & E & Hx); injection E as <-; exists r; split; [exists pre, p, u; auto | exact Hx] | intros (r' & L & Hx); rewrite (U _ L) in Hx; exists r; auto].
      - split; [intros [(x & E & Hx) (y & E' & Hy)]; injection E as <-; injection E' as <-; exists r; split; [exists pre, p, u; auto | auto]
               | intros (r' & L & Hx); rewrite (U _ L) in Hx; destruct Hx; split; eexists; eauto].
      - split; [intros (x & E & Hx); injection E as <-; exists r; split; [exists pre, p, u; auto | exact Hx] | intros (r' & L & Hx); rewrite (U _ L) in Hx; exists r; auto]. }
    rewrite Q. split; [intros [A B]; constructor; auto | intros F; inversion F; auto].
Qed.
(** With counts of iterations *)
Theorem C114_iterations : forall polyfit variables cap counts passed, verdict_iter polyfit variables cap counts = Ok passed <->
  exists rates_passed, verdict polyfit variables = Ok rates_passed /\ (passed = true <-> rates_passed = true /\ forall c, In c counts -> (c < cap)%nat).
Proof.
  intros polyfit variables cap counts passed. unfold verdict_iter. destruct (verdict polyfit variables) as [b |]; cbn [bind].
  - assert (F : forallb (fun count => (count <? cap)%nat) counts = true <-> forall c, In c counts -> (c < cap)%nat).
    { rewrite forallb_forall. split; intros G c Hc; specialize (G c Hc); apply Nat.ltb_lt; exact G. }
    split.
    + intros E. injection E as <-. exists b. split; [reflexivity |]. rewrite andb_true_iff, F. tauto.
    + intros (b' & E & Hp). injection E as <-. f_equal. apply eq_true_iff_eq. rewrite andb_true_iff, F. tauto.
  - split; [discriminate | intros (b & E & _); discriminate].
Qed.
(** Errors C h^p pass exactly if p is as asked for *)
Theorem C114_order : forall polyfit variables,
  (forall v, In v variables -> regular (snd v) /\ (2 <= length (snd v))%nat) ->
  (forall v, In v variables -> least_squares polyfit (map ln (map s_h (snd v))) (map ln (map s_error (snd v)))) ->
  forall orders, Forall2 (fun v p => exists C, 0 < C /\ Forall (of_order C p) (snd v)) variables orders ->
  exists passed, verdict polyfit variables = Ok passed /\
    (passed = true <-> Forall2 (fun v p => match fst v with Above t => t < p | BothAbove t => t < p | Near e delta => Rabs (p - e) < delta end) variables orders).
Proof.
  intros polyfit variables HR HL orders HO. induction HO as [| v p variables orders (C & HC & Ho) HO IH].
  - exists true. split; [reflexivity |]. split; auto.
  - destruct IH as (b & Eb & Hb); [intros; apply HR; right; auto | intros; apply HL; right; auto |].
    destruct (HR v (or_introl eq_refl)) as [Hr Hl].
    assert (G : (do s <- history approx0 (snd v); get_rate polyfit s) = Ok (Some p, Some p)).
    { specialize (HL v (or_introl eq_refl)). destruct v as [w [| u us]]; cbn [snd] in *; [cbn in Hl; lia |].
      destruct (C91_order C p u us polyfit HC Hr) as (s & Es & _ & Eg); auto. { intros ->. cbn in Hl. lia. }
      rewrite history_study, Es. cbn [bind]. exact Eg. }
    unfold verdict in *. rewrite mapM_cons. cbv beta. rewrite G. cbn [bind]. destruct (mapM _ variables) as [rates |]; cbn [bind] in *; [| discriminate]. injection Eb as Eb.
    eexists. split; [reflexivity |]. cbn [map combine forallb fst snd]. rewrite Eb, andb_true_iff, Hb.
    assert (Q : meets (fst v) (Some p, Some p) = true <-> match fst v with Above t => t < p | BothAbove t => t < p | Near e delta => Rabs (p - e) < delta end).
    { unfold meets. destruct (fst v) as [t | t | e d]; cbn [fst snd]; rewrite ?andb_true_iff, ?r_above_spec, ?r_near_spec.
      - split; [intros (x & E & Hx); injection E as <-; exact Hx | intros Hx; repeat split; exists p; auto].
      - split; [intros [(x & E & Hx) _]; injection E as <-; exact Hx | intros Hx; repeat split; exists p; auto].
      - split; [intros (x & E & Hx); injection E as <-; exact Hx | intros Hx; repeat split; exists p; auto]. }
    rewrite Q. split; [intros [A B]; constructor; auto | intros F; inversion F; auto].
Qed.
(** On one mesh there is no rate, and no demo that asks for one passes *)
Theorem C114_one_mesh : forall polyfit w u variables, (forall v, In v variables -> exists u, snd v = [u]) -> verdict polyfit ((w, [u]) :: variables) = Ok false.
Proof.
  intros polyfit w u variables H. unfold verdict. rewrite mapM_cons. cbn -[mapM].
  assert (E : exists rates, mapM (fun v : want * list sample => do s <- history approx0 (snd v); get_rate polyfit s) variables = Ok rates).
  { induction variables as [| v variables IH]; [exists []; reflexivity |]. destruct IH as [rates E]; [intros; apply H; right; auto |].
    destruct (H v (or_introl eq_refl)) as [u' Eu]. rewrite mapM_cons, E, Eu. cbn. eauto. }
  destruct E as [rates E]. rewrite E. cbn. destruct w; reflexivity.
Qed.

(** ** The demos with an arc *)
(** Without the module gmshnics, when the demo is meant to pass ("facet_f is None or ..."), it raises *)
Theorem C114_missing_refuted : forall polyfit is_flat n, bertoluzza polyfit is_flat (repeat None n) = Err IndexError.
Proof.
  intros polyfit is_flat n. unfold bertoluzza. replace (flat_map _ (repeat None n)) with (@nil (sample * sample * sample)); [reflexivity |].
  induction n as [| n IH]; [reflexivity | cbn; exact IH].
Qed.
(** and with it that condition makes no difference: all rates are above 1.95 on the flat geometry, above 1.8 on the other *)
Theorem C114_missing_dead : forall polyfit is_flat runs passed, (forall r, In r runs -> r <> None) ->
  bertoluzza polyfit is_flat runs = Ok passed -> 
  forall u p lm, (do s <- history approx0 (map (fun x => fst (fst x)) (flat_map (fun r => match r with Some x => [x] | None => [] end) runs)); get_rate polyfit s) = Ok u ->
  (do s <- history approx0 (map (fun x => snd (fst x)) (flat_map (fun r => match r with Some x => [x] | None => [] end) runs)); get_rate polyfit s) = Ok p ->
  (do s <- history approx0 (map (fun x => snd x) (flat_map (fun r => match r with Some x => [x] | None => [] end) runs)); get_rate polyfit s) = Ok lm ->
  (passed = true <-> exists ru rp rl, fst u = Some ru /\ fst p = Some rp /\ fst lm = Some rl /\ let t := if is_flat then 195 / 100 else 18 / 10 in t < ru /\ t < rp /\ t < rl).
Proof.
  intros polyfit is_flat runs passed H E u p lm Eu Ep El. unfold bertoluzza in E. rewrite Eu, Ep, El in E. cbn [bind] in E.
  replace (match rev runs with None :: _ => true | _ => false end) with false in E.
  2: { destruct (rev runs) as [| [x |] l] eqn:Er; auto. exfalso. apply (H None); [| reflexivity]. apply in_rev. rewrite Er. left. reflexivity. }
  destruct is_flat; injection E as <-; cbn [orb forallb]; cbv zeta; rewrite !andb_true_iff, !r_above_spec; split.
  all: try (intros ((a & Ea & Ha) & (b & Eb & Hb) & (c & Ec & Hc) & _); exists a, b, c; repeat (split; [assumption |]); assumption).
  all: intros (a & b & c & Ea & Eb & Ec & Ha & Hb & Hc); split; [exists a; auto |]; split; [exists b; auto |]; split; [exists c; auto | reflexivity].
Qed.

(** Selection by name *)
Theorem C114_selected : forall names demos d, In d (selected names demos) <-> In d demos /\ (names = [] \/ In (fst d) names).
Proof.
  intros names demos d. unfold selected. destruct names as [| x names]; [tauto |]. rewrite filter_In, existsb_exists. split.
  - intros [H (y & Hy & E)]. apply String.eqb_eq in E. subst y. auto.
  - intros [H [C | C]]; [discriminate |]. split; auto. exists (fst d). split; auto. apply String.eqb_refl.
Qed.

(** Two meshes, u of order 1, p of order 2 *)
Example case_rates : let us := [Sample 1 1 4; Sample (1 / 2) (1 / 2) 9] in let ps := [Sample 1 1 4; Sample (1 / 4) (1 / 2) 9] in
  (regular us /\ Forall (of_order 1 1) us) /\ (regular ps /\ Forall (of_order 1 2) ps).
Proof.
  cbv zeta. assert (P : forall h p, 0 < h -> Rpower h p = exp (p * ln h)) by reflexivity.
  assert (P1 : forall p, Rpower 1 p = 1) by (intros p; unfold Rpower; rewrite ln_1, Rmult_0_r; apply exp_0).
  repeat split; repeat constructor; cbn; try lra; unfold of_order; cbn [s_error s_h]; rewrite ?P1, ?Rpower_1 by lra; try lra.
  assert (T : Rpower (1 / 2) 2 = 1 / 4) by (replace 2 with (1 + 1) at 2 by ring; rewrite Rpower_plus, Rpower_1 by lra; lra).
  rewrite T. lra.
Qed.
Example case_printed : ~ within "Error" "h(V(u)) |e_u|_1 r|e_u|_1".
Proof. rewrite <- occurs_within. discriminate. Qed.

Print Assumptions C114_run.
Print Assumptions C114_sound_partial.
Print Assumptions C114_sound_refuted.
Print Assumptions C114_complete_refuted.
Print Assumptions C114_named.
Print Assumptions C114_verdict.
Print Assumptions C114_iterations.
Print Assumptions C114_order.
Print Assumptions C114_one_mesh.
Print Assumptions C114_missing_refuted.
Print Assumptions C114_missing_dead.
Print Assumptions C114_selected.
