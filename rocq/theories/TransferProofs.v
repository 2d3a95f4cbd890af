(** Specification vocabulary and proofs for the transfer of markers in EmbedModel.v. *)
From Verif Require Import Base BaseProofs FillModel FillProofs PatchProofs EmbedModel EmbedProofs.
From Coq Require Import Permutation Sorted.
Local Open Scope nat_scope.
Local Close Scope Q_scope.
Local Close Scope Qc_scope.

(** ** Specification *)

(** [K] holds the connectivities of a simplicial mesh with the given cells: its [n]
    entities are the different sets of [k] vertices of cells. *)
Record simplicial (K : conns) (cells : list (list nat)) (n k : nat) : Prop := {
  si_size : forall e, e < n -> NoDup (e2v K e) /\ length (e2v K e) = k;
  si_distinct : forall e e', e < n -> e' < n -> (forall v, In v (e2v K e) <-> In v (e2v K e')) -> e = e';
  si_all : forall cell vs, In cell cells -> NoDup vs -> length vs = k -> incl vs cell -> exists e, e < n /\ forall v, In v (e2v K e) <-> In v vs;
  si_c2e : forall c cell e, nth_error cells c = Some cell -> (In e (c2e K c) <-> e < n /\ incl (e2v K e) cell);
  si_once : forall c, c < length cells -> NoDup (c2e K c);
  si_e2c : forall e c, e < n -> (In c (e2c K e) <-> c < length cells /\ In e (c2e K c));
  si_in_cell : forall e, e < n -> exists c, In c (e2c K e) }.
(** The child entity [e] is the parent entity [p]. *)
Definition coincide (child parent : conns) (vmap : list nat) (e p : nat) : Prop :=
  forall w, In w (e2v parent p) <-> exists v, In v (e2v child e) /\ nth_error vmap v = Some w.

(** ** Lemmas *)
Lemma same_set_spec a b : same_set a b = true <-> forall x, In x a <-> In x b.
Proof.
  unfold same_set. rewrite andb_true_iff, !forallb_forall. split.
  - intros [A B] x. split; intros H; apply existsb_nat; auto.
  - intros H. split; intros x I; apply existsb_nat, H, I.
Qed.
Lemma sends_inj vmap v v' w : NoDup vmap -> sends vmap v w -> sends vmap v' w -> v = v'.
Proof. unfold sends. intros N A B. eapply NoDup_nth_error; [exact N|apply nth_error_Some; congruence|congruence]. Qed.
Lemma Forall2_in_l {A B} (R : A -> B -> Prop) a b x : Forall2 R a b -> In x a -> exists y, In y b /\ R x y.
Proof. induction 1 as [|x' y' a b r F IH]; intros H; [destruct H|]. destruct H as [->|H]; [exists y'; split; [left; reflexivity|exact r]|]. destruct (IH H) as [y [? ?]]. exists y. split; [right|]; assumption. Qed.
Lemma Forall2_in_r {A B} (R : A -> B -> Prop) a b y : Forall2 R a b -> In y b -> exists x, In x a /\ R x y.
Proof. induction 1 as [|x' y' a b r F IH]; intros H; [destruct H|]. destruct H as [->|H]; [exists x'; split; [left; reflexivity|exact r]|]. destruct (IH H) as [x [? ?]]. exists x. split; [right|]; assumption. Qed.
Lemma Forall2_nth_l {A B} (R : A -> B -> Prop) a b k x : Forall2 R a b -> nth_error a k = Some x -> exists y, nth_error b k = Some y /\ R x y.
Proof. intros F. revert k. induction F as [|x' y' a b r F IH]; intros [|k] H; cbn in H; try discriminate; [injection H as ->; eexists; split; [reflexivity|exact r]|]. apply IH. exact H. Qed.
Lemma Forall2_nth_r {A B} (R : A -> B -> Prop) a b k y : Forall2 R a b -> nth_error b k = Some y -> exists x, nth_error a k = Some x /\ R x y.
Proof. intros F. revert k. induction F as [|x' y' a b r F IH]; intros [|k] H; cbn in H; try discriminate; [injection H as ->; eexists; split; [reflexivity|exact r]|]. apply IH. exact H. Qed.
Lemma images vmap vs : NoDup vmap -> NoDup vs -> (forall v, In v vs -> exists w, sends vmap v w) -> exists ws, Forall2 (sends vmap) vs ws /\ NoDup ws.
Proof.
  intros ND. induction vs as [|v vs IH]; intros N H; [exists []; split; constructor|]. inversion N as [|? ? N1 N2]; subst. destruct IH as [ws [F G]]; [exact N2|intros u U; apply H; right; exact U|].
  destruct (H v (or_introl eq_refl)) as [w W]. exists (w :: ws). split; [constructor; assumption|]. constructor; [|exact G]. intros C. destruct (Forall2_in_r _ _ _ _ F C) as [v' [V S']]. pose proof (sends_inj _ _ _ _ ND W S'). congruence.
Qed.
Lemma preimages vmap ws : NoDup ws -> (forall w, In w ws -> exists v, sends vmap v w) -> exists vs, Forall2 (sends vmap) vs ws /\ NoDup vs.
Proof.
  induction ws as [|w ws IH]; intros N H; [exists []; split; constructor|]. inversion N as [|? ? N1 N2]; subst. destruct IH as [vs [F G]]; [exact N2|intros u U; apply H; right; exact U|].
  destruct (H w (or_introl eq_refl)) as [v W]. exists (v :: vs). split; [constructor; assumption|]. constructor; [|exact G]. intros C. destruct (Forall2_in_l _ _ _ _ F C) as [w' [V S']]. unfold sends in *. congruence.
Qed.
Lemma inverse_spec l v k : NoDup l -> (inverse l v = Some k <-> nth_error l k = Some v).
Proof.
  intros N. unfold inverse. split; intros H.
  - destruct (position v l) as [k'|] eqn:E; [|discriminate]. injection H as <-. apply position_sound. exact E.
  - rewrite (position_nth l k v N H). reflexivity.
Qed.

Section Marks.
Context {X : Type} (base : @mesh X) (values markers : list nat) (em : @emesh X) (EM : embeds base values markers em).
Context (child parent : conns) (n k : nat) (p_values : list nat).
Context (CH : simplicial child (conn (em_mesh em)) n k) (PA : simplicial parent (conn base) (length p_values) k).
Let vmap := em_vmap em.
Let cmap := em_cmap em.
Let co := coincide child parent vmap.

Lemma cell_pair c pc : nth_error cmap c = Some pc -> exists cell pcell, nth_error (conn (em_mesh em)) c = Some cell /\ nth_error (conn base) pc = Some pcell /\
  (forall w, In w pcell <-> exists v, In v cell /\ sends vmap v w) /\ (forall v, In v cell -> exists w, sends vmap v w).
Proof.
  intros H. destruct (Forall2_nth_r _ _ _ _ _ (emb_incidence _ _ _ _ EM) H) as [cell [A [vs [ws [B [F P]]]]]]. exists cell, vs. split; [exact A|split; [exact B|split]].
  - intros w. split.
    + intros I. apply (Permutation_in _ (Permutation_sym P)) in I. destruct (Forall2_in_r _ _ _ _ F I) as [v ?]. exists v. assumption.
    + intros [v [V S']]. apply (Permutation_in _ P). destruct (Forall2_in_l _ _ _ _ F V) as [w' [W S'']]. unfold vmap, sends in *. replace w with w' by congruence. exact W.
  - intros v V. destruct (Forall2_in_l _ _ _ _ F V) as [w [_ W]]. eauto.
Qed.
Lemma up e c pc : nth_error cmap c = Some pc -> In e (c2e child c) -> exists p, In p (c2e parent pc) /\ co e p.
Proof.
  intros H I. destruct (cell_pair c pc H) as [cell [pcell [A [B [W V]]]]]. apply (si_c2e _ _ _ _ CH c cell e A) in I. destruct I as [E I]. destruct (si_size _ _ _ _ CH e E) as [N L].
  destruct (images vmap (e2v child e)) as [ws [F G]]; [apply (emb_vertex_once _ _ _ _ EM)|exact N|intros v J; apply V, I, J|].
  destruct (si_all _ _ _ _ PA pcell ws) as [p [P Q]]; [eapply nth_error_In; exact B|exact G|rewrite <- L; symmetry; eapply Forall2_len; exact F|intros w J; apply W; destruct (Forall2_in_r _ _ _ _ F J) as [v [? ?]]; exists v; split; [apply I|]; assumption|].
  exists p. split.
  - apply (si_c2e _ _ _ _ PA pc pcell p B). split; [exact P|]. intros w J. apply Q in J. apply W. destruct (Forall2_in_r _ _ _ _ F J) as [v [? ?]]; exists v; split; [apply I|]; assumption.
  - intros w. rewrite Q. split.
    + intros J. apply (Forall2_in_r _ _ _ _ F J).
    + intros [v [J S']]. destruct (Forall2_in_l _ _ _ _ F J) as [w' [? S'']]. unfold sends in S''. replace w with w' by congruence. assumption.
Qed.
Lemma down p c pc : nth_error cmap c = Some pc -> In p (c2e parent pc) -> exists e, In e (c2e child c) /\ co e p.
Proof.
  intros H I. destruct (cell_pair c pc H) as [cell [pcell [A [B [W V]]]]]. apply (si_c2e _ _ _ _ PA pc pcell p B) in I. destruct I as [E I]. destruct (si_size _ _ _ _ PA p E) as [N L].
  destruct (preimages vmap (e2v parent p)) as [vs [F G]]; [exact N|intros w J; apply I, W in J; destruct J as [v [_ ?]]; exists v; assumption|].
  assert (IN : incl vs cell). { intros v J. destruct (Forall2_in_l _ _ _ _ F J) as [w [Y S']]. apply I, W in Y. destruct Y as [v' [? S'']]. rewrite (sends_inj vmap v v' w (emb_vertex_once _ _ _ _ EM) S' S''). assumption. }
  destruct (si_all _ _ _ _ CH cell vs) as [e [P Q]]; [eapply nth_error_In; exact A|exact G|rewrite <- L; eapply Forall2_len; exact F|exact IN|].
  exists e. split; [apply (si_c2e _ _ _ _ CH c cell e A); split; [exact P|intros v J; apply IN, Q, J]|].
  intros w. split.
  - intros J. destruct (Forall2_in_r _ _ _ _ F J) as [v [? ?]]. exists v. split; [apply Q; assumption|assumption].
  - intros [v [J S']]. apply Q in J. destruct (Forall2_in_l _ _ _ _ F J) as [w' [? S'']]. unfold sends in S''. replace w with w' by congruence. assumption.
Qed.
Lemma co_unique_p e p p' : p < length p_values -> p' < length p_values -> co e p -> co e p' -> p = p'.
Proof. intros A B C D. apply (si_distinct _ _ _ _ PA p p' A B). intros w. rewrite (C w), (D w). reflexivity. Qed.
Lemma e_image e v : e < n -> In v (e2v child e) -> exists w, sends vmap v w.
Proof.
  intros E I. destruct (si_in_cell _ _ _ _ CH e E) as [c C]. apply (si_e2c _ _ _ _ CH e c E) in C. destruct C as [L C].
  assert (Z : exists pc, nth_error cmap c = Some pc). { destruct (nth_error cmap c) as [pc|] eqn:Q; [eauto|]. exfalso. apply nth_error_None in Q. pose proof (Forall2_len _ _ _ (emb_incidence _ _ _ _ EM)) as G. unfold cmap in Q. lia. }
  destruct Z as [pc Z]. destruct (cell_pair c pc Z) as [cell [pcell [A [B [W V]]]]]. apply V. apply (si_c2e _ _ _ _ CH c cell e A) in C. apply C. exact I.
Qed.
Lemma co_unique_e e e' p : e < n -> e' < n -> co e p -> co e' p -> e = e'.
Proof.
  intros A B C D. apply (si_distinct _ _ _ _ CH e e' A B). intros v. split; intros I.
  - destruct (e_image e v A I) as [w W]. assert (J : In w (e2v parent p)) by (apply C; exists v; auto). apply D in J. destruct J as [v' [? S']]. rewrite (sends_inj vmap v v' w (emb_vertex_once _ _ _ _ EM) W S'). assumption.
  - destruct (e_image e' v B I) as [w W]. assert (J : In w (e2v parent p)) by (apply D; exists v; auto). apply C in J. destruct J as [v' [? S']]. rewrite (sends_inj vmap v v' w (emb_vertex_once _ _ _ _ EM) W S'). assumption.
Qed.
Lemma e_cell e : e < n -> exists c pc p, In c (e2c child e) /\ nth_error cmap c = Some pc /\ In p (c2e parent pc) /\ p < length p_values /\ co e p.
Proof.
  intros E. destruct (si_in_cell _ _ _ _ CH e E) as [c C]. pose proof C as C'. apply (si_e2c _ _ _ _ CH e c E) in C. destruct C as [L C].
  destruct (nth_error cmap c) as [pc|] eqn:Q; [|exfalso; apply nth_error_None in Q; pose proof (Forall2_len _ _ _ (emb_incidence _ _ _ _ EM)) as G; unfold cmap in Q; lia].
  destruct (up e c pc Q C) as [p [P H]]. exists c, pc, p. repeat split; try assumption; try apply H.
  destruct (cell_pair c pc Q) as [cell [pcell [A [B _]]]]. apply (si_c2e _ _ _ _ PA pc pcell p B) in P. apply P.
Qed.
Lemma pc_bound pc p : In pc cmap -> In p (c2e parent pc) -> p < length p_values.
Proof. intros I P. apply In_nth_error in I. destruct I as [c Q]. destruct (cell_pair c pc Q) as [cell [pcell [A [B _]]]]. apply (si_c2e _ _ _ _ PA pc pcell p B) in P. apply P. Qed.

(** ** transfer_markers *)
Variable tags : list nat.
Definition wanted (v : nat) : nat := if existsb (Nat.eqb v) tags then v else 0.
Lemma inner_spec asv ps st : ps <> [] -> exists b p, inner parent p_values tags asv ps st = Some (b, p) /\
  (b = true -> In p ps /\ In (val p_values p) tags /\ same_set (e2v parent p) asv = true) /\
  (b = false -> forall q, In q ps -> In (val p_values q) tags -> same_set (e2v parent q) asv = true -> False).
Proof.
  revert st. induction ps as [|p ps IH]; intros st NE; [congruence|]. cbn [inner]. destruct (existsb (Nat.eqb (val p_values p)) tags && same_set (e2v parent p) asv) eqn:E.
  - apply andb_true_iff in E. destruct E as [E1 E2]. apply existsb_nat in E1. exists true, p. split; [reflexivity|split; [intros _; repeat split; [left; reflexivity|assumption|assumption]|discriminate]].
  - assert (NP : In (val p_values p) tags -> same_set (e2v parent p) asv = true -> False) by (intros A B; apply existsb_nat in A; rewrite A, B in E; discriminate).
    destruct ps as [|q ps]; [exists false, p; cbn [inner]; split; [reflexivity|split; [discriminate|intros _ q [<-|[]]; exact NP]]|].
    destruct (IH (Some (false, p))) as [b [r [R [T F]]]]; [discriminate|]. exists b, r. split; [exact R|split].
    + intros B. destruct (T B) as [? ?]. split; [right; assumption|assumption].
    + intros B s [<-|S']; [exact NP|apply (F B s S')].
Qed.
Lemma outer_spec e p asv cells st : e < n -> p < length p_values -> co e p -> (forall w, In w asv <-> In w (e2v parent p)) -> (forall c, In c cells -> In c (e2c child e)) ->
  exists st', outer parent cmap p_values tags asv cells st = Ok (match cells with [] => 0 | _ => wanted (val p_values p) end, st').
Proof.
  intros E P C AS. revert st. induction cells as [|c cells IH]; intros st SUB; [eexists; reflexivity|]. cbn [outer].
  assert (CE := SUB c (or_introl eq_refl)). apply (si_e2c _ _ _ _ CH e c E) in CE. destruct CE as [L CE].
  destruct (nth_error cmap c) as [pc|] eqn:Q; [|exfalso; apply nth_error_None in Q; pose proof (Forall2_len _ _ _ (emb_incidence _ _ _ _ EM)) as G; unfold cmap in Q; lia]. cbn [opt_res bind].
  destruct (up e c pc Q CE) as [p' [P' C']]. pose proof (pc_bound pc p' (nth_error_In _ _ Q) P') as B'. assert (p' = p) by (apply (co_unique_p e); assumption). subst p'.
  destruct (inner_spec asv (c2e parent pc) st) as [b [r [R [T F]]]]; [intros Z; rewrite Z in P'; destruct P'|]. rewrite R. destruct b.
  - destruct (T eq_refl) as [R1 [R2 R3]]. assert (r = p). { apply (si_distinct _ _ _ _ PA r p (pc_bound pc r (nth_error_In _ _ Q) R1) P). intros w. rewrite <- (AS w). apply same_set_spec. exact R3. }
    subst r. eexists. unfold wanted. apply existsb_nat in R2. rewrite R2. reflexivity.
  - destruct (IH (Some (false, r))) as [st' S']; [intros c' I; apply SUB; right; exact I|]. exists st'. rewrite S'. f_equal. f_equal.
    assert (W : wanted (val p_values p) = 0). { unfold wanted. destruct (existsb (Nat.eqb (val p_values p)) tags) eqn:Z; [|reflexivity]. exfalso. apply existsb_nat in Z. apply (F eq_refl p P' Z). apply same_set_spec. intros w. symmetry. apply AS. }
    rewrite W. destruct cells; reflexivity.
Qed.
Lemma transfer_loop_spec es st : (forall e, In e es -> e < n) -> exists f, transfer_loop child parent vmap cmap p_values tags es st = Ok f /\
  Forall2 (fun e v => forall p, p < length p_values -> co e p -> v = wanted (nth p p_values 0)) es f.
Proof.
  revert st. induction es as [|e es IH]; intros st H; [exists []; split; [reflexivity|constructor]|]. cbn [transfer_loop].
  assert (E := H e (or_introl eq_refl)). destruct (e_cell e E) as [c [pc [p [C1 [C2 [C3 [P C]]]]]]].
  destruct (mapM_total (fun v => opt_res KeyError (nth_error vmap v)) (e2v child e)) as [asv A].
  { intros v V. destruct (e_image e v E V) as [w W]. unfold sends in W. rewrite W. eexists. reflexivity. }
  rewrite A. cbn [bind]. apply mapM_ok_forall in A.
  assert (AS : forall w, In w asv <-> In w (e2v parent p)).
  { intros w. rewrite (C w). split.
    - intros I. destruct (Forall2_in_r _ _ _ _ A I) as [v [V W]]. exists v. split; [exact V|]. destruct (nth_error vmap v); cbn in W; congruence.
    - intros [v [V W]]. destruct (Forall2_in_l _ _ _ _ A V) as [w' [? W']]. rewrite W in W'. cbn in W'. replace w with w' by congruence. assumption. }
  destruct (outer_spec e p asv (e2c child e) st E P C AS (fun c I => I)) as [st' O]. destruct (e2c child e) as [|c0 cs] eqn:EC; [destruct C1|]. rewrite O. cbn [bind snd fst].
  destruct (IH st') as [f [F G]]; [intros e' I; apply H; right; exact I|]. rewrite F. cbn [bind]. eexists. split; [reflexivity|]. constructor; [|exact G].
  intros p' P' C'. replace p' with p by (apply (co_unique_p e); assumption). reflexivity.
Qed.

(** ** translate_markers *)
Lemma translate_one_spec f p : p < length p_values -> length f = n -> exists f', translate_one child parent vmap cmap p_values f p = Ok f' /\ length f' = n /\
  (forall e, e < n -> co e p -> nth e f' 0 = nth p p_values 0) /\ (forall e, e < n -> ~ co e p -> nth e f' 0 = nth e f 0).
Proof.
  intros P LF. unfold translate_one. pose proof (emb_vertex_once _ _ _ _ EM) as NV. pose proof (emb_once _ _ _ _ EM) as NC. fold vmap in NV. fold cmap in NC.
  destruct (existsb _ (map (inverse vmap) (e2v parent p))) eqn:XX.
  - exists f. split; [reflexivity|split; [exact LF|split; [|auto]]]. intros e E C. exfalso. apply existsb_exists in XX. destruct XX as [o [O1 O2]]. apply in_map_iff in O1. destruct O1 as [w [<- W]]. apply C in W. destruct W as [v [_ S']].
    apply (inverse_spec _ _ _ NV) in S'. rewrite S' in O2. discriminate.
  - set (asv := flat_map _ (map (inverse vmap) (e2v parent p))).
    assert (AS : forall v, In v asv <-> exists w, In w (e2v parent p) /\ sends vmap v w).
    { intros v. unfold asv. rewrite in_flat_map. split.
      - intros [o [O1 O2]]. apply in_map_iff in O1. destruct O1 as [w [<- W]]. destruct (inverse vmap w) as [u|] eqn:I; [|destruct O2]. destruct O2 as [->|[]]. exists w. split; [exact W|]. apply (inverse_spec _ _ _ NV). exact I.
      - intros [w [W S']]. exists (Some v). split; [|left; reflexivity]. apply in_map_iff. exists w. split; [apply inverse_spec; assumption|exact W]. }
    assert (ALL : forall w, In w (e2v parent p) -> exists v, sends vmap v w).
    { intros w W. destruct (inverse vmap w) as [v|] eqn:I; [exists v; apply (inverse_spec _ _ _ NV); exact I|]. exfalso. assert (Y : existsb (fun v : option nat => match v with Some _ => false | None => true end) (map (inverse vmap) (e2v parent p)) = true) by (apply existsb_exists; exists None; split; [rewrite <- I; apply in_map; exact W|reflexivity]). congruence. }
    assert (MATCH : forall e, e < n -> (same_set (e2v child e) asv = true <-> co e p)).
    { intros e E. rewrite same_set_spec. split.
      - intros H w. split; [intros W; destruct (ALL w W) as [v V]; exists v; split; [apply H, AS; exists w; auto|exact V]|]. intros [v [V S']]. apply H, AS in V. destruct V as [w' [W' S'']]. unfold sends in S''. replace w with w' by congruence. exact W'.
      - intros C v. rewrite AS. split; [intros V; destruct (e_image e v E V) as [w W]; exists w; split; [apply C; exists v; auto|exact W]|]. intros [w [W S']]. apply C in W. destruct W as [v' [V' S'']]. rewrite (sends_inj vmap v v' w NV S' S''). exact V'. }
    destruct (rev _) as [|pc cells] eqn:R; cbn [search].
    + exists f. split; [reflexivity|split; [exact LF|split; [|auto]]]. intros e E C. exfalso. destruct (e_cell e E) as [c [pc [p' [C1 [C2 [C3 [P' C']]]]]]]. assert (p' = p) by (apply (co_unique_p e); assumption). subst p'.
      assert (I : In pc (e2c parent p)). { apply (si_e2c _ _ _ _ PA p pc P). split; [|exact C3]. destruct (cell_pair c pc C2) as [? [? [_ [B _]]]]. apply nth_error_Some. congruence. }
      assert (J : In pc (rev (filter (fun c0 => match inverse cmap c0 with Some _ => true | None => false end) (e2c parent p)))). { apply -> in_rev. apply filter_In. split; [exact I|]. apply (inverse_spec _ _ _ NC) in C2. rewrite C2. reflexivity. }
      rewrite R in J. destruct J.
    + assert (J : In pc (rev (filter (fun c0 => match inverse cmap c0 with Some _ => true | None => false end) (e2c parent p)))) by (rewrite R; left; reflexivity).
      apply in_rev in J. apply filter_In in J. destruct J as [J1 J2]. destruct (inverse cmap pc) as [cc|] eqn:I; [|discriminate]. cbn [opt_res bind]. apply (inverse_spec _ _ _ NC) in I.
      apply (si_e2c _ _ _ _ PA p pc P) in J1. destruct J1 as [J0 J1]. destruct (down p cc pc I J1) as [e [E1 E2]]. destruct (cell_pair cc pc I) as [cell [pcell [A [B _]]]].
      assert (E : e < n) by (apply (si_c2e _ _ _ _ CH cc cell e A) in E1; apply E1).
      assert (FE : filter (fun e' => same_set (e2v child e') asv) (c2e child cc) = [e]).
      { assert (ND : NoDup (c2e child cc)) by (apply (si_once _ _ _ _ CH); apply nth_error_Some; congruence).
        assert (BD : forall e', In e' (c2e child cc) -> e' < n) by (intros e' I'; apply (si_c2e _ _ _ _ CH cc cell e' A) in I'; apply I').
        apply NoDup_filter with (f := fun e' => same_set (e2v child e') asv) in ND. set (l := filter (fun e' => same_set (e2v child e') asv) (c2e child cc)) in *.
        assert (LI : forall e', In e' l <-> e' = e). { intros e'. unfold l. rewrite filter_In. split; [intros [I1 I2]; apply MATCH in I2; [|apply BD; exact I1]; apply (co_unique_e e' e p); auto|intros ->; split; [exact E1|apply MATCH; assumption]]. }
        destruct l as [|a [|b l']]; [exfalso; apply (proj2 (LI e) eq_refl)|f_equal; apply LI; left; reflexivity|]. exfalso. assert (a = e) by (apply LI; left; reflexivity). assert (b = e) by (apply LI; right; left; reflexivity). subst a b. inversion ND as [|? ? N1 N2]. apply N1. left. reflexivity. }
      rewrite FE. eexists. split; [reflexivity|]. rewrite set_nth_length. split; [exact LF|split].
      * intros e' E' C'. replace e' with e by (apply (co_unique_e e e' p); assumption). rewrite nth_set_nth, Nat.eqb_refl, LF. apply Nat.ltb_lt in E. rewrite E. reflexivity.
      * intros e' E' C'. rewrite nth_set_nth. destruct (Nat.eqb_spec e' e) as [->|]; [contradiction|reflexivity].
Qed.
Lemma foldM_app {A B} (step : A -> B -> res A) l l' a : foldM step (l ++ l') a = (do b <- foldM step l a; foldM step l' b).
Proof. revert a. induction l as [|x l IH]; intros a; cbn [app foldM]; [reflexivity|]. destruct (step a x); cbn [bind]; [apply IH|reflexivity]. Qed.
Lemma foldM_nested {A} (step : A -> nat -> res A) (g : nat -> list nat) l a : foldM (fun f t => foldM step (g t) f) l a = foldM step (concat (map g l)) a.
Proof. revert a. induction l as [|x l IH]; intros a; cbn [map concat foldM]; [reflexivity|]. rewrite foldM_app. destruct (foldM step (g x) a); cbn [bind]; [apply IH|reflexivity]. Qed.
Lemma co_dec e p : co e p \/ ~ co e p.
Proof.
  pose (imgs := flat_map (fun v => match nth_error vmap v with Some w => [w] | None => [] end) (e2v child e)).
  assert (G : forall w, In w imgs <-> exists v, In v (e2v child e) /\ nth_error vmap v = Some w).
  { intros w. unfold imgs. rewrite in_flat_map. split; intros [v [A B]]; exists v; (split; [exact A|]); [destruct (nth_error vmap v) as [u|]; [destruct B as [->|[]]; reflexivity|destruct B]|rewrite B; left; reflexivity]. }
  destruct (same_set (e2v parent p) imgs) eqn:E; [left|right].
  - intros w. rewrite <- G. apply same_set_spec. exact E.
  - intros C. assert (same_set (e2v parent p) imgs = true); [|congruence]. apply same_set_spec. intros w. rewrite G. apply C.
Qed.
Lemma translate_fold ps f : length f = n -> (forall p, In p ps -> p < length p_values) -> exists f', foldM (translate_one child parent vmap cmap p_values) ps f = Ok f' /\ length f' = n /\
  (forall e p, e < n -> p < length p_values -> co e p -> nth e f' 0 = if existsb (Nat.eqb p) ps then nth p p_values 0 else nth e f 0).
Proof.
  revert f. induction ps as [|q ps IH]; intros f L H; cbn [foldM]; [exists f; auto|]. destruct (translate_one_spec f q (H q (or_introl eq_refl)) L) as [f1 [A [B [C D]]]]. rewrite A. cbn [bind].
  destruct (IH f1 B) as [f2 [A2 [B2 C2]]]; [intros p I; apply H; right; exact I|]. exists f2. split; [exact A2|split; [exact B2|]]. intros e p E P CO. rewrite (C2 e p E P CO). cbn [existsb].
  destruct (existsb (Nat.eqb p) ps); [rewrite orb_true_r; reflexivity|]. rewrite orb_false_r. destruct (Nat.eqb_spec p q) as [->|N]; [apply C; assumption|]. apply D; [exact E|]. intros CQ. apply N. apply (co_unique_p e); auto. apply H. left. reflexivity.
Qed.
End Marks.
