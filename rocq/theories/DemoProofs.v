(** Lemmas for DemoProps.v *)
From Coq Require Import Reals Lra String.
From Verif Require Import Base BaseProofs HistoryModel HistoryProofs DemoModel.

(** One text is a part of another *)
Definition within (pat s : string) : Prop := exists a b, s = (a ++ pat ++ b)%string.

Lemma prefix_app pat s : prefix pat s = true <-> exists b, s = (pat ++ b)%string.
Proof.
  revert s. induction pat as [| c pat IH]; intros s; [split; [exists s; reflexivity | destruct s; reflexivity] |].
  destruct s as [| d s]; cbn [prefix].
  - split; [discriminate | intros [b E]; discriminate].
  - destruct (Ascii.ascii_dec c d) as [-> | N].
    + rewrite IH. split; intros [b E]; exists b; cbn in *; congruence.
    + split; [discriminate | intros [b E]; cbn in E; congruence].
Qed.
Lemma occurs_within pat s : occurs pat s = true <-> within pat s.
Proof.
  induction s as [| c s IH]; cbn [occurs]; rewrite orb_true_iff, prefix_app.
  - split.
    + intros [[b E] | C]; [| discriminate]. exists EmptyString, b. exact E.
    + intros (a & b & E). left. destruct a as [| ? ?]; [exists b; exact E | discriminate].
  - rewrite IH. split.
    + intros [[b E] | (a & b & E)]; [exists EmptyString, b; exact E | exists (String c a), b; cbn; congruence].
    + intros (a & b & E). destruct a as [| c' a]; [left; exists b; exact E | right]. cbn in E. injection E as _ E. exists a, b. exact E.
Qed.
Lemma append_nil s : (s ++ "")%string = s.
Proof. induction s as [| c s IH]; cbn; congruence. Qed.
Lemma append_assoc a b c : ((a ++ b) ++ c)%string = (a ++ b ++ c)%string.
Proof. induction a as [| x a IH]; cbn; congruence. Qed.
Lemma within_right pat a s : within pat s -> within pat (a ++ s).
Proof. intros (x & y & ->). exists (a ++ x)%string, y. rewrite append_assoc. reflexivity. Qed.
Lemma within_left pat a s : within pat s -> within pat (s ++ a).
Proof. intros (x & y & ->). exists x, (y ++ a)%string. rewrite !append_assoc. reflexivity. Qed.

(** ** Verdicts *)
Lemma history_study us : forall s, history s us = match study s us with (s', None) => Ok s' | (_, Some e) => Err e end.
Proof.
  induction us as [| u us IH]; intros s; cbn [history study]; [reflexivity |]. destruct (append_approx s u) as [s' [e |]]; [reflexivity | apply IH].
Qed.
Lemma r_above_spec r t : r_above r t = true <-> exists x, r = Some x /\ (t < x)%R.
Proof.
  destruct r as [x |]; cbn; [| split; [discriminate | intros (x & E & _); discriminate]].
  destruct (Rlt_dec t x) as [H | H]; split; try discriminate; eauto. intros (y & E & Hy). injection E as <-. contradiction.
Qed.
Lemma r_near_spec r e d : r_near r e d = true <-> exists x, r = Some x /\ (Rabs (x - e) < d)%R.
Proof.
  destruct r as [x |]; cbn; [| split; [discriminate | intros (x & E & _); discriminate]].
  destruct (Rlt_dec _ d) as [H | H]; split; try discriminate; eauto. intros (y & E & Hy). injection E as <-. contradiction.
Qed.

Lemma slopes_last us : forall p u pre q, p :: us = pre ++ [q; u] -> exists l, rev (slopes p us) = Some (ln (s_error u / s_error q) / ln (s_h u / s_h q))%R :: l.
Proof.
  induction us as [| v us IH]; intros p u pre q E.
  - destruct pre as [| ? [| ? ?]]; discriminate.
  - destruct pre as [| a pre]; cbn in E.
    + injection E as -> -> ->. cbn. eauto.
    + injection E as -> E. destruct (IH _ _ _ _ E) as [l El]. cbn [slopes rev]. rewrite El. cbn. eauto.
Qed.
Lemma rate_last polyfit us : regular us -> (2 <= length us)%nat ->
  exists r, (exists pre p u, us = pre ++ [p; u] /\ r = (ln (s_error u / s_error p) / ln (s_h u / s_h p))%R) /\
    (do s <- history approx0 us; get_rate polyfit s) = Ok (Some r, Some (fst (polyfit (map ln (map s_h us)) (map ln (map s_error us))))).
Proof.
  intros Hr Hl. rewrite history_study, (study_regular us Hr). cbn [bind].
  assert (S : exists pre p u, us = pre ++ [p; u]).
  { destruct (rev us) as [| u [| p pre]] eqn:E; apply (f_equal (@length _)) in E as L; rewrite rev_length in L; cbn in L; try lia.
    exists (rev pre), p, u. rewrite <- (rev_involutive us), E. cbn. rewrite <- app_assoc. reflexivity. }
  destruct S as (pre & p & u & Es). eexists. split; [exists pre, p, u; split; [exact Es | reflexivity] |].
  unfold get_rate, of_samples. cbn [rates hs errors]. destruct us as [| v us]; [cbn in Hl; lia |]. cbn [increments].
  destruct (slopes_last us v u pre p Es) as [l El]. cbn [rev]. rewrite El. cbn. reflexivity.
Qed.
