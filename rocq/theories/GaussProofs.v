(** Integrals over rectangles and the theorem of Gauss, with the Riemann integral of the standard library *)
From Coq Require Import Reals Lra Classical.
Local Open Scope R_scope.

(** Partial derivatives of functions of the plane, and continuity *)
Definition d1 (F dF : R -> R -> R) : Prop := forall x y, derivable_pt_lim (fun t => F t y) x (dF x y).
Definition d2 (F dF : R -> R -> R) : Prop := forall x y, derivable_pt_lim (fun t => F x t) y (dF x y).
Definition cont2 (F : R -> R -> R) : Prop := forall x y eps, 0 < eps -> exists delta, 0 < delta /\
  forall x' y', Rabs (x' - x) < delta -> Rabs (y' - y) < delta -> Rabs (F x' y' - F x y) < eps.
(** f is integrable from a to b and its integral is I *)
Definition integral (f : R -> R) (a b I : R) : Prop := exists pr : Riemann_integrable f a b, RiemannInt pr = I.
(** The iterated integral over the rectangle [a, b] x [c, d] *)
Definition integral2 (h : R -> R -> R) (a b c d I : R) : Prop :=
  exists J, (forall y, c <= y <= d -> integral (fun x => h x y) a b (J y)) /\ integral J c d I.

Lemma integral_unique f a b I J : integral f a b I -> integral f a b J -> I = J.
Proof. intros [p <-] [q <-]. apply RiemannInt_P5. Qed.
Lemma integral_ext f g a b I : a <= b -> (forall x, a <= x <= b -> f x = g x) -> integral f a b I -> integral g a b I.
Proof.
  intros L E [p <-]. assert (E' : forall x, Rmin a b <= x <= Rmax a b -> f x = g x) by (intros x; rewrite Rmin_left, Rmax_right by exact L; apply E).
  exists (Riemann_integrable_ext g E' p). apply RiemannInt_P18; [exact L |]. intros x H. symmetry. apply E. lra.
Qed.
Lemma integral_lin f g a b I J l : integral f a b I -> integral g a b J -> integral (fun x => f x + l * g x) a b (I + l * J).
Proof. intros [p <-] [q <-]. exists (RiemannInt_P10 l p q). apply RiemannInt_P13. Qed.
Lemma integral_bound f a b I e : a <= b -> integral f a b I -> (forall x, a < x < b -> Rabs (f x) <= e) -> Rabs I <= e * (b - a).
Proof.
  intros L [p <-] H. pose proof (RiemannInt_const_bound (l := - e) (u := e) p L) as B.
  assert (forall x, a < x < b -> - e <= f x <= e) as K by (intros x Hx; specialize (H x Hx); revert H; unfold Rabs; destruct (Rcase_abs (f x)); lra).
  specialize (B K). apply Rabs_le. lra.
Qed.
Lemma integral_cont f a b : a <= b -> continuity f -> exists I, integral f a b I.
Proof. intros L C. assert (K : forall x, a <= x <= b -> continuity_pt f x) by (intros; apply C). exists (RiemannInt (continuity_implies_RiemannInt L K)), (continuity_implies_RiemannInt L K). reflexivity. Qed.
Lemma integral_deriv F f a b : (forall x, derivable_pt_lim F x (f x)) -> continuity f -> integral f a b (F b - F a).
Proof.
  intros D C. pose (d := (fun x => exist _ (f x) (D x)) : derivable F).
  assert (C' : continuity (derive F d)) by exact C.
  pose (c := @mkC1 F d C'). pose proof (FTC_Riemann c (RiemannInt_P32 c a b)) as T. exists (RiemannInt_P32 c a b). exact T.
Qed.

Lemma lim_eps f x l : derivable_pt_lim f x l <-> forall eps, 0 < eps -> exists delta, 0 < delta /\ forall h, h <> 0 -> Rabs h < delta -> Rabs ((f (x + h) - f x) / h - l) < eps.
Proof.
  split; intros H eps He; specialize (H eps He); destruct H as [d H].
  - exists d. split; [apply cond_pos | exact H].
  - destruct H as [P H]. exists (mkposreal d P). exact H.
Qed.
Lemma cont_eps f x : continuity_pt f x <-> forall eps, 0 < eps -> exists delta, 0 < delta /\ forall x', Rabs (x' - x) < delta -> Rabs (f x' - f x) < eps.
Proof.
  split; intros H eps He; specialize (H eps He); destruct H as (d & P & H); exists d; (split; [exact P |]).
  - intros x' Hx. destruct (Req_dec x x') as [<- | N]; [rewrite Rminus_diag_eq, Rabs_R0 by reflexivity; exact He |]. apply H. split; [split; [exact I | exact N] | exact Hx].
  - intros x' [_ Hx]. apply H. exact Hx.
Qed.
Lemma cont2_x K y : cont2 K -> continuity (fun x => K x y).
Proof.
  intros C x. apply cont_eps. intros eps He. destruct (C x y eps He) as (d & P & H). exists d. split; [exact P |]. intros x' Hx. apply H; [exact Hx |].
  rewrite Rminus_diag_eq, Rabs_R0 by reflexivity. exact P.
Qed.
Lemma cont2_y K x : cont2 K -> continuity (fun y => K x y).
Proof.
  intros C y. apply cont_eps. intros eps He. destruct (C x y eps He) as (d & P & H). exists d. split; [exact P |]. intros y' Hy. apply H; [| exact Hy].
  rewrite Rminus_diag_eq, Rabs_R0 by reflexivity. exact P.
Qed.

(** Continuity in y is uniform for x of an interval *)
Lemma tube K a b y0 eps : a <= b -> cont2 K -> 0 < eps ->
  exists delta, 0 < delta /\ forall x y, a <= x <= b -> Rabs (y - y0) < delta -> Rabs (K x y - K x y0) < eps.
Proof.
  intros L C He. pose (E := fun s => a <= s <= b /\ exists delta, 0 < delta /\ forall x y, a <= x <= s -> Rabs (y - y0) < delta -> Rabs (K x y - K x y0) < eps).
  assert (near : forall m, exists delta, 0 < delta /\ forall x y, Rabs (x - m) < delta -> Rabs (y - y0) < delta -> Rabs (K x y - K x y0) < eps).
  { intros m. destruct (C m y0 (eps / 2)) as (d & P & H); [lra |]. exists d. split; [exact P |]. intros x y Hx Hy.
    pose proof (H x y Hx Hy) as H1. assert (H2 : Rabs (K x y0 - K m y0) < eps / 2) by (apply H; [exact Hx | rewrite Rminus_diag_eq, Rabs_R0 by reflexivity; exact P]).
    replace (K x y - K x y0) with ((K x y - K m y0) - (K x y0 - K m y0)) by ring. eapply Rle_lt_trans; [apply Rabs_triang |]. rewrite Rabs_Ropp. lra. }
  assert (Ea : E a). { split; [lra |]. destruct (near a) as (d & P & H). exists d. split; [exact P |]. intros x y Hx Hy. apply H; [| exact Hy]. replace x with a by lra. rewrite Rminus_diag_eq, Rabs_R0 by reflexivity. exact P. }
  destruct (completeness E) as [m [U M]]; [exists b; intros s [Hs _]; lra | exists a; exact Ea |].
  assert (am : a <= m) by (apply U; exact Ea). assert (mb : m <= b) by (apply M; intros s [Hs _]; lra).
  destruct (near m) as (d & P & H).
  assert (S : exists s, E s /\ m - d < s). { apply NNPP. intros N. assert (is_upper_bound E (m - d)) as B by (intros s Hs; apply Rnot_lt_le; intros Hl; apply N; exists s; auto). specialize (M _ B). lra. }
  destruct S as (s & [Hs (d1' & P1 & H1)] & Hms). pose (s' := Rmin b (m + d / 2)).
  assert (E' : E s').
  { unfold s'. split; [split; [apply Rmin_glb; lra | apply Rmin_l] |]. exists (Rmin d d1'). split; [apply Rmin_glb_lt; assumption |].
    intros x y Hx Hy. pose proof (Rmin_l d d1'). pose proof (Rmin_r d d1'). pose proof (Rmin_r b (m + d / 2)). destruct (Rle_dec x s) as [Hxs | Hxs]; [apply H1; lra | apply H; [| lra]]. apply Rabs_def1; lra. }
  pose proof (U _ E') as Hs'. assert (Z : s' = b) by (unfold s', Rmin in *; destruct (Rle_dec b (m + d / 2)); [reflexivity | lra]). rewrite Z in E'. destruct E' as [_ W]. exact W.
Qed.

(** Integration in x, and the derivative of the integral *)
Lemma integral_function K a b : a <= b -> cont2 K -> exists J, (forall y, integral (fun x => K x y) a b (J y)) /\ continuity J.
Proof.
  intros L C. assert (p : forall y, Riemann_integrable (fun x => K x y) a b) by (intros y; apply continuity_implies_RiemannInt; [exact L | intros; apply cont2_x; exact C]).
  exists (fun y => RiemannInt (p y)). assert (Hi : forall y, integral (fun x => K x y) a b (RiemannInt (p y))) by (intros y; exists (p y); reflexivity). split; [exact Hi |].
  intros y. apply cont_eps. intros eps He. destruct (tube K a b y (eps / (b - a + 1)) L C) as (d & P & H); [apply Rdiv_lt_0_compat; lra |]. exists d. split; [exact P |]. intros y' Hy.
  replace (RiemannInt (p y') - RiemannInt (p y)) with (RiemannInt (p y') + -1 * RiemannInt (p y)) by ring. eapply Rle_lt_trans.
  - apply (integral_bound _ a b _ (eps / (b - a + 1)) L (integral_lin _ _ a b _ _ (-1) (Hi y') (Hi y))). intros x Hx. left. replace (K x y' + -1 * K x y) with (K x y' - K x y) by ring. apply H; [lra | exact Hy].
  - apply (Rmult_lt_reg_r (b - a + 1)); [lra |]. replace (eps / (b - a + 1) * (b - a) * (b - a + 1)) with (eps * (b - a)) by (field; lra). nra.
Qed.
Lemma integral_derivative G K a b Phi J : a <= b -> d2 G K -> cont2 K -> (forall y, integral (fun x => G x y) a b (Phi y)) -> (forall y, integral (fun x => K x y) a b (J y)) ->
  forall y, derivable_pt_lim Phi y (J y).
Proof.
  intros L D C HP HJ y. apply lim_eps. intros eps He. destruct (tube K a b y (eps / (b - a + 1)) L C) as (d & P & H); [apply Rdiv_lt_0_compat; lra |]. exists d. split; [exact P |].
  intros h N Hh. replace ((Phi (y + h) - Phi y) / h - J y) with ((- J y + / h * (Phi (y + h) + -1 * Phi y))) by (field; exact N). 
  assert (HI : integral (fun x => (0 * K x y + -1 * K x y) + / h * (G x (y + h) + -1 * G x y)) a b (- J y + / h * (Phi (y + h) + -1 * Phi y))).
  { apply (integral_lin (fun x => 0 * K x y + -1 * K x y) (fun x => G x (y + h) + -1 * G x y)); [| apply (integral_lin (fun x => G x (y + h)) (fun x => G x y)); apply HP].
    eapply integral_ext; [exact L | | replace (- J y) with (J y + -2 * J y) by ring; apply (integral_lin (fun x => K x y) (fun x => K x y)); apply HJ]. intros; cbn; ring. }
  eapply Rle_lt_trans.
  - apply (integral_bound _ a b _ (eps / (b - a + 1)) L HI). intros x Hx. left.
    assert (M : exists c, G x (y + h) - G x y = K x c * h /\ Rabs (c - y) < d).
    { destruct (Rtotal_order h 0) as [Hn | [Hz | Hp]]; [| contradiction |].
      - destruct (MVT_cor2 (fun t => G x t) (fun t => K x t) (y + h) y) as (c & E & Hc); [lra | intros; apply D |]. exists c. split; [lra |]. rewrite Rabs_left in Hh by lra. apply Rabs_def1; lra.
      - destruct (MVT_cor2 (fun t => G x t) (fun t => K x t) y (y + h)) as (c & E & Hc); [lra | intros; apply D |]. exists c. split; [lra |]. rewrite Rabs_right in Hh by lra. apply Rabs_def1; lra. }
    destruct M as (c & E & Hc). replace (0 * K x y + -1 * K x y + / h * (G x (y + h) + -1 * G x y)) with (- K x y + / h * (G x (y + h) - G x y)) by ring. rewrite E.
    replace (- K x y + / h * (K x c * h)) with (K x c - K x y) by (field; exact N). apply H; [lra | exact Hc].
  - apply (Rmult_lt_reg_r (b - a + 1)); [lra |]. replace (eps / (b - a + 1) * (b - a) * (b - a + 1)) with (eps * (b - a)) by (field; lra). nra.
Qed.

(** The theorem of Gauss for a rectangle *)
Theorem gauss F G dF dG a b c d : a <= b -> c <= d -> d1 F dF -> d2 G dG -> cont2 F -> cont2 G -> cont2 dF -> cont2 dG ->
  exists I left right bottom top, integral2 (fun x y => dF x y + dG x y) a b c d I /\
    integral (fun y => F a y) c d left /\ integral (fun y => F b y) c d right /\
    integral (fun x => G x c) a b bottom /\ integral (fun x => G x d) a b top /\ I = (right - left) + (top - bottom).
Proof.
  intros L1 L2 DF DG CF CG CdF CdG.
  destruct (integral_function G a b L1 CG) as (Phi & HPhi & _). destruct (integral_function dG a b L1 CdG) as (J & HJ & CJ).
  destruct (integral_cont (fun y => F a y) c d L2 (cont2_y F a CF)) as [l Hl]. destruct (integral_cont (fun y => F b y) c d L2 (cont2_y F b CF)) as [r Hr].
  pose proof (integral_deriv Phi J c d (integral_derivative G dG a b Phi J L1 DG CdG HPhi HJ) CJ) as T.
  exists ((r + -1 * l) + 1 * (Phi d - Phi c)), l, r, (Phi c), (Phi d). split; [| repeat split; try assumption; try apply HPhi; ring].
  exists (fun y => (F b y + -1 * F a y) + 1 * J y). split.
  - intros y _. apply (integral_ext (fun x => dF x y + 1 * dG x y)); [exact L1 | intros; ring |]. apply (integral_lin (fun x => dF x y) (fun x => dG x y)); [| apply HJ].
    replace (F b y + -1 * F a y) with (F b y - F a y) by ring. apply (integral_deriv (fun x => F x y) (fun x => dF x y)); [intros x; apply DF | apply cont2_x; exact CdF].
  - apply (integral_lin (fun y => F b y + -1 * F a y) J); [| exact T]. apply (integral_lin (fun y => F b y) (fun y => F a y)); assumption.
Qed.
Lemma integral2_ext f g a b c d I : a <= b -> c <= d -> (forall x y, a <= x <= b -> c <= y <= d -> f x y = g x y) -> integral2 f a b c d I -> integral2 g a b c d I.
Proof. intros L1 L2 E (J & H & HI). exists J. split; [| exact HI]. intros y Hy. apply (integral_ext (fun x => f x y)); [exact L1 | intros x Hx; apply E; assumption | apply H, Hy]. Qed.
Lemma integral2_unique f a b c d I J : c <= d -> integral2 f a b c d I -> integral2 f a b c d J -> I = J.
Proof.
  intros L (I' & HI & KI) (J' & HJ & KJ). apply (integral_unique I' c d); [exact KI |]. apply (integral_ext J'); [exact L | | exact KJ].
  intros y Hy. apply (integral_unique (fun x => f x y) a b); [apply HJ | apply HI]; exact Hy.
Qed.

(** Continuity of combinations *)
Lemma cont2_const c : cont2 (fun _ _ => c).
Proof. intros x y eps He. exists 1. split; [lra |]. intros. rewrite Rminus_diag_eq, Rabs_R0 by reflexivity. exact He. Qed.
Lemma cont2_plus F G : cont2 F -> cont2 G -> cont2 (fun x y => F x y + G x y).
Proof.
  intros CF CG x y eps He. destruct (CF x y (eps / 2)) as (d & P & H); [lra |]. destruct (CG x y (eps / 2)) as (d' & P' & H'); [lra |].
  exists (Rmin d d'). split; [apply Rmin_glb_lt; assumption |]. intros x' y' Hx Hy. pose proof (Rmin_l d d'). pose proof (Rmin_r d d').
  replace (F x' y' + G x' y' - (F x y + G x y)) with ((F x' y' - F x y) + (G x' y' - G x y)) by ring. eapply Rle_lt_trans; [apply Rabs_triang |].
  specialize (H x' y'). specialize (H' x' y'). assert (Rabs (F x' y' - F x y) < eps / 2) by (apply H; lra). assert (Rabs (G x' y' - G x y) < eps / 2) by (apply H'; lra). lra.
Qed.
Lemma cont2_comp f F : continuity f -> cont2 F -> cont2 (fun x y => f (F x y)).
Proof.
  intros C CF x y eps He. destruct (proj1 (cont_eps f (F x y)) (C (F x y)) eps He) as (d & P & H). destruct (CF x y d P) as (d' & P' & H'). exists d'. split; [exact P' |].
  intros x' y' Hx Hy. apply H, H'; assumption.
Qed.
Lemma cont2_scal c F : cont2 F -> cont2 (fun x y => c * F x y).
Proof. intros CF. apply (cont2_comp (fun t => c * t)); [| exact CF]. intros t. apply (continuity_pt_scal (fun t => t)). apply derivable_continuous_pt. exists 1. apply derivable_pt_lim_id. Qed.
Lemma cont2_sqr F : cont2 F -> cont2 (fun x y => F x y * F x y).
Proof. intros CF. apply (cont2_comp (fun t => t * t)); [| exact CF]. intros t. assert (derivable_pt (fun t => t) t) as D by (exists 1; apply derivable_pt_lim_id). apply (continuity_pt_mult (fun t => t) (fun t => t)); apply derivable_continuous_pt, D. Qed.
Lemma cont2_ext F G : (forall x y, F x y = G x y) -> cont2 F -> cont2 G.
Proof. intros E C x y eps He. destruct (C x y eps He) as (d & P & H). exists d. split; [exact P |]. intros. rewrite <- !E. apply H; assumption. Qed.
Lemma cont2_mult F G : cont2 F -> cont2 G -> cont2 (fun x y => F x y * G x y).
Proof.
  intros CF CG. apply (cont2_ext (fun x y => / 4 * ((F x y + G x y) * (F x y + G x y)) + - / 4 * ((F x y + -1 * G x y) * (F x y + -1 * G x y)))); [intros; field |].
  apply cont2_plus; apply cont2_scal, (cont2_sqr (fun x y => _)); apply cont2_plus; try assumption. apply cont2_scal. exact CG.
Qed.
Lemma cont2_fst : cont2 (fun x _ => x).
Proof. intros x y eps He. exists eps. auto. Qed.
Lemma cont2_snd : cont2 (fun _ y => y).
Proof. intros x y eps He. exists eps. auto. Qed.
