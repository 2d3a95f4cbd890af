(** Integrals over boxes and the theorem of Gauss in space *)
From Coq Require Import Reals Lra Classical.
From Verif Require Export GaussProofs.
Local Open Scope R_scope.

(** Partial derivatives of functions of space, and continuity *)
Definition D1 (F dF : R -> R -> R -> R) : Prop := forall x y z, derivable_pt_lim (fun t => F t y z) x (dF x y z).
Definition D2 (F dF : R -> R -> R -> R) : Prop := forall x y z, derivable_pt_lim (fun t => F x t z) y (dF x y z).
Definition D3 (F dF : R -> R -> R -> R) : Prop := forall x y z, derivable_pt_lim (fun t => F x y t) z (dF x y z).
Definition cont3 (F : R -> R -> R -> R) : Prop := forall x y z eps, 0 < eps -> exists delta, 0 < delta /\
  forall x' y' z', Rabs (x' - x) < delta -> Rabs (y' - y) < delta -> Rabs (z' - z) < delta -> Rabs (F x' y' z' - F x y z) < eps.
(** The iterated integral over the box [a, b] x [c, d] x [e, f] *)
Definition integral3 (h : R -> R -> R -> R) (a b c d e f I : R) : Prop :=
  exists J, (forall z, e <= z <= f -> integral2 (fun x y => h x y z) a b c d (J z)) /\ integral J e f I.

Lemma zero_lt t d : 0 < d -> Rabs (t - t) < d.
Proof. intros P. rewrite Rminus_diag_eq, Rabs_R0 by reflexivity. exact P. Qed.
Lemma cont3_xy K z : cont3 K -> cont2 (fun x y => K x y z).
Proof. intros C x y eps He. destruct (C x y z eps He) as (d & P & H). exists d. split; [exact P |]. intros x' y' Hx Hy. apply H; [exact Hx | exact Hy | apply zero_lt, P]. Qed.
Lemma cont3_xz K y : cont3 K -> cont2 (fun x z => K x y z).
Proof. intros C x z eps He. destruct (C x y z eps He) as (d & P & H). exists d. split; [exact P |]. intros x' z' Hx Hz. apply H; [exact Hx | apply zero_lt, P | exact Hz]. Qed.
Lemma cont3_yz K x : cont3 K -> cont2 (fun y z => K x y z).
Proof. intros C y z eps He. destruct (C x y z eps He) as (d & P & H). exists d. split; [exact P |]. intros y' z' Hy Hz. apply H; [apply zero_lt, P | exact Hy | exact Hz]. Qed.

Lemma tube3 K a b y0 z0 eps : a <= b -> cont3 K -> 0 < eps ->
  exists delta, 0 < delta /\ forall x y z, a <= x <= b -> Rabs (y - y0) < delta -> Rabs (z - z0) < delta -> Rabs (K x y z - K x y0 z0) < eps.
Proof.
  intros L C He. pose (E := fun s => a <= s <= b /\ exists delta, 0 < delta /\ forall x y z, a <= x <= s -> Rabs (y - y0) < delta -> Rabs (z - z0) < delta -> Rabs (K x y z - K x y0 z0) < eps).
  assert (near : forall m, exists delta, 0 < delta /\ forall x y z, Rabs (x - m) < delta -> Rabs (y - y0) < delta -> Rabs (z - z0) < delta -> Rabs (K x y z - K x y0 z0) < eps).
  { intros m. destruct (C m y0 z0 (eps / 2)) as (d & P & H); [lra |]. exists d. split; [exact P |]. intros x y z Hx Hy Hz.
    pose proof (H x y z Hx Hy Hz) as H1. assert (H2 : Rabs (K x y0 z0 - K m y0 z0) < eps / 2) by (apply H; [exact Hx | apply zero_lt, P | apply zero_lt, P]).
    replace (K x y z - K x y0 z0) with ((K x y z - K m y0 z0) - (K x y0 z0 - K m y0 z0)) by ring. eapply Rle_lt_trans; [apply Rabs_triang |]. rewrite Rabs_Ropp. lra. }
  assert (Ea : E a). { split; [lra |]. destruct (near a) as (d & P & H). exists d. split; [exact P |]. intros x y z Hx Hy Hz. apply H; [| exact Hy | exact Hz]. replace x with a by lra. apply zero_lt, P. }
  destruct (completeness E) as [m [U M]]; [exists b; intros s [Hs _]; lra | exists a; exact Ea |].
  assert (am : a <= m) by (apply U; exact Ea). assert (mb : m <= b) by (apply M; intros s [Hs _]; lra).
  destruct (near m) as (d & P & H).
  assert (S : exists s, E s /\ m - d < s). { apply NNPP. intros N. assert (is_upper_bound E (m - d)) as B by (intros s Hs; apply Rnot_lt_le; intros Hl; apply N; exists s; auto). specialize (M _ B). lra. }
  destruct S as (s & [Hs (d1' & P1 & H1)] & Hms). pose (s' := Rmin b (m + d / 2)).
  assert (E' : E s').
  { unfold s'. split; [split; [apply Rmin_glb; lra | apply Rmin_l] |]. exists (Rmin d d1'). split; [apply Rmin_glb_lt; assumption |].
    intros x y z Hx Hy Hz. pose proof (Rmin_l d d1'). pose proof (Rmin_r d d1'). pose proof (Rmin_r b (m + d / 2)). destruct (Rle_dec x s) as [Hxs | Hxs]; [apply H1; lra | apply H; [| lra | lra]]. apply Rabs_def1; lra. }
  pose proof (U _ E') as Hs'. assert (Z : s' = b) by (unfold s', Rmin in *; destruct (Rle_dec b (m + d / 2)); [reflexivity | lra]). rewrite Z in E'. destruct E' as [_ W]. exact W.
Qed.
Lemma integral_function3 K a b : a <= b -> cont3 K -> exists J, (forall y z, integral (fun x => K x y z) a b (J y z)) /\ cont2 J.
Proof.
  intros L C. assert (p : forall y z, Riemann_integrable (fun x => K x y z) a b) by (intros y z; apply continuity_implies_RiemannInt; [exact L | intros; apply (cont2_x (fun x y => K x y z)), cont3_xy; exact C]).
  exists (fun y z => RiemannInt (p y z)). assert (Hi : forall y z, integral (fun x => K x y z) a b (RiemannInt (p y z))) by (intros y z; exists (p y z); reflexivity). split; [exact Hi |].
  intros y z eps He. destruct (tube3 K a b y z (eps / (b - a + 1)) L C) as (d & P & H); [apply Rdiv_lt_0_compat; lra |]. exists d. split; [exact P |]. intros y' z' Hy Hz.
  replace (RiemannInt (p y' z') - RiemannInt (p y z)) with (RiemannInt (p y' z') + -1 * RiemannInt (p y z)) by ring. eapply Rle_lt_trans.
  - apply (integral_bound _ a b _ (eps / (b - a + 1)) L (integral_lin _ _ a b _ _ (-1) (Hi y' z') (Hi y z))). intros x Hx. left. replace (K x y' z' + -1 * K x y z) with (K x y' z' - K x y z) by ring. apply H; [lra | exact Hy | exact Hz].
  - apply (Rmult_lt_reg_r (b - a + 1)); [lra |]. replace (eps / (b - a + 1) * (b - a) * (b - a + 1)) with (eps * (b - a)) by (field; lra). nra.
Qed.
(** The theorem of Gauss for a box *)
Theorem gauss3 F G H dF dG dH a b c d e f : a <= b -> c <= d -> e <= f -> D1 F dF -> D2 G dG -> D3 H dH -> cont3 F -> cont3 G -> cont3 H -> cont3 dF -> cont3 dG -> cont3 dH ->
  exists I F0 F1 G0 G1 H0 H1, integral3 (fun x y z => dF x y z + dG x y z + dH x y z) a b c d e f I /\
    integral2 (fun y z => F a y z) c d e f F0 /\ integral2 (fun y z => F b y z) c d e f F1 /\
    integral2 (fun x z => G x c z) a b e f G0 /\ integral2 (fun x z => G x d z) a b e f G1 /\
    integral2 (fun x y => H x y e) a b c d H0 /\ integral2 (fun x y => H x y f) a b c d H1 /\ I = (F1 - F0) + (G1 - G0) + (H1 - H0).
Proof.
  intros L1 L2 L3 DF DG DH CF CG CH CdF CdG CdH.
  destruct (integral_function (fun y z => F a y z) c d L2 (cont3_yz F a CF)) as (Aa & HAa & CAa). destruct (integral_function (fun y z => F b y z) c d L2 (cont3_yz F b CF)) as (Ab & HAb & CAb).
  destruct (integral_cont Aa e f L3 CAa) as [F0 HF0]. destruct (integral_cont Ab e f L3 CAb) as [F1 HF1].
  destruct (integral_function3 G a b L1 CG) as (Gam & HGam & CGam). destruct (integral_function3 dG a b L1 CdG) as (gam & Hgam & Cgam).
  destruct (integral_cont (fun z => Gam c z) e f L3 (cont2_y Gam c CGam)) as [G0 HG0]. destruct (integral_cont (fun z => Gam d z) e f L3 (cont2_y Gam d CGam)) as [G1 HG1].
  destruct (integral_function3 H a b L1 CH) as (Phi & HPhi & CPhi). destruct (integral_function3 dH a b L1 CdH) as (phi & Hphi & Cphi).
  destruct (integral_function Phi c d L2 CPhi) as (P & HP & _). destruct (integral_function phi c d L2 Cphi) as (J & HJ & CJ).
  assert (DPhi : d2 Phi phi) by (intros y z; apply (integral_derivative (fun x z => H x y z) (fun x z => dH x y z) a b (Phi y) (phi y) L1); [intros x z'; apply DH | apply cont3_xz, CdH | apply HPhi | apply Hphi]).
  pose proof (integral_deriv P J e f (integral_derivative Phi phi c d P J L2 DPhi Cphi HP HJ) CJ) as T.
  assert (DGam : forall y z, derivable_pt_lim (fun t => Gam t z) y (gam y z)).
  { intros y z. apply (integral_derivative (fun x y => G x y z) (fun x y => dG x y z) a b (fun y => Gam y z) (fun y => gam y z) L1); [intros x y'; apply DG | apply cont3_xy, CdG | intros y'; apply HGam | intros y'; apply Hgam]. }
  exists (((F1 + -1 * F0) + 1 * (G1 + -1 * G0)) + 1 * (P f - P e)), F0, F1, G0, G1, (P e), (P f). split; [| split; [| split; [| split; [| split; [| split; [| split]]]]]].
  - exists (fun z => ((Ab z + -1 * Aa z) + 1 * (Gam d z + -1 * Gam c z)) + 1 * J z). split.
    + intros z _. exists (fun y => ((F b y z + -1 * F a y z) + 1 * gam y z) + 1 * phi y z). split.
      * intros y _. apply (integral_ext (fun x => (dF x y z + 1 * dG x y z) + 1 * dH x y z)); [exact L1 | intros; ring |].
        apply (integral_lin (fun x => dF x y z + 1 * dG x y z) (fun x => dH x y z)); [| apply Hphi]. apply (integral_lin (fun x => dF x y z) (fun x => dG x y z)); [| apply Hgam].
        replace (F b y z + -1 * F a y z) with (F b y z - F a y z) by ring. apply (integral_deriv (fun x => F x y z) (fun x => dF x y z)); [intros x; apply DF | apply (cont2_x (fun x y => dF x y z)), cont3_xy, CdF].
      * apply (integral_lin (fun y => (F b y z + -1 * F a y z) + 1 * gam y z) (fun y => phi y z)); [| apply HJ]. apply (integral_lin (fun y => F b y z + -1 * F a y z) (fun y => gam y z)).
        -- apply (integral_lin (fun y => F b y z) (fun y => F a y z)); [apply HAb | apply HAa].
        -- replace (Gam d z + -1 * Gam c z) with (Gam d z - Gam c z) by ring. apply (integral_deriv (fun y => Gam y z) (fun y => gam y z)); [intros y; apply DGam | apply cont2_x, Cgam].
    + apply (integral_lin (fun z => (Ab z + -1 * Aa z) + 1 * (Gam d z + -1 * Gam c z)) J); [| exact T]. apply (integral_lin (fun z => Ab z + -1 * Aa z) (fun z => Gam d z + -1 * Gam c z)).
      * apply (integral_lin Ab Aa); assumption.
      * apply (integral_lin (fun z => Gam d z) (fun z => Gam c z)); assumption.
  - exists Aa. split; [intros z _; apply HAa | exact HF0].
  - exists Ab. split; [intros z _; apply HAb | exact HF1].
  - exists (fun z => Gam c z). split; [intros z _; apply HGam | exact HG0].
  - exists (fun z => Gam d z). split; [intros z _; apply HGam | exact HG1].
  - exists (fun y => Phi y e). split; [intros y _; apply HPhi | apply HP].
  - exists (fun y => Phi y f). split; [intros y _; apply HPhi | apply HP].
  - ring.
Qed.
Lemma integral3_ext g h a b c d e f I : a <= b -> c <= d -> e <= f -> (forall x y z, a <= x <= b -> c <= y <= d -> e <= z <= f -> g x y z = h x y z) -> integral3 g a b c d e f I -> integral3 h a b c d e f I.
Proof. intros L1 L2 L3 E (J & H & HI). exists J. split; [| exact HI]. intros z Hz. apply (integral2_ext (fun x y => g x y z)); [exact L1 | exact L2 | intros x y Hx Hy; apply E; assumption | apply H, Hz]. Qed.
Lemma integral2_scal h a b c d I l : a <= b -> c <= d -> integral2 h a b c d I -> integral2 (fun x y => l * h x y) a b c d (l * I).
Proof.
  intros L1 L2 (J & H & HI). exists (fun y => l * J y). split.
  - intros y Hy. apply (integral_ext (fun x => h x y + (l - 1) * h x y)); [exact L1 | intros; ring |]. replace (l * J y) with (J y + (l - 1) * J y) by ring. apply (integral_lin (fun x => h x y) (fun x => h x y)); apply H, Hy.
  - apply (integral_ext (fun y => J y + (l - 1) * J y)); [exact L2 | intros; ring |]. replace (l * I) with (I + (l - 1) * I) by ring. apply (integral_lin J J); exact HI.
Qed.
(** Continuity of combinations *)
Lemma cont3_const c : cont3 (fun _ _ _ => c).
Proof. intros x y z eps He. exists 1. split; [lra |]. intros. apply zero_lt, He. Qed.
Lemma cont3_proj k : cont3 (fun x y z => match k with 0%nat => x | 1%nat => y | _ => z end).
Proof. intros x y z eps He. exists eps. split; [exact He |]. intros. destruct k as [| [| k]]; assumption. Qed.
Lemma cont3_comp f F : continuity f -> cont3 F -> cont3 (fun x y z => f (F x y z)).
Proof.
  intros Cf CF x y z eps He. destruct (proj1 (cont_eps f (F x y z)) (Cf (F x y z)) eps He) as (d & P & H). destruct (CF x y z d P) as (d' & P' & H'). exists d'. split; [exact P' |].
  intros x' y' z' Hx Hy Hz. apply H, H'; assumption.
Qed.
Lemma cont3_comp2 f F G : cont2 f -> cont3 F -> cont3 G -> cont3 (fun x y z => f (F x y z) (G x y z)).
Proof.
  intros Cf CF CG x y z eps He. destruct (Cf (F x y z) (G x y z) eps He) as (d & P & H). destruct (CF x y z d P) as (d' & P' & H'). destruct (CG x y z d P) as (d'' & P'' & H'').
  exists (Rmin d' d''). split; [apply Rmin_glb_lt; assumption |]. intros x' y' z' Hx Hy Hz. pose proof (Rmin_l d' d''). pose proof (Rmin_r d' d''). apply H; [apply H' | apply H'']; lra.
Qed.
Lemma cont3_plus F G : cont3 F -> cont3 G -> cont3 (fun x y z => F x y z + G x y z).
Proof. apply (cont3_comp2 Rplus). apply cont2_plus; [apply cont2_fst | apply cont2_snd]. Qed.
Lemma cont3_mult F G : cont3 F -> cont3 G -> cont3 (fun x y z => F x y z * G x y z).
Proof. apply (cont3_comp2 Rmult). apply cont2_mult; [apply cont2_fst | apply cont2_snd]. Qed.
