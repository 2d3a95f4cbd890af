(** C129: what the harmonic extension computes, in terms of functions. *)
From Coq Require Import Lia.
From Verif Require Import Base BaseProofs Mat MatProofs ConvertActionProofs SpaceOpModel SpaceOpProofs SpaceOpProps SolveProofs HarmQuadModel HarmQuadProofs.
Local Open Scope nat_scope.

(** The matrix exists and gives the projection of the trace of the one solution; both are determined *)
Theorem C129_extends solve d : solves_regular solve -> admissible d -> In 1 (d_markers d) ->
  exists E, harmonic_of solve d = Ok E /\ nr E = d_Q d /\ nc E = d_V d /\
    forall f, length f = d_V d -> exists u, solves_for d f u /\ projects d u (mv E f) /\
      (forall u', solves_for d f u' -> u' = u) /\ (forall e, projects d u e -> e = mv E f).
Proof.
  intros S A M. destruct A as (V & P1 & P2 & I1 & I2) eqn:EA. pose proof (conj V (conj P1 (conj P2 (conj I1 I2))) : admissible d) as AD. clear EA A.
  destruct (C88_harmonic_partial solve (assembled d) (d_V2 d) S) as (E & HE & R & C & H); [|exact M|].
  { repeat (split; [first [exact V|reflexivity]|]). split; [apply assembled_regular, AD|apply gram_regular; assumption]. }
  exists E. split; [exact HE|]. split; [exact R|]. split; [exact C|]. intros f Lf. destruct (H f Lf) as (u & [Lu Hu] & Hp).
  assert (SF : solves_for d f u).
  { split; [exact Lu|]. intros v Lv. rewrite energy_parts. transitivity (sumn (d_V2 d) (fun i => (vnth v i * vnth (mv (h_load (assembled d)) f) i)%Qc)).
    - apply sumn_ext. intros i Hi. rewrite Hu by exact Hi. reflexivity.
    - cbn [assembled h_load]. rewrite gram_form. apply integral_ext. intros. ring. }
  assert (PR : projects d u (mv E f)).
  { split; [rewrite mv_length; exact R|]. intros q Lq. cbn [assembled h_mass_ext h_transfer] in Hp.
    transitivity (sumn (d_Q d) (fun i => (vnth q i * vnth (mv (gram (d_ext d) (d_Q d) (d_Q d) (d_chi d) (d_chi d)) (mv E f)) i)%Qc)).
    - rewrite gram_form. apply integral_ext. intros. ring.
    - rewrite Hp, gram_form. apply integral_ext. intros. ring. }
  exists u. split; [exact SF|]. split; [exact PR|]. split.
  - intros u' SU. exact (solves_unique d f u' u AD SU SF).
  - intros e PE. exact (projects_unique d u e (mv E f) AD PE PR).
Qed.

(** What is put on the curve is distributed in the domain: the integrals are the same *)
Theorem C129_mass d f u c : solves_for d f u -> is_one d c ->
  integral (d_aux d) (at_point (d_V2 d) (d_phi d) u) = integral (d_gamma d) (at_point (d_V d) (d_psi d) f).
Proof.
  intros [L S] (Lc & O & OG). specialize (S c Lc). transitivity (energy d u c).
  - apply integral_ext. intros k Hk. destruct (O k Hk) as (-> & -> & ->). unfold q0, q1. ring.
  - rewrite S. apply integral_ext. intros k Hk. rewrite OG by exact Hk. unfold q1. ring.
Qed.
(** and the projection has the integral of the trace, if the constants are in the space *)
Theorem C129_projected_mass d u e c : projects d u e -> length c = d_Q d -> (forall k, k < q_n (d_ext d) -> at_point (d_Q d) (d_chi d) c k = q1) ->
  integral (d_ext d) (at_point (d_Q d) (d_chi d) e) = integral (d_ext d) (at_point (d_V2 d) (d_tr_ext d) u).
Proof.
  intros [L S] Lc O. specialize (S c Lc). etransitivity; [etransitivity; [|exact S]|]; apply integral_ext; intros k Hk; rewrite O by exact Hk; unfold q1; ring.
Qed.
(** A constant on the curve is lost: it is not extended as that constant, unless the area is the length *)
Theorem C129_constant_lost d f u c : solves_for d f u -> is_one d c -> (forall k, k < q_n (d_gamma d) -> at_point (d_V d) (d_psi d) f k = q1) ->
  integral (d_aux d) (fun _ => q1) <> integral (d_gamma d) (fun _ => q1) -> exists k, k < q_n (d_aux d) /\ at_point (d_V2 d) (d_phi d) u k <> q1.
Proof.
  intros S O F NE. pose proof (C129_mass d f u c S O) as E. rewrite (integral_ext (d_gamma d) _ (fun _ => q1)) in E by exact F.
  assert (D : forall n, (forall k, k < n -> at_point (d_V2 d) (d_phi d) u k = q1) \/ exists k, k < n /\ at_point (d_V2 d) (d_phi d) u k <> q1).
  { induction n as [|n IH]; [left; intros; lia|]. destruct IH as [IH|(k & Hk & N)]; [|right; exists k; split; [lia|exact N]].
    destruct (Qc_eq_dec (at_point (d_V2 d) (d_phi d) u n) q1) as [Y|N]; [left|right; exists n; split; [lia|exact N]].
    intros k Hk. destruct (Nat.eq_dec k n) as [->|]; [exact Y|apply IH; lia]. }
  destruct (D (q_n (d_aux d))) as [A|X]; [|exact X]. exfalso. apply NE. rewrite <- E. apply integral_ext. intros k Hk. symmetry. apply A, Hk.
Qed.

(** Extending from the curve to the mesh and from the mesh to the curve are adjoint to each other *)
Theorem C129_reciprocal solve d E E' : solves_regular solve -> admissible d -> admissible (exchanged d) -> In 1 (d_markers d) ->
  harmonic_of solve d = Ok E -> harmonic_of solve (exchanged d) = Ok E' -> forall f g, length f = d_V d -> length g = d_Q d ->
  integral (d_ext d) (fun k => (at_point (d_Q d) (d_chi d) (mv E f) k * at_point (d_Q d) (d_chi d) g k)%Qc) =
  integral (d_gamma d) (fun k => (at_point (d_V d) (d_psi d) f k * at_point (d_V d) (d_psi d) (mv E' g) k)%Qc).
Proof.
  intros S A A' M HE HE' f g Lf Lg.
  destruct (C129_extends solve d S A M) as (E0 & H0 & _ & _ & H). rewrite HE in H0. injection H0 as <-. destruct (H f Lf) as (u & [Lu SU] & [_ PU] & _).
  destruct (C129_extends solve (exchanged d) S A' M) as (E1 & H1 & _ & _ & H'). rewrite HE' in H1. injection H1 as <-. destruct (H' g Lg) as (w & [Lw SW] & [_ PW] & _).
  cbn [exchanged d_V d_Q d_V2 d_gamma d_ext d_aux d_psi d_chi d_tr_gamma d_tr_ext] in Lw, SW, PW.
  rewrite PU by exact Lg. transitivity (energy d w u).
  - symmetry. etransitivity; [exact (SW u Lu)|]. apply integral_ext. intros. ring.
  - rewrite energy_sym, SU by exact Lw. transitivity (integral (d_gamma d) (fun k => (at_point (d_V2 d) (d_tr_gamma d) w k * at_point (d_V d) (d_psi d) f k)%Qc)); [apply integral_ext; intros; ring|].
    rewrite <- PW by exact Lf. apply integral_ext. intros. ring.
Qed.
(** Back on the curve the extension is positive, and it loses nothing that acts on the domain *)
Theorem C129_positive solve d E : solves_regular solve -> admissible d -> exchanged d = d -> In 1 (d_markers d) -> harmonic_of solve d = Ok E ->
  forall f, length f = d_V d ->
  let back := integral (d_gamma d) (fun k => (at_point (d_V d) (d_psi d) f k * at_point (d_V d) (d_psi d) (mv E f) k)%Qc) in
  (q0 <= back)%Qc /\ (back = q0 -> forall i, i < d_V d -> vnth (mv E f) i = q0).
Proof.
  intros S A X M HE f Lf back. destruct (C129_extends solve d S A M) as (E0 & H0 & _ & _ & H). rewrite HE in H0. injection H0 as <-.
  destruct (H f Lf) as (u & [Lu SU] & PU & _ & UN).
  assert (D : d_Q d = d_V d /\ d_ext d = d_gamma d /\ d_chi d = d_psi d /\ d_tr_ext d = d_tr_gamma d).
  { rewrite <- X at 2 4 6 8. cbn [exchanged d_V d_gamma d_psi d_tr_gamma]. auto. }
  destruct D as (DQ & DE & DC & DT).
  assert (B : back = energy d u u).
  { unfold back. rewrite SU by exact Lu. destruct PU as [LE PU]. rewrite DQ, DE, DC, DT in PU. transitivity (integral (d_gamma d) (fun k => (at_point (d_V d) (d_psi d) (mv E f) k * at_point (d_V d) (d_psi d) f k)%Qc)); [apply integral_ext; intros; ring|].
    rewrite (PU f Lf). apply integral_ext. intros. ring. }
  split; [rewrite B; apply energy_nonneg, A|]. intros Z i Hi. rewrite B in Z. pose proof (energy_zero d u A Lu Z) as U0.
  rewrite <- (UN (repeat q0 (d_Q d))); [unfold vnth; apply nth_repeat|]. split; [apply repeat_length|]. intros q Lq.
  transitivity q0; [|symmetry]; apply sumn_zero; intros k Hk.
  - replace (at_point (d_Q d) (d_chi d) (repeat q0 (d_Q d)) k) with q0; [unfold q0; ring|]. symmetry. apply sumn_zero. intros j Hj. unfold vnth. rewrite nth_repeat. unfold q0. ring.
  - replace (at_point (d_V2 d) (d_tr_ext d) u k) with q0; [unfold q0; ring|]. symmetry. apply sumn_zero. intros j Hj. rewrite U0 by exact Hj. unfold q0. ring.
Qed.

(** ** Cases *)
(** df.solve as it is assumed: elimination *)
Example C129_solver : solves_regular elimination.
Proof. exact elimination_regular. Qed.
(** a strip of the width 1/2 and height 1 with the functions 1 - 2x and 2x, two points at its sides; the curve is x = 1/4, the extended mesh x = 1/2, constants on both *)
Definition strip : hdata :=
  HData 1 1 2 [0; 1] (QMesh 1 (fun _ => q1)) (QMesh 1 (fun _ => q1)) (QMesh 2 (fun _ => Q2Qc (1 # 4)))
    (fun _ _ => q1) (fun _ _ => q1)
    (fun i k => if i =? k then q1 else q0) (fun i _ => if i =? 0 then qz (-2) else qz 2) (fun _ _ => q0)
    (fun _ _ => Q2Qc (1 # 2)) (fun i _ => if i =? 0 then q0 else q1).
Lemma strip_admissible : admissible strip.
Proof.
  split; [cbn; lia|]. split; [intros k _; reflexivity|]. split; [intros k _; reflexivity|]. split.
  - intros u L H i Hi. specialize (H i Hi). unfold at_point in H. cbn [strip d_V2 d_phi] in H. rewrite (sumn_single 2 i) in H by (first [exact Hi|intros j Hj Hne; destruct (Nat.eqb_spec j i); [contradiction|unfold q0; ring]]).
    rewrite Nat.eqb_refl in H. rewrite <- H. unfold q1. ring.
  - intros u L H i Hi. cbn [strip d_Q] in Hi. assert (i = 0) by lia. subst i. specialize (H 0 ltac:(cbn; lia)). unfold at_point in H. cbn [strip d_Q d_chi sumn] in H. rewrite <- H. unfold q0, q1. ring.
Qed.
Example C129_strip : exists E, harmonic_of elimination strip = Ok E /\ map (map this) (to_rows E) = [[2 # 1]]%Q.
Proof. eexists. split; [vm_compute; reflexivity|]. vm_compute. reflexivity. Qed.
Example C129_strip_one : is_one strip [q1; q1] /\ integral (d_aux strip) (fun _ => q1) <> integral (d_gamma strip) (fun _ => q1).
Proof.
  split; [|intros H; vm_compute in H; discriminate H]. split; [reflexivity|]. split.
  - intros [|[|k]] Hk; [| |cbn in Hk; lia]; repeat split; apply Qc_is_canon; reflexivity.
  - intros [|k] Hk; [|cbn in Hk; lia]. apply Qc_is_canon. reflexivity.
Qed.
(** back to the curve *)
Definition strip_back : hdata :=
  HData 1 1 2 [0; 1] (QMesh 1 (fun _ => q1)) (QMesh 1 (fun _ => q1)) (d_aux strip) (fun _ _ => q1) (fun _ _ => q1) (d_phi strip) (d_dx strip) (d_dy strip) (fun _ _ => Q2Qc (1 # 2)) (fun _ _ => Q2Qc (1 # 2)).
Example C129_strip_back : admissible strip_back /\ exchanged strip_back = strip_back /\ In 1 (d_markers strip_back).
Proof.
  destruct strip_admissible as (A & B & C & D & F). split; [|split; [reflexivity|right; left; reflexivity]]. split; [exact A|]. split; [exact B|]. split; [exact C|]. split; [exact D|exact F].
Qed.

Print Assumptions C129_extends.
Print Assumptions C129_mass.
Print Assumptions C129_projected_mass.
Print Assumptions C129_constant_lost.
Print Assumptions C129_reciprocal.
Print Assumptions C129_positive.
