(** Specification vocabulary and proofs for HarmQuadModel.v *)
From Coq Require Import Lia.
From Verif Require Import Base BaseProofs Mat MatProofs ConvertActionProofs SpaceOpModel SpaceOpProofs HarmQuadModel.
Local Open Scope nat_scope.

(** The function with coefficients [u] at a point, and integrals *)
Definition at_point (n : nat) (f : nat -> nat -> Qc) (u : vec) (k : nat) : Qc := sumn n (fun i => (vnth u i * f i k)%Qc).
Definition integral (m : qmesh) (g : nat -> Qc) : Qc := sumn (q_n m) (fun k => (q_w m k * g k)%Qc).
Definition positive (m : qmesh) : Prop := forall k, k < q_n m -> (q0 < q_w m k)%Qc.
(** Functions that vanish at all points have no coefficients *)
Definition independent (m : qmesh) (n : nat) (f : nat -> nat -> Qc) : Prop :=
  forall u, length u = n -> (forall k, k < q_n m -> at_point n f u k = q0) -> forall i, i < n -> vnth u i = q0.
Definition admissible (d : hdata) : Prop :=
  0 < d_V d /\ positive (d_aux d) /\ positive (d_ext d) /\ independent (d_aux d) (d_V2 d) (d_phi d) /\ independent (d_ext d) (d_Q d) (d_chi d).
(** (grad u, grad v) + (u, v) on the auxiliary mesh *)
Definition energy (d : hdata) (u v : vec) : Qc :=
  let n := d_V2 d in
  integral (d_aux d) (fun k => (at_point n (d_dx d) u k * at_point n (d_dx d) v k + at_point n (d_dy d) u k * at_point n (d_dy d) v k + at_point n (d_phi d) u k * at_point n (d_phi d) v k)%Qc).
(** The problem for uh and the projection of its trace *)
Definition solves_for (d : hdata) (f u : vec) : Prop :=
  length u = d_V2 d /\ forall v, length v = d_V2 d ->
  energy d u v = integral (d_gamma d) (fun k => (at_point (d_V d) (d_psi d) f k * at_point (d_V2 d) (d_tr_gamma d) v k)%Qc).
Definition projects (d : hdata) (u e : vec) : Prop :=
  length e = d_Q d /\ forall q, length q = d_Q d ->
  integral (d_ext d) (fun k => (at_point (d_Q d) (d_chi d) e k * at_point (d_Q d) (d_chi d) q k)%Qc) =
  integral (d_ext d) (fun k => (at_point (d_V2 d) (d_tr_ext d) u k * at_point (d_Q d) (d_chi d) q k)%Qc).
(** The coefficients [c] are the constant function 1, and so is its trace *)
Definition is_one (d : hdata) (c : vec) : Prop :=
  length c = d_V2 d /\
  (forall k, k < q_n (d_aux d) -> at_point (d_V2 d) (d_phi d) c k = q1 /\ at_point (d_V2 d) (d_dx d) c k = q0 /\ at_point (d_V2 d) (d_dy d) c k = q0) /\
  (forall k, k < q_n (d_gamma d) -> at_point (d_V2 d) (d_tr_gamma d) c k = q1).
(** The same data with the roles of the curve and the extended mesh exchanged *)
Definition exchanged (d : hdata) : hdata :=
  HData (d_Q d) (d_V d) (d_V2 d) (d_markers d) (d_ext d) (d_gamma d) (d_aux d) (d_chi d) (d_psi d) (d_phi d) (d_dx d) (d_dy d) (d_tr_ext d) (d_tr_gamma d).

Lemma integral_ext m f g : (forall k, k < q_n m -> f k = g k) -> integral m f = integral m g.
Proof. intros H. apply sumn_ext. intros k Hk. rewrite H by exact Hk. reflexivity. Qed.
Lemma integral_plus m f g : integral m (fun k => (f k + g k)%Qc) = (integral m f + integral m g)%Qc.
Proof. unfold integral. rewrite <- sumn_plus. apply sumn_ext. intros. ring. Qed.
Lemma gram_form m r c f g x y :
  sumn r (fun i => (vnth y i * vnth (mv (gram m r c f g) x) i)%Qc) = integral m (fun k => (at_point r f y k * at_point c g x k)%Qc).
Proof.
  transitivity (sumn r (fun i => sumn c (fun j => sumn (q_n m) (fun k => (q_w m k * ((vnth y i * f i k) * (vnth x j * g j k)))%Qc)))).
  { apply sumn_ext. intros i Hi. rewrite vnth_mv by exact Hi. cbn [gram nc ent]. rewrite <- sumn_scal. apply sumn_ext. intros j _.
    rewrite <- sumn_scal_r, <- sumn_scal. apply sumn_ext. intros k _. ring. }
  unfold integral, at_point. transitivity (sumn (q_n m) (fun k => sumn r (fun i => sumn c (fun j => (q_w m k * ((vnth y i * f i k) * (vnth x j * g j k)))%Qc)))).
  { rewrite (sumn_swap (q_n m) r). apply sumn_ext. intros i _. apply sumn_swap. }
  apply sumn_ext. intros k _. rewrite <- sumn_scal_r, <- sumn_scal. apply sumn_ext. intros i _. rewrite <- sumn_scal, <- sumn_scal. apply sumn_ext. intros j _. ring.
Qed.
Lemma Qclt_mult a b : (q0 < a)%Qc -> (q0 <= a * b)%Qc -> (q0 <= b)%Qc.
Proof.
  intros A H. destruct (Qclt_le_dec b q0) as [L|]; [|assumption]. exfalso. apply (Qcle_not_lt _ _ H). replace q0 with (q0 * a)%Qc by (unfold q0; ring). rewrite (Qcmult_comm a b). apply Qcmult_lt_compat_r; assumption.
Qed.
Lemma weighted_nonneg a b : (q0 < a)%Qc -> (q0 <= b)%Qc -> (q0 <= a * b)%Qc.
Proof. intros A B. replace q0 with (q0 * b)%Qc by (unfold q0; ring). apply Qcmult_le_compat_r; [apply Qclt_le_weak, A|exact B]. Qed.
Lemma nonneg_plus a b : (q0 <= a)%Qc -> (q0 <= b)%Qc -> (q0 <= a + b)%Qc.
Proof. intros A B. replace q0 with (q0 + q0)%Qc by (unfold q0; ring). apply Qcplus_le_compat; assumption. Qed.
Lemma integral_nonneg m g : positive m -> (forall k, k < q_n m -> (q0 <= g k)%Qc) -> (q0 <= integral m g)%Qc.
Proof. intros P G. apply sumn_nonneg. intros k Hk. apply weighted_nonneg; auto. Qed.
Lemma integral_zero m g : positive m -> (forall k, k < q_n m -> (q0 <= g k)%Qc) -> integral m g = q0 -> forall k, k < q_n m -> g k = q0.
Proof.
  intros P G Z k Hk. apply Qcle_antisym; [|apply G, Hk].
  assert (L : (q_w m k * g k <= q0)%Qc). { rewrite <- Z. apply (sumn_ge (q_n m) (fun k => (q_w m k * g k)%Qc)); [|exact Hk]. intros i Hi. apply weighted_nonneg; auto. }
  destruct (Qclt_le_dec q0 (g k)) as [B|B]; [|exact B]. exfalso. apply (Qcle_not_lt _ _ L). replace q0 with (q0 * g k)%Qc by (unfold q0; ring). apply Qcmult_lt_compat_r; [exact B|apply P, Hk].
Qed.
Lemma square_zero a : (a * a)%Qc = q0 -> a = q0.
Proof. intros H. apply Qcmult_integral in H. destruct H; assumption. Qed.
Lemma sum_zero_r a b : (q0 <= a)%Qc -> (q0 <= b)%Qc -> (a + b)%Qc = q0 -> b = q0.
Proof.
  intros A B H. apply Qcle_antisym; [|exact B]. rewrite <- H. replace b with (q0 + b)%Qc at 1 by (unfold q0; ring). apply Qcplus_le_compat; [exact A|apply Qcle_refl].
Qed.

(** ** Energy *)
Lemma energy_sym d u v : energy d u v = energy d v u.
Proof. apply integral_ext. intros. ring. Qed.
Lemma energy_parts d u v : energy d u v =
  sumn (d_V2 d) (fun i => (vnth v i * (vnth (mv (h_stiff (assembled d)) u) i + vnth (mv (h_mass (assembled d)) u) i))%Qc).
Proof.
  transitivity (sumn (d_V2 d) (fun i => (vnth v i * vnth (mv (gram (d_aux d) (d_V2 d) (d_V2 d) (d_dx d) (d_dx d)) u) i)%Qc) +
                sumn (d_V2 d) (fun i => (vnth v i * vnth (mv (gram (d_aux d) (d_V2 d) (d_V2 d) (d_dy d) (d_dy d)) u) i)%Qc) +
                sumn (d_V2 d) (fun i => (vnth v i * vnth (mv (gram (d_aux d) (d_V2 d) (d_V2 d) (d_phi d) (d_phi d)) u) i)%Qc))%Qc.
  { rewrite !gram_form, <- !integral_plus. apply integral_ext. intros. ring. }
  rewrite <- !sumn_plus. apply sumn_ext. intros i Hi. cbn [assembled h_stiff h_mass].
  assert (M : vnth (mv (madd (gram (d_aux d) (d_V2 d) (d_V2 d) (d_dx d) (d_dx d)) (gram (d_aux d) (d_V2 d) (d_V2 d) (d_dy d) (d_dy d))) u) i =
              (vnth (mv (gram (d_aux d) (d_V2 d) (d_V2 d) (d_dx d) (d_dx d)) u) i + vnth (mv (gram (d_aux d) (d_V2 d) (d_V2 d) (d_dy d) (d_dy d)) u) i)%Qc).
  { rewrite !vnth_mv by exact Hi. cbn [madd gram nc ent]. rewrite <- sumn_plus. apply sumn_ext. intros. ring. }
  rewrite M. ring.
Qed.
Lemma energy_nonneg d u : positive (d_aux d) -> (q0 <= energy d u u)%Qc.
Proof. intros P. apply integral_nonneg; [exact P|]. intros k _. repeat apply nonneg_plus; apply qmul_nonneg. Qed.
Lemma energy_zero d u : admissible d -> length u = d_V2 d -> energy d u u = q0 -> forall i, i < d_V2 d -> vnth u i = q0.
Proof.
  intros (_ & P & _ & I & _) L Z. apply I; [exact L|]. intros k Hk. apply square_zero. apply (sum_zero_r (at_point (d_V2 d) (d_dx d) u k * at_point (d_V2 d) (d_dx d) u k + at_point (d_V2 d) (d_dy d) u k * at_point (d_V2 d) (d_dy d) u k)%Qc); [apply nonneg_plus; apply qmul_nonneg|apply qmul_nonneg|].
  exact (integral_zero (d_aux d) _ P (fun k _ => nonneg_plus _ _ (nonneg_plus _ _ (qmul_nonneg _) (qmul_nonneg _)) (qmul_nonneg _)) Z k Hk).
Qed.
Lemma gram_regular m n f : positive m -> independent m n f -> regular n (gram m n n f f).
Proof.
  intros P I. split; [reflexivity|]. split; [reflexivity|]. intros x L H. apply I; [exact L|]. intros k Hk. apply square_zero.
  apply (integral_zero m (fun k => (at_point n f x k * at_point n f x k)%Qc) P (fun k _ => qmul_nonneg _)); [|exact Hk]. rewrite <- gram_form. apply sumn_zero. intros i Hi. rewrite H by exact Hi. unfold q0. ring.
Qed.
Lemma assembled_regular d : admissible d -> regular (d_V2 d) (Mat (d_V2 d) (d_V2 d) (fun i j => (ent (h_stiff (assembled d)) i j + ent (h_mass (assembled d)) i j)%Qc)).
Proof.
  intros A. split; [reflexivity|]. split; [reflexivity|]. intros x L H. apply (energy_zero d x A L). rewrite energy_parts. apply sumn_zero. intros i Hi.
  specialize (H i Hi). rewrite vnth_mv in H by exact Hi. cbn [nc ent] in H. rewrite !vnth_mv by exact Hi. cbn [assembled h_stiff h_mass madd gram nc] in *. cbn [ent] in *. rewrite <- sumn_plus.
  replace (sumn (d_V2 d) _) with q0; [unfold q0; ring|]. rewrite <- H. apply sumn_ext. intros j _. ring.
Qed.

(** ** Coefficients from tests with all functions *)
Lemma tested n (a b : nat -> Qc) : (forall v, length v = n -> sumn n (fun i => (vnth v i * a i)%Qc) = sumn n (fun i => (vnth v i * b i)%Qc)) -> forall i, i < n -> a i = b i.
Proof.
  intros H i Hi. specialize (H (unit_vec n i) (unit_length n i)).
  assert (S : forall g : nat -> Qc, sumn n (fun j => (vnth (unit_vec n i) j * g j)%Qc) = g i).
  { intros g. rewrite (sumn_single n i) by (first [exact Hi|intros j Hj Hne; rewrite unit_nth by exact Hj; destruct (Nat.eqb_spec j i); [contradiction|unfold q0; ring]]).
    rewrite unit_nth, Nat.eqb_refl by exact Hi. unfold q1. ring. }
  rewrite !S in H. exact H.
Qed.
Lemma solves_unique d f u u' : admissible d -> solves_for d f u -> solves_for d f u' -> u = u'.
Proof.
  intros A [L S] [L' S']. apply (regular_unique (d_V2 d) _ u u' (assembled_regular d A) L L'). apply vec_ext; [rewrite !mv_length; reflexivity|]. intros i Hi. rewrite mv_length in Hi. cbn [nr] in Hi.
  assert (X : forall x, vnth (mv (Mat (d_V2 d) (d_V2 d) (fun i j => (ent (h_stiff (assembled d)) i j + ent (h_mass (assembled d)) i j)%Qc)) x) i = (vnth (mv (h_stiff (assembled d)) x) i + vnth (mv (h_mass (assembled d)) x) i)%Qc).
  { intros x. rewrite !vnth_mv by exact Hi. cbn [assembled h_stiff h_mass madd gram nc]. cbn [ent]. rewrite <- sumn_plus. apply sumn_ext. intros j _. ring. }
  rewrite !X. apply (tested (d_V2 d) (fun i => (vnth (mv (h_stiff (assembled d)) u) i + vnth (mv (h_mass (assembled d)) u) i)%Qc) (fun i => (vnth (mv (h_stiff (assembled d)) u') i + vnth (mv (h_mass (assembled d)) u') i)%Qc)); [|exact Hi].
  intros v Lv. rewrite <- !energy_parts, S, S' by exact Lv. reflexivity.
Qed.
Lemma projects_unique d u e e' : admissible d -> projects d u e -> projects d u e' -> e = e'.
Proof.
  intros (_ & _ & P & _ & I) [L S] [L' S']. apply (regular_unique (d_Q d) _ e e' (gram_regular _ _ _ P I) L L'). apply vec_ext; [rewrite !mv_length; reflexivity|]. intros i Hi. rewrite mv_length in Hi. cbn [gram nr] in Hi.
  apply (tested (d_Q d) (vnth (mv (gram (d_ext d) (d_Q d) (d_Q d) (d_chi d) (d_chi d)) e)) (vnth (mv (gram (d_ext d) (d_Q d) (d_Q d) (d_chi d) (d_chi d)) e'))); [|exact Hi].
  intros v Lv. rewrite !gram_form. transitivity (integral (d_ext d) (fun k => (at_point (d_V2 d) (d_tr_ext d) u k * at_point (d_Q d) (d_chi d) v k)%Qc)); [rewrite <- S by exact Lv|rewrite <- S' by exact Lv]; apply integral_ext; intros; ring.
Qed.
