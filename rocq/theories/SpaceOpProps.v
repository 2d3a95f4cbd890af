(** Property C88: matrices of operators between spaces, harmonic extension *)
From Coq Require Import Lia.
From Verif Require Import Base BaseProofs Mat MatProofs FillModel FillProofs EmbedModel SpaceOpModel SpaceOpProofs SolveProofs.
Local Open Scope nat_scope.

(** With a zero vector from create_vec: the matrix of a linear operator acts as the operator, and is kept *)
Theorem C88_acts : forall op f m, so_repr op = None -> 0 < so_V1 op -> linear_map (so_V1 op) m f ->
  (forall x, length x = so_V1 op -> so_matvec op x = Ok (f x)) ->
  exists M op', collapse (repeat q0 (so_V1 op)) op = Ok (M, op') /\ so_repr op' = Some M /\ nr M = m /\ nc M = so_V1 op /\
    forall x, length x = so_V1 op -> mv M x = f x.
Proof.
  intros op f m Hr Hn Hl Hf. destruct (collapse_columns op (repeat q0 (so_V1 op)) f m) as [M [op' [E [Er [Hm [Hc HM]]]]]]; rewrite ?repeat_length; auto.
  { intros x Hx. split; [auto |]. apply Hl. auto. }
  rewrite repeat_length in Hc, HM. exists M, op'. do 4 (split; auto). intros x Hx. apply vec_ext; [rewrite mv_length, Hm; symmetry; apply Hl; auto |].
  rewrite mv_length, Hm. intros i Hi. rewrite vnth_mv, Hc by lia. rewrite (linear_sum (so_V1 op) m f x Hl Hx i Hi). apply sumn_ext. intros j Hj.
  rewrite HM by auto. rewrite asked_zero by auto. reflexivity.
Qed.
(** Of any operator the columns are the images of unit vectors *)
Theorem C88_columns : forall op f m, so_repr op = None -> 0 < so_V1 op ->
  (forall x, length x = so_V1 op -> so_matvec op x = Ok (f x) /\ length (f x) = m) ->
  exists M op', collapse (repeat q0 (so_V1 op)) op = Ok (M, op') /\ nr M = m /\ nc M = so_V1 op /\
    forall i j, i < m -> j < so_V1 op -> ent M i j = vnth (f (unit_vec (so_V1 op) j)) i.
Proof.
  intros op f m Hr Hn Hf. destruct (collapse_columns op (repeat q0 (so_V1 op)) f m) as [M [op' [E [Er [Hm [Hc HM]]]]]]; rewrite ?repeat_length; auto.
  rewrite repeat_length in Hc, HM. exists M, op'. do 3 (split; auto). intros i j Hi Hj. rewrite HM, asked_zero by auto. reflexivity.
Qed.
(** later calls return the matrix of the first, whatever the vector of the pool and the operator are then *)
Theorem C88_kept : forall pool op M op' pool' matvec', collapse pool op = Ok (M, op') ->
  exists op'', collapse pool' (SpaceOp (so_V1 op') (so_V0 op') matvec' (so_repr op')) = Ok (M, op'').
Proof.
  intros pool op M op' pool' matvec' H. unfold collapse in H. assert (E : so_repr op' = Some M).
  { destruct (so_repr op) as [M0 |] eqn:Er; [congruence |]. destruct (foldM _ _ _) as [st |]; [| discriminate]. cbn [bind] in H. destruct (vstack (snd st)) as [rows |]; [| discriminate]. cbn [bind] in H.
    injection H as <- <-. reflexivity. }
  unfold collapse. cbn [so_repr]. rewrite E. eauto.
Qed.
(** A vector of the pool which is not zero goes into the columns before its entry is reset *)
Theorem C88_pool_refuted : exists op f, so_repr op = None /\ linear_map (so_V1 op) 1 f /\ (forall x, length x = so_V1 op -> so_matvec op x = Ok (f x)) /\
  exists pool M op', length pool = so_V1 op /\ collapse pool op = Ok (M, op') /\ exists x, length x = so_V1 op /\ mv M x <> f x.
Proof.
  set (f := fun x : vec => [(vnth x 0 + vnth x 1)%Qc]). exists (SpaceOp 2 1 (fun x => Ok (f x)) None), f. cbn [so_repr so_V1 so_matvec].
  split; [reflexivity |]. split; [| split; [reflexivity |]].
  - apply linear_of; [reflexivity |]. intros a b x y z _ _ _ H k Hk. assert (k = 0) by lia. subst k. cbn. rewrite (H 0), (H 1) by lia. ring.
  - exists [qz 5; qz 7]. eexists _, _. split; [reflexivity |]. split; [reflexivity |]. exists [q1; q0]. split; [reflexivity |]. intros E. vm_compute in E. discriminate E.
Qed.
(** an operator without matvec, a space without dofs and columns of different lengths are refused *)
Theorem C88_refused : forall pool V1 V0 matvec,
  (0 < V1 -> collapse pool (SpaceOp V1 V0 no_matvec None) = Err NotImplementedError) /\
  collapse pool (SpaceOp 0 V0 matvec None) = Err ValueError.
Proof. intros pool V1 V0 matvec. split; [| reflexivity]. intros H. destruct V1; [lia |]. reflexivity. Qed.

(** ** The harmonic extension *)
(** sizes of what is assembled, and solvable systems *)
Definition well_posed (h : harmonic) (n : nat) : Prop :=
  0 < h_dim h /\ nr (h_stiff h) = n /\ nc (h_stiff h) = n /\ nr (h_mass h) = n /\ nc (h_mass h) = n /\
  nr (h_load h) = n /\ nc (h_load h) = h_dim h /\ nr (h_transfer h) = h_ext h /\ nc (h_transfer h) = n /\
  regular n (Mat n n (fun i j => (ent (h_stiff h) i j + ent (h_mass h) i j)%Qc)) /\ regular (h_ext h) (h_mass_ext h).
(** [u] solves (grad u, grad v) + (u, v) = (f, T v) *)
Definition reacts (h : harmonic) (n : nat) (f u : vec) : Prop :=
  length u = n /\ forall i, i < n -> (vnth (mv (h_stiff h) u) i + vnth (mv (h_mass h) u) i)%Qc = vnth (mv (h_load h) f) i.
Lemma regular_meq n A B : meq A B -> regular n A -> regular n B.
Proof.
  intros HM [Hr [Hc Hi]]. pose proof HM as [H1 [H2 _]]. split; [congruence |]. split; [congruence |]. intros x Hx H. apply Hi; auto. intros i Hlt. rewrite (mv_meq A B x HM). auto.
Qed.
Lemma reacts_sum h n u : nr (h_stiff h) = n -> nr (h_mass h) = n -> nc (h_mass h) = nc (h_stiff h) -> forall i, i < n ->
  vnth (mv (madd (h_stiff h) (h_mass h)) u) i = (vnth (mv (h_stiff h) u) i + vnth (mv (h_mass h) u) i)%Qc.
Proof. intros H1 H2 H3 i Hi. rewrite !vnth_mv by (cbn; lia). cbn [madd nc ent]. rewrite H3, <- sumn_plus. apply sumn_ext. intros j _. ring. Qed.
(** The matrix sends [f] to the projection of the trace of the solution of the problem with reaction *)
Theorem C88_harmonic_partial : forall solve h n, solves_regular solve -> well_posed h n -> In 1 (h_markers h) ->
  exists E, harmonic_extension_operator solve (2, 2, 2) (repeat q0 (h_dim h)) h = Ok E /\ nr E = h_ext h /\ nc E = h_dim h /\
    forall f, length f = h_dim h -> exists u, reacts h n f u /\ mv (h_mass_ext h) (mv E f) = mv (h_transfer h) u.
Proof.
  intros solve h n Hs [Hd [S1 [S2 [M1 [M2 [L1 [L2 [T1 [T2 [HA HB]]]]]]]]]] Hm. unfold harmonic_extension_operator.
  replace (existsb (Nat.eqb 1) (h_markers h)) with true by (symmetry; apply existsb_exists; exists 1; auto). cbn [Nat.eqb andb py_assert bind].
  set (A := madd (h_stiff h) (h_mass h)).
  assert (HA' : regular n A). { apply regular_meq with (2 := HA). split; [cbn; auto |]. split; [cbn; auto |]. intros i j _ _. reflexivity. }
  set (u := fun f => solution solve A (mv (h_load h) f)). set (e := fun f => solution solve (h_mass_ext h) (mv (h_transfer h) (u f))).
  assert (Hu : forall f, solve A (mv (h_load h) f) = Ok (u f) /\ length (u f) = n /\ mv A (u f) = mv (h_load h) f) by (intros f; apply solution_ok; auto; rewrite mv_length; auto).
  assert (He : forall f, solve (h_mass_ext h) (mv (h_transfer h) (u f)) = Ok (e f) /\ length (e f) = h_ext h /\ mv (h_mass_ext h) (e f) = mv (h_transfer h) (u f)) by (intros f; apply solution_ok; auto; rewrite mv_length; auto).
  destruct (C88_acts (SpaceOp (h_dim h) (h_ext h) (harmonic_matvec solve h) None) e (h_ext h)) as [M [op' [E [_ [Hr [Hc HM]]]]]]; cbn [so_repr so_V1 so_matvec] in *; auto.
  - apply linear_of; [intros; apply He |]. intros a b x y z Hx Hy Hz H. unfold e. apply solution_combine with (n := h_ext h); auto; try (rewrite mv_length; auto).
    rewrite <- T1. apply mv_combine with (n := n); auto; try apply Hu. unfold u. apply solution_combine; auto; try (rewrite mv_length; auto).
    rewrite <- L1. apply mv_combine with (n := h_dim h); auto.
  - intros x Hx. unfold harmonic_matvec. fold A. rewrite (proj1 (Hu x)). cbn [bind]. apply He.
  - rewrite E. cbn [bind fst]. exists M. split; [reflexivity |]. split; [exact Hr |]. split; [exact Hc |]. intros f Hf. exists (u f). split.
    + split; [apply Hu |]. intros i Hi. rewrite <- (proj2 (proj2 (Hu f))). unfold A. rewrite reacts_sum with (n := n); auto. congruence.
    + rewrite HM by auto. apply He.
Qed.
(** This is not the Poisson problem of the comment: unless the load vanishes no solution of the
    problem with reaction has the load as its stiffness (with a regular mass matrix) *)
Theorem C88_poisson_refuted : forall h n f u, regular n (h_mass h) -> nr (h_stiff h) = n -> nc (h_stiff h) = n -> reacts h n f u ->
  (exists i, i < n /\ vnth (mv (h_load h) f) i <> q0) -> ~ (forall i, i < n -> vnth (mv (h_stiff h) u) i = vnth (mv (h_load h) f) i).
Proof.
  intros h n f u [Hr [Hc Hi]] S1 S2 [Hu H] [i [Hlt Hne]] Hp.
  assert (H0 : forall k, k < n -> vnth u k = q0).
  { apply Hi; auto. intros k Hk. specialize (H k Hk). rewrite Hp in H by auto. replace (vnth (mv (h_mass h) u) k) with (vnth (mv (h_load h) f) k + vnth (mv (h_mass h) u) k - vnth (mv (h_load h) f) k)%Qc by ring. rewrite H. unfold q0. ring. }
  apply Hne. rewrite <- (Hp i Hlt). rewrite vnth_mv by lia. apply sumn_zero. intros j Hj. rewrite H0 by lia. unfold q0. ring.
Qed.
(** and the facets with the Dirichlet condition have no influence *)
Theorem C88_markers_refuted : forall solve pool h markers, In 1 (h_markers h) -> In 1 markers ->
  harmonic_extension_operator solve (2, 2, 2) pool (Harmonic (h_dim h) (h_ext h) markers (h_stiff h) (h_mass h) (h_load h) (h_mass_ext h) (h_transfer h)) =
  harmonic_extension_operator solve (2, 2, 2) pool h.
Proof.
  intros solve pool h markers H1 H2. unfold harmonic_extension_operator. cbn [h_markers h_dim h_ext].
  replace (existsb (Nat.eqb 1) (h_markers h)) with true by (symmetry; apply existsb_exists; exists 1; auto).
  replace (existsb (Nat.eqb 1) markers) with true by (symmetry; apply existsb_exists; exists 1; auto). reflexivity.
Qed.
(** meshes not in the plane and facets none of which is marked 1 are refused *)
Theorem C88_harmonic_refused : forall solve g1 g0 ga pool h, (g1, g0, ga) <> (2, 2, 2) \/ ~ In 1 (h_markers h) ->
  harmonic_extension_operator solve (g1, g0, ga) pool h = Err AssertionError.
Proof.
  intros solve g1 g0 ga pool h H. unfold harmonic_extension_operator. destruct (Nat.eqb_spec g1 2) as [-> | ]; [| reflexivity]. destruct (Nat.eqb_spec g0 2) as [-> |]; [| reflexivity]. cbn [andb py_assert bind].
  destruct (Nat.eqb_spec ga 2) as [-> |]; [| reflexivity]. cbn [py_assert bind]. destruct (existsb (Nat.eqb 1) (h_markers h)) eqn:E; [exfalso | reflexivity].
  apply existsb_exists in E. destruct E as [k [Hk Ek]]. apply Nat.eqb_eq in Ek. subst k. destruct H as [H | H]; auto.
Qed.

(** ** Cases *)
(** there is a solver of regular systems *)
Example case_solver : solves_regular elimination.
Proof. exact elimination_regular. Qed.
(** the operator (x, y, z) -> (x + 2 z, 3 y) *)
Example case_operator : let f := fun x : vec => [(vnth x 0 + qz 2 * vnth x 2)%Qc; (qz 3 * vnth x 1)%Qc] in
  linear_map 3 2 f /\ exists M op', collapse (repeat q0 3) (SpaceOp 3 2 (fun x => Ok (f x)) None) = Ok (M, op') /\ map (map this) (to_rows M) = [[1#1; 0#1; 2#1]; [0#1; 3#1; 0#1]]%Q.
Proof.
  intros f. split; [| eexists _, _; split; reflexivity]. apply linear_of; [reflexivity |]. intros a b x y z _ _ _ H [| [| k]] Hk; try lia; cbn; rewrite ?(H 0), ?(H 1), ?(H 2) by lia; ring.
Qed.
Lemma num_1 : qz 1 = 1%Qc. Proof. reflexivity. Qed.
Lemma num_2 : qz 2 = (1 + 1)%Qc. Proof. apply Qc_is_canon. reflexivity. Qed.
Lemma num_3 : qz 3 = (1 + 1 + 1)%Qc. Proof. apply Qc_is_canon. reflexivity. Qed.
Lemma num_m : qz (-1) = (- (1))%Qc. Proof. apply Qc_is_canon. reflexivity. Qed.
Ltac num := cbn [sumn ent of_rows nth madd nc nr]; rewrite ?num_1, ?num_2, ?num_3, ?num_m; unfold q0; ring.
(** two dofs on the auxiliary mesh, one on the curve and one on the extended mesh *)
Example case_harmonic : exists h, well_posed h 2 /\ In 1 (h_markers h) /\ regular 2 (h_mass h) /\ exists i, i < 2 /\ vnth (mv (h_load h) [q1]) i <> q0.
Proof.
  exists (Harmonic 1 1 [0; 1] (of_rows 2 2 [[qz 1; qz (-1)]; [qz (-1); qz 1]]) (of_rows 2 2 [[qz 2; qz 1]; [qz 1; qz 2]]) (of_rows 2 1 [[q1]; [q0]]) (of_rows 1 1 [[qz 2]]) (of_rows 1 2 [[q0; q1]])).
  assert (R1 : regular 2 (of_rows 2 2 [[qz 2; qz 1]; [qz 1; qz 2]])).
  { split; [reflexivity |]. split; [reflexivity |]. intros x Hx H i Hi. pose proof (H 0 ltac:(lia)) as H0. pose proof (H 1 ltac:(lia)) as H1. rewrite vnth_mv in H0, H1 by (cbn; lia). cbn [sumn ent of_rows nth nc] in H0, H1.
    assert (K1 : (vnth x 0 * qz 3 = q0)%Qc). { transitivity (qz 2 * (q0 + qz 2 * vnth x 0 + qz 1 * vnth x 1) - (q0 + qz 1 * vnth x 0 + qz 2 * vnth x 1))%Qc; [| rewrite H0, H1; num]. num. }
    assert (K2 : (vnth x 1 * qz 3 = q0)%Qc). { transitivity (qz 2 * (q0 + qz 1 * vnth x 0 + qz 2 * vnth x 1) - (q0 + qz 2 * vnth x 0 + qz 1 * vnth x 1))%Qc; [| rewrite H0, H1; num]. num. }
    apply Qcmult_integral in K1. apply Qcmult_integral in K2. destruct K1 as [K1 | K1]; [| discriminate K1]. destruct K2 as [K2 | K2]; [| discriminate K2]. destruct i as [| [| i]]; [exact K1 | exact K2 | lia]. }
  split; [| split; [right; left; reflexivity |]; split; [exact R1 |]; exists 0; split; [lia | discriminate]].
  unfold well_posed. cbn [h_dim h_ext h_stiff h_mass h_load h_transfer h_mass_ext nr nc of_rows]. do 9 (split; [auto |]). split.
  - split; [reflexivity |]. split; [reflexivity |]. intros x Hx H i Hi. pose proof (H 0 ltac:(lia)) as H0. pose proof (H 1 ltac:(lia)) as H1. rewrite vnth_mv in H0, H1 by (cbn; lia).
    assert (E0 : (vnth x 0 * qz 3 = q0)%Qc) by (rewrite <- H0; num).
    assert (E1 : (vnth x 1 * qz 3 = q0)%Qc) by (rewrite <- H1; num).
    apply Qcmult_integral in E0. apply Qcmult_integral in E1. destruct E0 as [E0 | E0]; [| discriminate E0]. destruct E1 as [E1 | E1]; [| discriminate E1]. destruct i as [| [| i]]; [exact E0 | exact E1 | lia].
  - split; [reflexivity |]. split; [reflexivity |]. intros x Hx H i Hi. pose proof (H 0 ltac:(lia)) as H0. rewrite vnth_mv in H0 by (cbn; lia).
    assert (E0 : (vnth x 0 * qz 2 = q0)%Qc) by (rewrite <- H0; num).
    apply Qcmult_integral in E0. destruct E0 as [E0 | E0]; [| discriminate E0]. destruct i as [| i]; [exact E0 | lia].
Qed.

Print Assumptions C88_acts.
Print Assumptions C88_columns.
Print Assumptions C88_kept.
Print Assumptions C88_pool_refuted.
Print Assumptions C88_refused.
Print Assumptions C88_harmonic_partial.
Print Assumptions C88_poisson_refuted.
Print Assumptions C88_markers_refuted.
Print Assumptions C88_harmonic_refused.
