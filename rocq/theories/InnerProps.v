(** C139: the inner and outer mesh and their interface *)
From Coq Require Import Reals Lra Lia.
From Verif Require Import InnerModel InnerProofs.
Local Open Scope R_scope.

Lemma xs2 : forall n u v P, xs n [u; v] P <-> P (INR (fst u) / INR n) /\ P (INR (fst v) / INR n).
Proof. intros n u v P. unfold xs. split; [intros H; split; apply H; simpl; auto|intros [H1 H2] w [<-|[<-|[]]]; assumption]. Qed.
Lemma ys2 : forall n u v P, ys n [u; v] P <-> P (INR (snd u) / INR n) /\ P (INR (snd v) / INR n).
Proof. intros n u v P. unfold ys. split; [intros H; split; apply H; simpl; auto|intros [H1 H2] w [<-|[<-|[]]]; assumption]. Qed.
Lemma xs3 : forall n u v w P, xs n [u; v; w] P <-> P (INR (fst u) / INR n) /\ P (INR (fst v) / INR n) /\ P (INR (fst w) / INR n).
Proof. intros n u v w P. unfold xs. split; [intros H; repeat split; apply H; simpl; auto|intros (H1 & H2 & H3) t [<-|[<-|[<-|[]]]]; assumption]. Qed.
Lemma ys3 : forall n u v w P, ys n [u; v; w] P <-> P (INR (snd u) / INR n) /\ P (INR (snd v) / INR n) /\ P (INR (snd w) / INR n).
Proof. intros n u v w P. unfold ys. split; [intros H; repeat split; apply H; simpl; auto|intros (H1 & H2 & H3) t [<-|[<-|[<-|[]]]]; assumption]. Qed.
Lemma in_sub : forall n tag c, In c (sub_cells n tag) <-> In c (mesh_cells n n) /\ subdomain n c = tag.
Proof. intros n tag c. unfold sub_cells. rewrite filter_In, Nat.eqb_eq. reflexivity. Qed.

(** For n divisible by four the assertion holds, the cells of the inner mesh are those in [1/4, 3/4]^2 and the cells of
    the outer mesh those beside one of its sides *)
Theorem C139_cells : forall m, (0 < m)%nat -> exists outer inner, setup_domain (4 * m) = Ok (outer, inner) /\
  (forall c, In c inner <-> In c (mesh_cells (4 * m) (4 * m)) /\ in_square (4 * m) (cell_vertices c)) /\
  (forall c, In c outer <-> In c (mesh_cells (4 * m) (4 * m)) /\ beside_square (4 * m) (cell_vertices c)).
Proof.
  intros m M. exists (sub_cells (4 * m) 0), (sub_cells (4 * m) 1).
  assert (I : In (Lower m m) (sub_cells (4 * m) 1)).
  { apply in_sub. rewrite in_cells, subdomain_four by exact M. cbn [ci cj]. lia. }
  split; [|split].
  - unfold setup_domain. destruct (sub_cells (4 * m) 1) eqn:E; [destruct I|]. reflexivity.
  - intros c. rewrite in_sub, subdomain_four by exact M. apply and_iff_compat_l.
    destruct c as [i j|i j]; unfold in_square; cbn [cell_vertices ci cj]; rewrite xs3, ys3; cbn [fst snd];
      rewrite quarter, quarter3, !frac_le by lia; lia.
  - intros c. rewrite in_sub. apply and_iff_compat_l.
    assert (S : subdomain (4 * m) c = 0%nat <-> ~ ((m <= ci c < 3 * m)%nat /\ (m <= cj c < 3 * m)%nat)).
    { rewrite <- subdomain_four by exact M. destruct (subdomain_01 (4 * m) c) as [-> | ->]; split; intros; congruence. }
    rewrite S. destruct c as [i j|i j]; unfold beside_square; cbn [cell_vertices ci cj]; rewrite !xs3, !ys3; cbn [fst snd];
      rewrite quarter, quarter3, !frac_le by lia; lia.
Qed.
Print Assumptions C139_cells.

(** The facets of the interface are exactly those on the boundary of [1/4, 3/4]^2 *)
Theorem C139_gamma : forall m f, (0 < m)%nat -> facet_of (4 * m) f ->
  (gamma_facet (4 * m) f = true <-> on_interface (4 * m) (facet_vertices f)).
Proof.
  intros m f M (c & Ic & If). apply in_cells in Ic. apply two_cells_in in If.
  assert (V : forall c, valid (4 * m) c && Nat.eqb (subdomain (4 * m) c) 1 = ((m <=? ci c) && (ci c <? 3 * m) && (m <=? cj c) && (cj c <? 3 * m))%nat).
  { intros d. apply Bool.eq_iff_eq_true. unfold valid. rewrite !andb_true_iff, Nat.eqb_eq, subdomain_four, !Nat.ltb_lt, !Nat.leb_le by exact M. lia. }
  unfold gamma_facet, sub_cells. rewrite cells_of_count, (filter_ext _ _ V), Nat.eqb_eq. clear V.
  destruct f as [i j|i j|i j]; unfold on_interface, in_square; cbn [facet_vertices]; rewrite !xs2, !ys2; cbn [fst snd];
    rewrite quarter, quarter3, !frac_le, !frac_eq by lia; cbn [two_cells].
  - destruct j as [|j]; cbn [filter ci cj];
    repeat match goal with
    | |- context [(?a <=? ?b)%nat] => destruct (Nat.leb_spec a b)
    | |- context [(?a <? ?b)%nat] => destruct (Nat.ltb_spec a b)
    end; cbn [andb length]; lia.
  - destruct i as [|i]; cbn [filter ci cj];
    repeat match goal with
    | |- context [(?a <=? ?b)%nat] => destruct (Nat.leb_spec a b)
    | |- context [(?a <? ?b)%nat] => destruct (Nat.ltb_spec a b)
    end; cbn [andb length]; lia.
  - cbn [filter ci cj];
    repeat match goal with
    | |- context [(?a <=? ?b)%nat] => destruct (Nat.leb_spec a b)
    | |- context [(?a <? ?b)%nat] => destruct (Nat.ltb_spec a b)
    end; cbn [andb length]; lia.
Qed.
Print Assumptions C139_gamma.

Lemma near_frac : forall tol a d, (0 < d)%nat -> (a <= d)%nat -> 0 < tol <= / INR (2 * d) ->
  near0 tol (INR a / INR d * (1 - INR a / INR d)) = true <-> a = 0%nat \/ a = d.
Proof.
  intros tol a d D A T. apply lt_0_INR in D as P. unfold near0.
  destruct (Nat.eq_dec a 0) as [->|N0].
  { replace (INR 0 / INR d * (1 - INR 0 / INR d)) with 0 by (simpl; field; lra). rewrite Rabs_R0. destruct (Rlt_dec 0 tol); [tauto|lra]. }
  destruct (Nat.eq_dec a d) as [->|N1].
  { replace (INR d / INR d * (1 - INR d / INR d)) with 0 by (field; lra). rewrite Rabs_R0. destruct (Rlt_dec 0 tol); [tauto|lra]. }
  assert (A1 : 1 <= INR a) by (change 1 with (INR 1); apply le_INR; lia).
  assert (A2 : INR a + 1 <= INR d) by (rewrite <- S_INR; apply le_INR; lia).
  assert (E : INR a / INR d * (1 - INR a / INR d) - / INR (2 * d) = (INR a * (INR d - INR a) - INR d / 2) * (/ INR d * / INR d)).
  { rewrite mult_INR. simpl (INR 2). field. lra. }
  assert (Q : 0 < / INR d) by (apply Rinv_0_lt_compat; lra).
  assert (0 <= (INR a * (INR d - INR a) - INR d / 2) * (/ INR d * / INR d)) by (apply Rmult_le_pos; nra).
  rewrite Rabs_pos_eq by lra. destruct (Rlt_dec _ tol); [lra|]. split; [discriminate|lia].
Qed.
(** For all n and positive tolerances up to 1/(4 n) the marked facets of the outer mesh are those on the boundary of the
    unit square *)
Theorem C139_outer : forall n tol f, 0 < tol <= / INR (4 * n) -> facet_of n f ->
  (outer_facet n tol f = true <-> on_outside n (facet_vertices f)).
Proof.
  intros n tol f T (c & Ic & If). apply in_cells in Ic. apply two_cells_in in If.
  assert (N : (0 < n)%nat) by lia. apply lt_0_INR in N as P.
  assert (T2 : 0 < tol <= / INR (2 * n)).
  { split; [lra|]. apply Rle_trans with (/ INR (4 * n)); [lra|]. apply Rinv_le_contravar; [apply lt_0_INR; lia|apply le_INR; lia]. }
  assert (T4 : 0 < tol <= / INR (2 * (2 * n))) by (replace (2 * (2 * n))%nat with (4 * n)%nat by lia; exact T).
  assert (B : forall a b, (a <= n)%nat -> (b <= n)%nat -> at_boundary tol (INR a / INR n, INR b / INR n) = true <-> ((a = 0 \/ a = n) \/ (b = 0 \/ b = n))%nat).
  { intros a b A1 B1. unfold at_boundary. cbn [fst snd]. rewrite orb_true_iff, !near_frac by (auto; lia). reflexivity. }
  assert (B2 : forall a b, (a <= 2 * n)%nat -> (b <= 2 * n)%nat -> at_boundary tol (INR a / INR (2 * n), INR b / INR (2 * n)) = true <-> ((a = 0 \/ a = 2 * n) \/ (b = 0 \/ b = 2 * n))%nat).
  { intros a b A1 B1. unfold at_boundary. cbn [fst snd]. rewrite orb_true_iff, !near_frac by (auto; lia). reflexivity. }
  assert (MP : forall u v, midpoint n [u; v] = (INR (fst u + fst v) / INR (2 * n), INR (snd u + snd v) / INR (2 * n))).
  { intros u v. unfold midpoint, rsum. cbn [map fold_right point fst snd length]. rewrite !plus_INR, mult_INR. simpl (INR 2). f_equal; field; lra. }
  unfold outer_facet, on_outside. rewrite andb_true_iff.
  assert (D : (match f with Hor i j => i < n /\ j <= n | Ver i j => i <= n /\ j < n | Dia i j => i < n /\ j < n end)%nat).
  { destruct f as [i j|i j|i j]; simpl in If.
    - destruct If as [<-|If]; [simpl in Ic; lia|]. destruct j; [destruct If|]. destruct If as [<-|[]]; simpl in Ic; lia.
    - destruct If as [<-|If]; [simpl in Ic; lia|]. destruct i; [destruct If|]. destruct If as [<-|[]]; simpl in Ic; lia.
    - destruct If as [<-|[<-|[]]]; simpl in Ic; lia. }
  clear If Ic.
  destruct f as [i j|i j|i j]; cbn [facet_vertices map forallb]; unfold point; cbn [fst snd]; rewrite MP, !andb_true_iff; cbn [fst snd];
    rewrite !B, B2 by lia; rewrite !xs2, !ys2; cbn [fst snd]; rewrite zero_, one_, !frac_eq by lia; intuition lia.
Qed.
Print Assumptions C139_outer.

(** The docstring's claim, for all n *)
Definition interface_is_boundary : Prop :=
  forall n outer inner f, setup_domain n = Ok (outer, inner) -> facet_of n f -> gamma_facet n f = true -> on_interface n (facet_vertices f).
(** False: if n is not divisible by four no facet is on the boundary of the inner square, but there are facets in the interface *)
Theorem C139_interface_refuted : ~ interface_is_boundary /\
  forall n f, (n mod 4 <> 0)%nat -> ~ on_interface n (facet_vertices f).
Proof.
  assert (G : forall n f, (n mod 4 <> 0)%nat -> ~ on_interface n (facet_vertices f)).
  { intros n f N [_ H]. assert (N0 : (0 < n)%nat) by (destruct n; [easy|lia]).
    assert (Q : forall a, (4 * a <> n)%nat /\ (4 * a <> 3 * n)%nat).
    { intros a. assert (E := Nat.div_mod n 4 ltac:(lia)). pose proof (Nat.mod_upper_bound n 4 ltac:(lia)). lia. }
    destruct f as [i j|i j|i j]; cbn [facet_vertices] in H; rewrite !xs2, !ys2 in H; cbn [fst snd] in H;
      rewrite quarter, quarter3, !frac_eq in H by lia; pose proof (Q i); pose proof (Q j); lia. }
  split; [|exact G]. intros H.
  assert (I : In (Lower 0 1) (sub_cells 2 1)) by (apply in_sub; rewrite in_cells, subdomain_iff by lia; cbn [ci cj]; lia).
  assert (E : setup_domain 2 = Ok (sub_cells 2 0, sub_cells 2 1)).
  { unfold setup_domain. destruct (sub_cells 2 1); [destruct I|reflexivity]. }
  apply (G 2%nat (Dia 0 1)); [discriminate|]. apply (H 2%nat _ _ (Dia 0 1) E).
  - exists (Lower 0 1). rewrite in_cells. cbn; intuition lia.
  - unfold gamma_facet, sub_cells. rewrite cells_of_count. cbn [two_cells filter]. unfold valid. cbn [ci cj].
    assert (S1 : subdomain 2 (Lower 0 1) = 1%nat) by (apply subdomain_iff; lia).
    assert (S0 : subdomain 2 (Upper 0 1) = 0%nat).
    { destruct (subdomain_01 2 (Upper 0 1)) as [S0|S0]; [exact S0|]. apply subdomain_iff in S0; lia. }
    rewrite S1, S0. reflexivity.
Qed.
Print Assumptions C139_interface_refuted.

(** The first mesh of the demo: n = 4 *)
Example C139_ex : facet_of (4 * 1) (Hor 1 1) /\ on_interface (4 * 1) (facet_vertices (Hor 1 1)) /\ ~ on_interface (4 * 1) (facet_vertices (Hor 1 2)) /\
  0 < / 100 <= / INR (4 * 4) /\ on_outside 4 (facet_vertices (Ver 0 3)) /\ ~ on_outside 4 (facet_vertices (Dia 0 3)).
Proof.
  split; [exists (Lower 1 1); rewrite in_cells; cbn; intuition lia|].
  unfold on_interface, in_square, on_outside. cbn [facet_vertices]. rewrite !xs2, !ys2. cbn [fst snd].
  replace (INR (4 * 4)) with 16 by (simpl; lra). simpl INR. repeat split; try lra.
Qed.
