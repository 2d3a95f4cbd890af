(** The interface of the inner square *)
From Coq Require Import Reals Lra Lia Permutation.
From Verif Require Import InnerModel.
Local Open Scope R_scope.

(** Independent vocabulary, in terms of the points of a list of vertices *)
Definition xs (n : nat) (vs : list (nat * nat)) (P : R -> Prop) : Prop := forall v, In v vs -> P (INR (fst v) / INR n).
Definition ys (n : nat) (vs : list (nat * nat)) (P : R -> Prop) : Prop := forall v, In v vs -> P (INR (snd v) / INR n).
(** in the closed inner square; in the closure of its complement, beside one of the sides; on its boundary *)
Definition in_square n vs : Prop := xs n vs (fun x => / 4 <= x <= 3 / 4) /\ ys n vs (fun y => / 4 <= y <= 3 / 4).
Definition beside_square n vs : Prop :=
  xs n vs (fun x => x <= / 4) \/ xs n vs (fun x => 3 / 4 <= x) \/ ys n vs (fun y => y <= / 4) \/ ys n vs (fun y => 3 / 4 <= y).
Definition on_interface n vs : Prop := in_square n vs /\
  (xs n vs (fun x => x = / 4) \/ xs n vs (fun x => x = 3 / 4) \/ ys n vs (fun y => y = / 4) \/ ys n vs (fun y => y = 3 / 4)).
(** on the boundary of the unit square *)
Definition on_outside n vs : Prop :=
  xs n vs (fun x => x = 0) \/ xs n vs (fun x => x = 1) \/ ys n vs (fun y => y = 0) \/ ys n vs (fun y => y = 1).
Definition facet_of (n : nat) (f : gfacet) : Prop := exists c, In c (mesh_cells n n) /\ In f (cell_facets c).

Definition ci (c : gcell) : nat := match c with Lower i _ | Upper i _ => i end.
Definition cj (c : gcell) : nat := match c with Lower _ j | Upper _ j => j end.
Lemma in_cells : forall n c, In c (mesh_cells n n) <-> (ci c < n)%nat /\ (cj c < n)%nat.
Proof.
  intros n c. unfold mesh_cells. rewrite in_flat_map. split.
  - intros (i & I & H). apply in_flat_map in H. destruct H as (j & J & H). apply in_seq in I, J.
    simpl in H. destruct H as [<-|[<-|[]]]; simpl; lia.
  - intros [H1 H2]. exists (ci c). rewrite in_seq. split; [lia|]. apply in_flat_map.
    exists (cj c). rewrite in_seq. split; [lia|]. destruct c; simpl; auto.
Qed.
Lemma NoDup_flat : forall (A : Type) (key : A -> nat) (g : nat -> list A) l, NoDup l -> (forall a, In a l -> NoDup (g a)) ->
  (forall a x, In x (g a) -> key x = a) -> NoDup (flat_map g l).
Proof.
  intros A key g l N; induction N as [|a l H N IH]; intros G K; simpl; [constructor|].
  assert (D : forall l1 l2 : list A, NoDup l1 -> NoDup l2 -> (forall x, In x l1 -> ~ In x l2) -> NoDup (l1 ++ l2)).
  { induction l1 as [|x l1 I1]; intros l2 N1 N2 Dj; simpl; [exact N2|]. inversion N1 as [|? ? Nx N1']; subst. constructor.
    - intros I. apply in_app_iff in I. destruct I as [I|I]; [exact (Nx I)|exact (Dj x (or_introl eq_refl) I)].
    - apply I1; auto. intros y Iy. apply Dj. right. exact Iy. }
  apply D; [apply G; left; reflexivity|apply IH; [intros b I; apply G; right; exact I|exact K]|].
  intros x I1 I2. apply in_flat_map in I2. destruct I2 as (b & Ib & I2). rewrite <- (K _ _ I1), (K _ _ I2) in H. exact (H Ib).
Qed.
Lemma cells_NoDup : forall n, NoDup (mesh_cells n n).
Proof.
  intros n. unfold mesh_cells. apply (NoDup_flat _ ci); [apply seq_NoDup| |].
  - intros i _. apply (NoDup_flat _ cj); [apply seq_NoDup| |].
    + intros j _. constructor; [intros [E|[]]; discriminate E|constructor; [intros []|constructor]].
    + intros j x [<-|[<-|[]]]; reflexivity.
  - intros i x I. apply in_flat_map in I. destruct I as (j & _ & [<-|[<-|[]]]); reflexivity.
Qed.
Lemma facet_eqb : forall f g, gfacet_eqb f g = true <-> f = g.
Proof.
  intros [i j|i j|i j] [k l|k l|k l]; simpl; rewrite ?andb_true_iff, ?Nat.eqb_eq; split; intros H; try discriminate H;
  try (destruct H as [E1 E2]; subst; reflexivity); injection H; auto.
Qed.
(** A facet has these two cells, if they exist *)
Definition two_cells (f : gfacet) : list gcell :=
  match f with
  | Hor i j => Lower i j :: match j with O => [] | S j' => [Upper i j'] end
  | Ver i j => Upper i j :: match i with O => [] | S i' => [Lower i' j] end
  | Dia i j => [Lower i j; Upper i j]
  end.
Lemma two_cells_in : forall f c, In f (cell_facets c) <-> In c (two_cells f).
Proof.
  intros [i j|i j|i j] [k l|k l]; simpl.
  - split; [intros [E|[E|[E|[]]]]; inversion E; subst; auto|]. intros [E|E]; [inversion E; auto|]. destruct j; simpl in E; intuition discriminate.
  - split; [intros [E|[E|[E|[]]]]; inversion E; subst; simpl; auto|]. intros [E|E]; [discriminate E|]. destruct j; simpl in E; [easy|]. destruct E as [E|[]]. inversion E. auto.
  - split; [intros [E|[E|[E|[]]]]; inversion E; subst; simpl; auto|]. intros [E|E]; [discriminate E|]. destruct i; simpl in E; [easy|]. destruct E as [E|[]]. inversion E. auto.
  - split; [intros [E|[E|[E|[]]]]; inversion E; subst; auto|]. intros [E|E]; [inversion E; auto|]. destruct i; simpl in E; intuition discriminate.
  - split; [intros [E|[E|[E|[]]]]; inversion E; subst; auto|]. intros [E|[E|[]]]; inversion E; auto.
  - split; [intros [E|[E|[E|[]]]]; inversion E; subst; auto|]. intros [E|[E|[]]]; inversion E; auto.
Qed.
Lemma two_cells_NoDup : forall f, NoDup (two_cells f).
Proof.
  intros [i [|j]|[|i] j|i j]; simpl; repeat constructor; simpl; intuition discriminate.
Qed.
Definition valid (n : nat) (c : gcell) : bool := ((ci c <? n) && (cj c <? n))%nat.
Lemma cells_of_count : forall n f (p : gcell -> bool),
  length (cells_of f (filter p (mesh_cells n n))) = length (filter (fun c => valid n c && p c) (two_cells f)).
Proof.
  intros n f p. apply Permutation_length, NoDup_Permutation.
  - apply NoDup_filter, NoDup_filter, cells_NoDup.
  - apply NoDup_filter, two_cells_NoDup.
  - intros c. unfold cells_of, valid. rewrite !filter_In, in_cells, !andb_true_iff, !Nat.ltb_lt, <- two_cells_in, existsb_exists.
    split.
    + intros [[H1 H2] (g & I & E)]. apply facet_eqb in E. subst g. auto.
    + intros [I [H1 H2]]. split; [auto|]. exists f. split; [exact I|apply facet_eqb; reflexivity].
Qed.

(** Fractions *)
Lemma frac_lt : forall a b c d : nat, (0 < b)%nat -> (0 < d)%nat -> INR a / INR b < INR c / INR d <-> (a * d < c * b)%nat.
Proof.
  intros a b c d B D. apply lt_0_INR in B, D.
  assert (E : (INR c / INR d - INR a / INR b) * (INR b * INR d) = INR (c * b) - INR (a * d)) by (rewrite !mult_INR; field; lra).
  assert (P : 0 < INR b * INR d) by nra. split; intros H.
  - apply INR_lt. assert (0 < (INR c / INR d - INR a / INR b) * (INR b * INR d)) by (apply Rmult_lt_0_compat; lra). lra.
  - apply lt_INR in H. assert (0 < (INR c / INR d - INR a / INR b) * (INR b * INR d)) as Q by lra.
    destruct (Rlt_le_dec (INR a / INR b) (INR c / INR d)) as [L|L]; [exact L|].
    assert ((INR c / INR d - INR a / INR b) * (INR b * INR d) <= 0) by nra. lra.
Qed.
Lemma frac_le : forall a b c d : nat, (0 < b)%nat -> (0 < d)%nat -> INR a / INR b <= INR c / INR d <-> (a * d <= c * b)%nat.
Proof.
  intros a b c d B D. split; intros H.
  - destruct (le_lt_dec (a * d) (c * b)) as [L|L]; [exact L|]. apply (frac_lt c d a b D B) in L. lra.
  - apply Rnot_lt_le. intros L. apply (frac_lt c d a b D B) in L. lia.
Qed.
Lemma frac_eq : forall a b c d : nat, (0 < b)%nat -> (0 < d)%nat -> INR a / INR b = INR c / INR d <-> (a * d = c * b)%nat.
Proof.
  intros a b c d B D. split; intros H.
  - assert (a * d <= c * b)%nat by (apply frac_le; auto; lra). assert (c * b <= a * d)%nat by (apply frac_le; auto; lra). lia.
  - apply Rle_antisym; apply frac_le; auto; lia.
Qed.
Lemma quarter : / 4 = INR 1 / INR 4. Proof. simpl; field. Qed.
Lemma quarter3 : 3 / 4 = INR 3 / INR 4. Proof. simpl; field. Qed.
Lemma zero_ : 0 = INR 0 / INR 1. Proof. simpl; field. Qed.
Lemma one_ : 1 = INR 1 / INR 1. Proof. simpl; field. Qed.
Lemma interior_iff : forall a b d : nat, (0 < d)%nat -> interior (INR a / INR d, INR b / INR d) = true <->
  (d < 4 * a < 3 * d)%nat /\ (d < 4 * b < 3 * d)%nat.
Proof.
  intros a b d D. unfold interior. cbn [fst snd].
  assert (K : forall x, Rabs (x - / 2) < / 4 <-> / 4 < x /\ x < 3 / 4).
  { intros x. split; [intros H; apply Rabs_def2 in H; lra|intros H; apply Rabs_def1; lra]. }
  assert (E : forall a : nat, (/ 4 < INR a / INR d /\ INR a / INR d < 3 / 4) <-> (d < 4 * a < 3 * d)%nat).
  { intros e. rewrite quarter, quarter3, !frac_lt by lia. lia. }
  destruct (Rlt_dec _ _) as [H|H].
  - split; [intros _|reflexivity]. rewrite <- !E, <- !K.
    split; eapply Rle_lt_trans; [apply Rmax_l|exact H|apply Rmax_r|exact H].
  - split; [discriminate|]. intros [H1 H2]. exfalso. apply H. apply Rmax_lub_lt; apply K, E; assumption.
Qed.
Lemma midpoint_cell : forall n c, (0 < n)%nat -> midpoint n (cell_vertices c) =
  (INR (3 * ci c + match c with Lower _ _ => 2 | Upper _ _ => 1 end) / INR (3 * n),
   INR (3 * cj c + match c with Lower _ _ => 1 | Upper _ _ => 2 end) / INR (3 * n)).
Proof.
  intros n c N. apply lt_0_INR in N.
  destruct c as [i j|i j]; unfold midpoint, rsum; cbn [cell_vertices map fold_right fst snd point length ci cj];
  rewrite !plus_INR, !mult_INR, !S_INR; cbn [INR]; f_equal; field; lra.
Qed.
Lemma subdomain_iff : forall n c, (0 < n)%nat -> subdomain n c = 1%nat <->
  (match c with
   | Lower i j => (3 * n < 4 * (3 * i + 2) < 9 * n) /\ (3 * n < 4 * (3 * j + 1) < 9 * n)
   | Upper i j => (3 * n < 4 * (3 * i + 1) < 9 * n) /\ (3 * n < 4 * (3 * j + 2) < 9 * n)
   end)%nat.
Proof.
  intros n c N. unfold subdomain. rewrite (midpoint_cell n c N).
  pose proof (fun a b => interior_iff a b (3 * n) ltac:(lia)) as H.
  destruct (interior _) eqn:E.
  - split; [intros _|reflexivity]. apply H in E. destruct c; cbn [ci cj] in E; lia.
  - split; [discriminate|]. intros G. rewrite (proj2 (H _ _)) in E; [discriminate E|]. destruct c; cbn [ci cj]; lia.
Qed.
(** Divisible by four: a cell is in a square of the inner block *)
Lemma subdomain_four : forall m c, (0 < m)%nat -> subdomain (4 * m) c = 1%nat <-> (m <= ci c < 3 * m)%nat /\ (m <= cj c < 3 * m)%nat.
Proof. intros m c M. rewrite subdomain_iff by lia. destruct c; cbn [ci cj]; lia. Qed.
Lemma subdomain_01 : forall n c, subdomain n c = 0%nat \/ subdomain n c = 1%nat.
Proof. intros n c. unfold subdomain. destruct (interior _); auto. Qed.
