(** C141: the grid of lines in the cube *)
From Coq Require Import Reals Lra Lia ZArith.
From Verif Require Import WireModel WireProofs.
Local Open Scope R_scope.

(** For all even N and positive tolerances up to 1/N: an edge is in the curve exactly if it lies on one of the lines of
    the grid or of its connections, and the boundary vertex is an end of an edge of the curve; odd N are refused *)
Theorem C141_edges : forall N tol, (0 < N)%nat -> 0 < tol <= / INR N ->
  if Nat.even N then
    exists curve v, create_mesh N tol = Ok (curve, v) /\ (forall e, curve e <-> on_grid N e) /\
      v = (0, 0, -1) /\ exists e, curve e /\ in_mesh N (fst e) /\ in_mesh N (other_end e) /\ coords N (fst e) = v
  else create_mesh N tol = Err AssertionError.
Proof.
  intros N tol P T. destruct (Nat.even N) eqn:E.
  - apply Nat.even_spec in E. destruct E as (h & ->). assert (H : (0 < h)%nat) by lia.
    exists (fun e => gamma (2 * h) tol e = 1%nat), (0, 0, -1). pose proof (gamma_iff h tol H T) as G.
    assert (HP : 0 < INR h) by (apply lt_0_INR; lia).
    assert (V : INR (2 * h) = 2 * INR h) by (rewrite mult_INR; simpl; lra).
    assert (V2 : 0 < INR (2 * (2 * h))) by (apply lt_0_INR; lia).
    split; [|split; [exact G|split; [reflexivity|]]].
    + unfold create_mesh. rewrite Nat.mul_comm, Nat.mod_mul by lia. reflexivity.
    + exists ((h, h, 0)%nat, D001). split; [|split; [|split]].
      * apply G. left. exists 0, 0. split; [simpl; auto|split; [simpl; auto|]].
        split; unfold vertical, px, py; cbn [coords other_end fst snd]; rewrite V; split; field; lra.
      * simpl. lia.
      * simpl. lia.
      * cbn [coords fst]. rewrite V. cbn [INR]. f_equal; [f_equal|]; field; lra.
  - unfold create_mesh. destruct (Nat.eqb_spec (N mod 2) 0) as [M|M]; [|reflexivity].
    exfalso. apply Nat.mod_divide in M; [|lia]. destruct M as (h & ->). rewrite Nat.even_mul in E. simpl in E. rewrite orb_true_r in E. discriminate E.
Qed.
Print Assumptions C141_edges.

(** Along a coordinate, k parts of the interval [-1, 1]: each point is in a part *)
Lemma part : forall k t, (0 < k)%nat -> -1 <= t <= 1 -> exists c, (c < k)%nat /\ -1 + 2 * INR c / INR k <= t <= -1 + 2 * INR (S c) / INR k.
Proof.
  intros k t K H. apply lt_0_INR in K as P.
  assert (G : forall j, (j <= k)%nat -> t <= -1 + 2 * INR j / INR k \/ -1 + 2 * INR j / INR k < t) by (intros; lra).
  assert (IND : forall j, (0 < j <= k)%nat -> t <= -1 + 2 * INR j / INR k -> exists c, (c < j)%nat /\ -1 + 2 * INR c / INR k <= t <= -1 + 2 * INR (S c) / INR k).
  { induction j as [|j IH]; intros J L; [lia|]. destruct (Nat.eq_dec j 0) as [->|N0].
    - exists 0%nat. split; [lia|]. split; [|exact L]. cbn [INR]. replace (2 * 0 / INR k) with 0 by (field; lra). lra.
    - destruct (Rle_lt_dec t (-1 + 2 * INR j / INR k)) as [L1|L1].
      + destruct (IH ltac:(lia) L1) as (c & C & B). exists c. split; [lia|exact B].
      + exists j. split; [lia|lra]. }
  apply (IND k); [lia|]. replace (2 * INR k / INR k) with 2 by (field; lra). lra.
Qed.
(** If N is divisible by four the lines are covered: each of their points is between the ends of an edge of the curve on
    that line *)
Theorem C141_covered : forall m tol curve v, (0 < m)%nat -> let N := (4 * m)%nat in 0 < tol <= / INR N -> create_mesh N tol = Ok (curve, v) ->
  forall t, -1 <= t <= 1 ->
  (forall A B, one_of [- / 2; 0; / 2] A -> one_of [- / 2; 0; / 2] B ->
     exists e, curve e /\ ends N e (vertical A B) /\ pz (coords N (fst e)) <= t <= pz (coords N (other_end e))) /\
  (forall B C, one_of [- / 2; 0; / 2] B -> one_of [- / 2; / 2] C ->
     exists e, curve e /\ ends N e (along_x B C) /\ px (coords N (fst e)) <= t <= px (coords N (other_end e))) /\
  (forall A C, one_of [- / 2; / 2] A -> one_of [- / 2; / 2] C ->
     exists e, curve e /\ ends N e (along_y A C) /\ py (coords N (fst e)) <= t <= py (coords N (other_end e))).
Proof.
  intros m tol curve v M N T E t Ht. unfold N in *. clear N.
  assert (X : forall e, curve e <-> on_grid (4 * m) e).
  { pose proof (C141_edges (4 * m) tol ltac:(lia) T) as H. rewrite Nat.even_mul in H. cbn [Nat.even orb] in H.
    destruct H as (c & w & E2 & H & _). rewrite E in E2. injection E2 as <- _. exact H. }
  assert (P : 0 < INR m) by (apply lt_0_INR; lia).
  assert (V : INR (4 * m) = 4 * INR m) by (rewrite mult_INR; simpl; lra).
  assert (W : INR (2 * (4 * m)) = 8 * INR m) by (rewrite !mult_INR; simpl; lra).
  assert (AX : forall A, In A [- / 2; 0; / 2] -> exists a, -1 + 2 * INR a / INR (4 * m) = A).
  { intros A [<-|[<-|[<-|[]]]]; [exists m|exists (2 * m)%nat|exists (3 * m)%nat]; rewrite ?mult_INR; simpl INR; field; lra. }
  assert (AZ : forall A, In A [- / 2; / 2] -> exists a, -1 + 2 * INR a / INR (2 * (4 * m)) = A).
  { intros A [<-|[<-|[]]]; [exists (2 * m)%nat|exists (6 * m)%nat]; rewrite ?mult_INR; simpl INR; field; lra. }
  assert (AO : forall A, In A [- / 2; / 2] -> In A [- / 2; 0; / 2]) by (intros A [<-|[<-|[]]]; simpl; auto).
  split; [|split].
  - intros A B IA IB. destruct (AX A IA) as (a & Ea). destruct (AX B IB) as (b & Eb).
    destruct (part (2 * (4 * m)) t ltac:(lia) Ht) as (c & _ & C). exists ((a, b, c), D001).
    assert (K : ends (4 * m) ((a, b, c), D001) (vertical A B)).
    { split; unfold vertical, px, py; cbn [coords other_end fst snd]; auto. }
    split; [apply X; left; exists A, B; auto|split; [exact K|exact C]].
  - intros B D IB ID. destruct (AX B IB) as (b & Eb). destruct (AZ D ID) as (d & Ed).
    destruct (part (4 * m) t ltac:(lia) Ht) as (c & _ & C). exists ((c, b, d), D100).
    assert (K : ends (4 * m) ((c, b, d), D100) (along_x B D)).
    { split; unfold along_x, py, pz; cbn [coords other_end fst snd]; auto. }
    split; [apply X; right; left; exists B, D; auto|split; [exact K|exact C]].
  - intros A D IA ID. destruct (AX A (AO A IA)) as (a & Ea). destruct (AZ D ID) as (d & Ed).
    destruct (part (4 * m) t ltac:(lia) Ht) as (c & _ & C). exists ((a, c, d), D010).
    assert (K : ends (4 * m) ((a, c, d), D010) (along_y A D)).
    { split; unfold along_y, px, pz; cbn [coords other_end fst snd]; auto. }
    split; [apply X; right; right; exists A, D; auto|split; [exact K|exact C]].
Qed.
Print Assumptions C141_covered.

(** The assertion lets through only numbers for which the grid is there *)
Definition grid_is_there : Prop := forall N tol curve v A B, (0 < N)%nat -> 0 < tol <= / INR N -> create_mesh N tol = Ok (curve, v) ->
  one_of [- / 2; 0; / 2] A -> one_of [- / 2; 0; / 2] B -> exists e, curve e /\ ends N e (vertical A B).
(** False: an even number that is not divisible by four passes the assertion, but the curve then has edges on three of the
    nineteen lines only *)
Theorem C141_grid_refuted : ~ grid_is_there /\
  forall k tol curve v e, let N := (4 * k + 2)%nat in 0 < tol <= / INR N -> create_mesh N tol = Ok (curve, v) -> curve e ->
    ends N e (vertical 0 0) \/ ends N e (along_x 0 (- / 2)) \/ ends N e (along_x 0 (/ 2)).
Proof.
  assert (NO : forall k a, -1 + 2 * INR a / INR (4 * k + 2) <> - / 2 /\ -1 + 2 * INR a / INR (4 * k + 2) <> / 2).
  { intros k a. assert (P : 0 < INR (4 * k + 2)) by (apply lt_0_INR; lia).
    assert (K : forall r, -1 + 2 * INR a / INR (4 * k + 2) = r -> 2 * INR a = (r + 1) * INR (4 * k + 2)) by (intros r <-; field; lra).
    split; intros H; apply K in H.
    - assert (INR (4 * a) = INR (4 * k + 2)) as F by (rewrite (mult_INR 4 a); simpl (INR 4); lra). apply INR_eq in F. lia.
    - assert (INR (4 * a) = INR (3 * (4 * k + 2))) as F by (rewrite (mult_INR 4 a), (mult_INR 3 (4 * k + 2)); simpl (INR 4); simpl (INR 3); lra). apply INR_eq in F. lia. }
  assert (G : forall k tol curve v e, 0 < tol <= / INR (4 * k + 2) -> create_mesh (4 * k + 2) tol = Ok (curve, v) -> curve e ->
    ends (4 * k + 2) e (vertical 0 0) \/ ends (4 * k + 2) e (along_x 0 (- / 2)) \/ ends (4 * k + 2) e (along_x 0 (/ 2))).
  { intros k tol curve v e T E C. pose proof (C141_edges (4 * k + 2) tol ltac:(lia) T) as H.
    rewrite (proj2 (Nat.even_spec (4 * k + 2))) in H by (exists (2 * k + 1)%nat; lia).
    destruct H as (c & w & E2 & H & _). rewrite E in E2. injection E2 as <- _. apply H in C.
    assert (NX : forall u A, px (coords (4 * k + 2) u) = A -> In A [- / 2; 0; / 2] -> A = 0).
    { intros [[a b] d] A Ea [<-|[<-|[<-|[]]]]; [destruct (proj1 (NO k a) Ea)|reflexivity|destruct (proj2 (NO k a) Ea)]. }
    assert (NY : forall u A, py (coords (4 * k + 2) u) = A -> In A [- / 2; 0; / 2] -> A = 0).
    { intros [[a b] d] A Ea [<-|[<-|[<-|[]]]]; [destruct (proj1 (NO k b) Ea)|reflexivity|destruct (proj2 (NO k b) Ea)]. }
    destruct C as [(A & B & IA & IB & K)|[(B & D & IB & ID & K)|(A & D & IA & ID & K)]].
    - left. destruct K as [[K1 K2] K3]. assert (QA : A = 0) by (eapply NX; eauto). assert (QB : B = 0) by (eapply NY; eauto). rewrite QA, QB in *. exact (conj (conj K1 K2) K3).
    - right. destruct K as [[K1 K2] K3]. assert (QB : B = 0) by (eapply NY; eauto). rewrite QB in *.
      destruct ID as [<-|[<-|[]]]; [left|right]; exact (conj (conj K1 K2) K3).
    - exfalso. destruct K as [[K1 K2] K3]. assert (A = 0) by (eapply NX; [exact K1|destruct IA as [<-|[<-|[]]]; simpl; auto]). destruct IA as [I|[I|[]]]; lra. }
  split; [|intros k tol curve v e N; apply G]. intros H.
  assert (T : 0 < / 2 <= / INR 2) by (simpl INR; lra).
  destruct (H 2%nat (/ 2) _ _ (/ 2) 0 ltac:(lia) T eq_refl) as (e & C & [[K _] _]); [simpl; auto|simpl; auto|].
  destruct e as [[[a b] d] dr]. exact (proj2 (NO 0%nat a) K).
Qed.
Print Assumptions C141_grid_refuted.

(** A number that passes: N = 4, with an edge of the grid and one that is not *)
Example C141_ex : on_grid 4 ((1, 2, 3)%nat, D001) /\ ~ on_grid 4 ((1, 2, 3)%nat, D111) /\ Nat.even 4 = true /\ 0 < / 1000 <= / INR 4.
Proof.
  split; [|split; [|split; [reflexivity|]]].
  - left. exists (- / 2), 0. split; [simpl; auto|split; [simpl; auto|]]. split; unfold vertical, px, py; cbn; split; lra.
  - intros [(A & B & _ & _ & [[K1 _] [K2 _]])|[(A & B & _ & _ & [[K1 _] [K2 _]])|(A & B & _ & _ & [[K1 _] [K2 _]])]];
      unfold px, py in *; cbn in *; lra.
  - simpl INR. split; [lra|]. apply Rinv_le_contravar; lra.
Qed.
