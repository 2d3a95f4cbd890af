(** C59: inverse of linear combinations of fractional norms. *)
From Coq Require Import Reals List Arith Lia Lra.
From Verif Require Import Base BaseProofs RLin HsModel HsProofs.
Import ListNotations.
Local Open Scope R_scope.

(** What is returned for an invertible operator is its inverse. *)
Theorem C59_partial power eigh A M e B D C :
  symmetric (rnr A) (rent A) -> symmetric (rnr A) (rent M) -> eigh_ok eigh -> made_of (rnr A) A M e ->
  inverse power eigh e = Ok (IMat B) -> denotes power (rnr A) e (VMat D) -> eqn (rnr A) (mm (rnr A) C D) one ->
  rnr B = rnr A /\ rnc B = rnr A /\ eqn (rnr A) (mm (rnr A) (rent B) D) one /\ eqn (rnr A) (mm (rnr A) D (rent B)) one.
Proof. intros SA SM EO MO HI HD HC. apply (inverse_sound power eigh A M SA SM EO e B D C MO HI HD HC). Qed.

(** Matrices are returned exactly for linear combinations with one factor per term and matrices of the same sizes. *)
Theorem C59_accepted power eigh e : (forall A M, exists lU, eigh A M = Ok lU) ->
  ((exists B, inverse power eigh e = Ok (IMat B)) <->
   combination e /\ (forall i, e <> HInterp i) /\
   forall i j, mentions i e -> mentions j e -> rnr (i_A i) = rnr (i_A j) /\ rnc (i_A i) = rnc (i_A j) /\ rnr (i_M i) = rnr (i_M j) /\ rnc (i_M i) = rnc (i_M j)).
Proof.
  intros TE. split.
  - intros [B H]. destruct (inverse_matrix power eigh e B H) as (l & U & m & ts & _ & ET & _ & EW). split; [|split].
    + eapply collect_combination, ET.
    + intros i ->. cbn [inverse] in H. discriminate.
    + apply well_defined_spec, EW.
  - intros (HC & NI & SZ). apply well_defined_spec in SZ. destruct (combination_collect e HC) as [ts ET]. destruct (combination_mentions e HC) as [i Hi].
    assert (EE : exists l U m, eigenpairs eigh e = Ok (l, U, m)).
    { unfold eigenpairs. apply interps_mentions in Hi. destruct (extract (fun i => Some (i_A i)) e) as [A|] eqn:EA; [|pose proof (extract_none _ _ EA i Hi); discriminate].
      assert (G : exists l U m, match extract (fun i => Some (i_M i)) e with None => Err AttributeError | Some M => do lU <- eigh A M; Ok (fst lU, snd lU, rnr A) end = Ok (l, U, m)).
      { destruct (extract (fun i => Some (i_M i)) e) as [M|] eqn:EM; [|pose proof (extract_none _ _ EM i Hi); discriminate]. destruct (TE A M) as [[l U] ->]. cbn [bind fst snd]. eauto. }
      destruct (extract i_lmbda e), (extract i_U e); eauto. }
    destruct EE as (l & U & m & EE).
    assert (G : inverse power eigh e = Ok (IMat (RMat m m (fun i j => rsum m (fun k => U i k * (1 / diagonal power l ts k * U j k)))))).
    { destruct HC as [j|a j|a j|x y Hx Hy|x y Hx Hy]; [exfalso; apply (NI j); reflexivity|..]; cbn [inverse]; rewrite SZ; cbn [negb]; rewrite EE; cbn [bind]; rewrite ET; reflexivity. }
    eexists. exact G.
Qed.
(** The other two cases *)
Theorem C59_single power eigh i : inverse power eigh (HInterp i) = Ok (IPow i).
Proof. reflexivity. Qed.
Theorem C59_vectorized power eigh x W r : inverse power eigh (HVec x W) = Ok r <-> exists y, inverse power eigh x = Ok y /\ r = IVec y W.
Proof.
  cbn [inverse]. destruct (inverse power eigh x) as [y|]; cbn [bind]; split.
  - intros H. injection H as <-. eauto.
  - intros (z & E & ->). injection E as ->. reflexivity.
  - discriminate.
  - intros (z & E & _). discriminate.
Qed.

(** Only sizes are compared: for two norms of different matrices the result is not the inverse. *)
Definition scalar_mat (a : R) : rmat := RMat 1 1 (fun _ _ => a).
Definition scalar_interp (a s : R) : interp := Interp (scalar_mat a) (scalar_mat 1) s (Some (fun _ => a)) (Some (fun _ _ => 1)).
Lemma scalar_solves a : solves 1 (rent (scalar_mat a)) (rent (scalar_mat 1)) (fun _ => a) (fun _ _ => 1).
Proof.
  split; [|split]; intros i j Hi Hj; assert (i = 0%nat) as -> by lia; assert (j = 0%nat) as -> by lia; unfold mm, tr, one, dg; cbn [rsum rent scalar_mat Nat.eqb]; ring.
Qed.
Lemma scalar_denotes a s : denotes Rpower 1 (HInterp (scalar_interp a s)) (VMat (fun _ _ => Rpower a s)).
Proof.
  constructor. exists (fun _ => a), (fun _ _ => 1). split; [apply scalar_solves|]. intros i j Hi Hj; assert (i = 0%nat) as -> by lia; assert (j = 0%nat) as -> by lia.
  unfold mm, tr, dg. cbn [rsum rent scalar_mat scalar_interp i_M i_s Nat.eqb]. ring.
Qed.
Theorem C59_sizes_refuted : exists e B D C,
  (forall i, mentions i e -> rnr (i_A i) = 1%nat /\ match i_lmbda i, i_U i with Some l, Some U => solves 1 (rent (i_A i)) (rent (i_M i)) l U | _, _ => False end) /\
  (forall eigh, inverse Rpower eigh e = Ok (IMat B)) /\ denotes Rpower 1 e (VMat D) /\ eqn 1 (mm 1 C D) one /\ ~ eqn 1 (mm 1 (rent B) D) one.
Proof.
  exists (HAdd (HInterp (scalar_interp 1 1)) (HInterp (scalar_interp 2 1))).
  eexists. exists (plus (fun _ _ => Rpower 1 1) (fun _ _ => Rpower 2 1)), (fun _ _ => 1/3). split; [|split; [|split; [|split]]].
  - intros i H. inversion H as [| |x y H1|x y H1| |]; subst; inversion H1; subst; cbn [i_A i_lmbda i_U i_M scalar_interp]; (split; [reflexivity|apply scalar_solves]).
  - intros eigh. reflexivity.
  - constructor; apply scalar_denotes.
  - intros i j Hi Hj; assert (i = 0%nat) as -> by lia; assert (j = 0%nat) as -> by lia. unfold mm, plus, one, dg. cbn [rsum Nat.eqb]. rewrite !Rpower_1 by lra. lra.
  - intros H. specialize (H 0%nat 0%nat ltac:(lia) ltac:(lia)). unfold mm, plus, one, dg in H. cbn [rsum rent Nat.eqb fst snd] in H. unfold diagonal in H. cbn [fold_left fst snd i_s scalar_interp app] in H.
    rewrite !Rpower_1 in H by lra. cbn [scalar_interp i_A rnr scalar_mat rsum] in H. replace (0 + 1 * 1 + 1 * 1) with 2 in H by ring. lra.
Qed.
(** Factors in front of sums, and two factors of one norm, are refused. *)
Theorem C59_factor_refuted power eigh a b x y i r :
  inverse power eigh (HMul [HNum a; HAdd x y]) <> Ok r /\ inverse power eigh (HMul [HNum a; HNum b; HInterp i]) <> Ok r.
Proof.
  split; cbn [inverse]; (destruct (negb _); [discriminate|]); (destruct (eigenpairs _ _) as [[[l U] m]|]; [|discriminate]); cbn [bind collect]; discriminate.
Qed.

(** *** Example: 2 H^(1/2) - H^1 of the matrix (4): 2*2 - 4 = 0 is singular, 3 H^(1/2) - H^1 is 2. *)
Example C59_example : let e := HSub (HMul [HNum 3; HInterp (scalar_interp 4 (1/2))]) (HInterp (scalar_interp 4 1)) in
  combination e /\ made_of 1 (scalar_mat 4) (scalar_mat 1) e /\ symmetric 1 (rent (scalar_mat 4)) /\
  exists B D C, (forall eigh, inverse Rpower eigh e = Ok (IMat B)) /\ denotes Rpower 1 e (VMat D) /\ eqn 1 (mm 1 C D) one /\ D 0%nat 0%nat = 2 /\ rent B 0%nat 0%nat = 1/2.
Proof.
  assert (S : Rpower 4 (1/2) = 2). { replace (1/2) with (/2) by lra. rewrite Rpower_sqrt by lra. replace 4 with (2*2) by lra. apply sqrt_square. lra. }
  cbv zeta. split; [|split; [|split]].
  - repeat constructor.
  - intros i H. inversion H as [| | | |x y H1|x y H1]; subst.
    + inversion H1 as [|x' c Hc H2| | | |]; subst. destruct Hc as [Hc|[Hc|[]]]; subst; inversion H2; subst. split; [reflexivity|]. split; [reflexivity|]. apply scalar_solves.
    + inversion H1; subst. split; [reflexivity|]. split; [reflexivity|]. apply scalar_solves.
  - intros i j _ _. reflexivity.
  - eexists. exists (plus (times 3 (fun _ _ => Rpower 4 (1/2))) (times (-1) (fun _ _ => Rpower 4 1))), (fun _ _ => 1/2). split; [intros eigh; reflexivity|]. split.
    + constructor; [|apply scalar_denotes]. eapply denotes_mul; [constructor|apply denotes_mul1, scalar_denotes|constructor].
    + split; [|split].
      * intros i j Hi Hj; assert (i = 0%nat) as -> by lia; assert (j = 0%nat) as -> by lia. unfold mm, plus, times, one, dg. cbn [rsum Nat.eqb]. rewrite Rpower_1, S by lra. lra.
      * unfold plus, times. rewrite Rpower_1, S by lra. lra.
      * cbn [rsum rent]. unfold diagonal. cbn [fold_left fst snd i_s scalar_interp app map]. cbn [scalar_interp i_A rnr scalar_mat rsum]. rewrite Rpower_1, S by lra. field.
Qed.

Print Assumptions C59_partial.
Print Assumptions C59_accepted.
Print Assumptions C59_single.
Print Assumptions C59_vectorized.
Print Assumptions C59_sizes_refuted.
Print Assumptions C59_factor_refuted.
