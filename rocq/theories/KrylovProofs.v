(** Solvers of other libraries for block systems: specification and lemmas (property C64) *)
From Verif Require Export KrylovModel.
From Verif Require Import MatProofs ConvertModel ConvertProofs ConvertActionProofs BaseProofs.
Local Close Scope Q_scope.
Local Close Scope Qc_scope.
Local Open Scope nat_scope.

(** ** Specification *)
(** [M] has the blocks [A] of the sizes [rs] and [cs], one after the other *)
Definition placed (rs cs : list nat) (A : nat -> nat -> mat) (M : mat) : Prop :=
  nr M = list_sum rs /\ nc M = list_sum cs /\
  forall i r j c, i < length rs -> r < nth i rs 0 -> j < length cs -> c < nth j cs 0 -> ent M (list_sum (firstn i rs) + r) (list_sum (firstn j cs) + c) = ent (A i j) r c.
Definition fits (rs cs : list nat) (A : nat -> nat -> mat) : Prop :=
  forall i j, i < length rs -> j < length cs -> nr (A i j) = nth i rs 0 /\ nc (A i j) = nth j cs 0.
(** The blocks of a vector *)
Definition cut (sizes : list nat) (x : vec) (xs : list vec) : Prop := map (@length Qc) xs = sizes /\ x = concat xs.
(** The operator refuses vectors of other sizes, and returns vectors of its rows *)
Definition strict (op : blockop) : Prop :=
  (forall xs, map (@length Qc) xs <> csizes op -> exists e, act op xs = Err e) /\ forall xs ys, act op xs = Ok ys -> map (@length Qc) ys = rsizes op.

(** ** Lemmas *)
Lemma fill_concat sizes : forall xs pre post, map (@length Qc) xs = sizes -> fill (length pre) sizes (pre ++ concat xs ++ post) = Ok xs.
Proof.
  induction sizes as [|n sizes IH]; intros xs pre post E; [destruct xs; [reflexivity|discriminate]|]. destruct xs as [|x xs]; [discriminate|]. injection E as E1 E2. cbn [fill concat].
  assert (F : firstn n (skipn (length pre) (pre ++ (x ++ concat xs) ++ post)) = x). { rewrite skipn_app, skipn_all, Nat.sub_diag, skipn_O. cbn [app]. rewrite <- app_assoc, firstn_app, E1, Nat.sub_diag, firstn_O, app_nil_r. rewrite <- E1. apply firstn_all. }
  rewrite F. unfold set_local. rewrite E1, Nat.eqb_refl. cbn [bind].
  specialize (IH xs (pre ++ x) post E2). rewrite app_length, E1 in IH. rewrite <- app_assoc in IH. rewrite <- app_assoc. rewrite IH. reflexivity.
Qed.
Lemma cut_exists sizes : forall x, length x = list_sum sizes -> exists xs, cut sizes x xs.
Proof.
  induction sizes as [|n sizes IH]; intros x H; [exists []; split; [reflexivity|destruct x; [reflexivity|discriminate]]|]. change (list_sum (n :: sizes)) with (n + list_sum sizes) in H.
  destruct (IH (skipn n x)) as [xs [A B]]; [rewrite skipn_length; lia|]. exists (firstn n x :: xs). split; [cbn; rewrite firstn_length, A; f_equal; lia|]. cbn [concat]. rewrite <- B. symmetry. apply firstn_skipn.
Qed.
Lemma fill_cut sizes x xs : cut sizes x xs -> fill 0 sizes x = Ok xs.
Proof. intros [A ->]. pose proof (fill_concat sizes xs [] [] A) as H. cbn [app length] in H. rewrite app_nil_r in H. exact H. Qed.
Lemma fill_sizes sizes : forall first xarr xs, fill first sizes xarr = Ok xs -> map (@length Qc) xs = sizes.
Proof.
  induction sizes as [|n sizes IH]; intros first xarr xs H; [injection H as <-; reflexivity|]. cbn [fill] in H. unfold set_local in H. destruct (length (firstn n (skipn first xarr)) =? n) eqn:E; [cbn [bind] in H|discriminate]. apply Nat.eqb_eq in E.
  destruct (fill (first + n) sizes xarr) as [xs'|] eqn:F; [cbn [bind] in H|discriminate]. injection H as <-. cbn. rewrite E, (IH _ _ _ F). reflexivity.
Qed.
Lemma concat_length (xs : list vec) sizes : map (@length Qc) xs = sizes -> length (concat xs) = list_sum sizes.
Proof. intros <-. induction xs as [|x xs IH]; [reflexivity|]. cbn [concat map]. rewrite app_length, IH. reflexivity. Qed.
Lemma bmat_strict rs cs A : strict (bmat_op rs cs A).
Proof.
  split; cbn [act bmat_op rsizes csizes].
  - intros xs N. destruct (list_eq_dec _ _ _) as [E|E]; [contradiction|exists RuntimeError; reflexivity].
  - intros xs ys. destruct (list_eq_dec _ _ _) as [E|E]; [|discriminate]. intros H. injection H as <-. rewrite map_map. apply (nth_ext _ _ 0 0); [rewrite map_length, seq_length; reflexivity|].
    intros i Hi. rewrite map_length, seq_length in Hi. rewrite nth_map_seq by exact Hi. apply vtab_length.
Qed.
Lemma bmat_acts rs cs A M xs : fits rs cs A -> placed rs cs A M -> map (@length Qc) xs = cs -> exists ys, act (bmat_op rs cs A) xs = Ok ys /\ concat ys = mv M (concat xs).
Proof.
  intros F [P1 [P2 P3]] E. cbn [act bmat_op]. destruct (list_eq_dec _ _ _) as [E'|N]; [|contradiction]. eexists. split; [reflexivity|]. set (ys := map _ (seq 0 (length rs))).
  assert (Ly : map (@length Qc) ys = rs). { destruct (bmat_strict rs cs A) as [_ S]. specialize (S xs ys). apply S. cbn [act bmat_op]. destruct (list_eq_dec _ _ _); [reflexivity|contradiction]. }
  apply vec_ext; [rewrite mv_length, (concat_length ys rs Ly), P1; reflexivity|]. rewrite (concat_length ys rs Ly). intros k Hk. destruct (locate_inv rs k Hk) as [i [r [Hi [Hr ->]]]].
  rewrite (vnth_concat ys rs i r Ly Hi Hr). unfold ys at 1. rewrite nth_map_seq by exact Hi. rewrite vnth_vtab by exact Hr. rewrite vnth_mv by (rewrite P1; exact Hk). rewrite P2, sumn_blocks.
  apply sumn_ext. intros j Hj. destruct (F i j Hi Hj) as [F1 F2]. rewrite vnth_mv by (rewrite F1; exact Hr). rewrite F2. apply sumn_ext. intros c Hc. rewrite (vnth_concat xs cs j c E Hj Hc). unfold off. rewrite (P3 i r j c Hi Hr Hj Hc). reflexivity.
Qed.
Lemma matvec_blocks op xs : rsizes op = csizes op -> strict op -> map (@length Qc) xs = csizes op -> matvec op (concat xs) = match act op xs with Ok ys => Ok (concat ys) | Err e => Err e end.
Proof.
  intros E [S1 S2] L. unfold matvec, shape, scipy_matvec. cbn [fst snd]. rewrite (concat_length xs _ L), Nat.eqb_refl. rewrite (fill_cut (rsizes op) (concat xs) xs) by (split; [congruence|reflexivity]). cbn [bind].
  destruct (act op xs) as [ys|e] eqn:A; [|reflexivity]. cbn [bind]. rewrite (concat_length ys _ (S2 _ _ A)), Nat.eqb_refl. reflexivity.
Qed.
Lemma matvec_inv op x y : rsizes op = csizes op -> matvec op x = Ok y -> exists xs ys, cut (csizes op) x xs /\ act op xs = Ok ys /\ y = concat ys.
Proof.
  intros E. unfold matvec, shape, scipy_matvec. cbn [fst snd]. destruct (length x =? list_sum (csizes op)) eqn:L; [|discriminate]. apply Nat.eqb_eq in L. destruct (cut_exists _ _ L) as [xs C]. rewrite E, (fill_cut _ _ _ C). cbn [bind]. destruct (act op xs) as [ys|] eqn:A; [cbn [bind]|discriminate].
  destruct (length (concat ys) =? _); [|discriminate]. intros H. injection H as <-. exists xs, ys. repeat split; [exact (proj1 C)|exact (proj2 C)|exact A].
Qed.
Lemma cut_unique sizes x xs xs' : cut sizes x xs -> cut sizes x xs' -> xs = xs'.
Proof. intros C C'. apply fill_cut in C, C'. congruence. Qed.
Lemma rectangular_never op x : strict op -> rsizes op <> csizes op -> exists e, matvec op x = Err e.
Proof.
  intros [S1 _] N. unfold matvec, scipy_matvec. destruct (length x =? snd (shape op)); [|eexists; reflexivity]. destruct (fill 0 (rsizes op) x) as [xs|e] eqn:F; [cbn [bind]|exists e; reflexivity].
  destruct (S1 xs) as [e A]; [rewrite (fill_sizes _ _ _ _ F); exact N|]. rewrite A. exists e. reflexivity.
Qed.

(** What a solver promises: with status 0, the action on what it returns is close to the right
    hand side, in a sense that is its own *)
Definition promises (close : vec -> vec -> Prop) (krylov : solver) : Prop :=
  forall A b M x0 x, krylov A b M x0 = Ok (x, 0%Z) -> exists y, A x = Ok y /\ close y b.
Lemma library_solution close krylov AA bb M x0 xs : promises close krylov -> rsizes AA = csizes AA -> map (@length Qc) x0 = csizes AA -> library_solve krylov AA bb M x0 = Ok xs -> map (@length Qc) xs = csizes AA /\ exists ys, act AA xs = Ok ys /\ close (concat ys) (concat bb).
Proof.
  intros P E L H. unfold library_solve in H. destruct (krylov _ _ _ _) as [[x st]|] eqn:K; [cbn [bind fst snd] in H|discriminate]. destruct (st =? 0)%Z eqn:S; cbn [py_assert bind] in H; [|discriminate]. apply Z.eqb_eq in S. subst st.
  destruct (P _ _ _ _ _ K) as [y [Y C]]. destruct (matvec_inv AA x y E Y) as [xs' [ys [X [A ->]]]]. rewrite L, (fill_cut _ _ _ X) in H. injection H as <-. split; [exact (proj1 X)|]. exists ys. split; assumption.
Qed.
Lemma library_returns krylov AA bb M x0 x : length x = list_sum (map (@length Qc) x0) -> krylov (matvec AA) (concat bb) (option_map matvec M) (concat x0) = Ok (x, 0%Z) -> exists xs, library_solve krylov AA bb M x0 = Ok xs /\ concat xs = x.
Proof.
  intros L K. unfold library_solve. rewrite K. cbn [bind fst snd py_assert Z.eqb]. destruct (cut_exists _ _ L) as [xs C]. exists xs. split; [apply fill_cut; exact C|symmetry; exact (proj2 C)].
Qed.
