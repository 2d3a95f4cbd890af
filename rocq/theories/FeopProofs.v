(** Matrices of operators given by their action, and of rows: specification and lemmas (property C66) *)
From Verif Require Export FeopModel.
From Verif Require Import MatProofs FillProofs BaseProofs.
Local Close Scope Q_scope.
Local Close Scope Qc_scope.
Local Open Scope nat_scope.

(** ** Specification *)
(** The operator acts as the matrix [M] on the vectors of its second space *)
Definition acts_as (op : feop) (M : mat) : Prop :=
  nr M = dim0 op /\ nc M = dim1 op /\ forall x, length x = dim1 op -> exists y, action op x = Ok y /\ length y = nr M /\ forall i, i < nr M -> vnth y i = sumn (nc M) (fun k => (ent M i k * vnth x k)%Qc).
(** The entry of sparse storage: what is stored for the column between the pointers of the row *)
Definition csr_entry (A : csr) (i j : nat) : Qc :=
  let first := nth i (indptr A) 0 in
  sumn (nth (i + 1) (indptr A) 0 - first) (fun k => if nth (first + k) (indices A) 0 =? j then vnth (data A) (first + k) else 0%Qc).

(** ** Lemmas *)
(** The vector of which the action is column [i]: zeros, one, and what was there before *)
Lemma columns_values op M : acts_as op M -> forall n i x, length x = dim1 op -> i + n = dim1 op -> (forall k, k < i -> vnth x k = 0%Qc) ->
  exists cs, columns_from op n i x = Ok cs /\ length cs = n /\ forall j, j < n -> length (nth j cs []) = nr M /\ forall r, r < nr M -> vnth (nth j cs []) r = (ent M r (i + j) + sumn (nc M) (fun k => if i + j <? k then ent M r k * vnth x k else 0))%Qc.
Proof.
  intros [D0 [D1 Act]]. induction n as [|n IH]; intros i x L N Z; [exists []; repeat split; cbn in *; lia|]. cbn [columns_from].
  destruct (Act (set_nth x i q1)) as [y [Y [Ly Vy]]]; [rewrite set_nth_length; exact L|]. rewrite Y. cbn [bind].
  assert (E : forall k, vnth (set_nth (set_nth x i q1) i q0) k = if k =? i then q0 else vnth x k). { intros k. unfold vnth. rewrite nth_set_nth, set_nth_length, nth_set_nth. destruct (Nat.eqb_spec k i) as [->|]; cbn [andb]; [|reflexivity]. destruct (Nat.ltb_spec i (length x)); [reflexivity|lia]. }
  destruct (IH (i + 1) (set_nth (set_nth x i q1) i q0)) as [cs [C [Lc Vc]]]; [rewrite !set_nth_length; exact L|lia| |].
  { intros k Hk. rewrite E. destruct (Nat.eqb_spec k i); [reflexivity|apply Z; lia]. }
  rewrite C. exists (y :: cs). split; [reflexivity|]. split; [cbn; lia|]. intros [|j] Hj; cbn [nth].
  - split; [exact Ly|]. intros r Hr. rewrite (Vy r Hr), Nat.add_0_r. rewrite (sumn_ext (nc M) _ (fun k => ((if k =? i then ent M r i else 0) + (if i <? k then ent M r k * vnth x k else 0))%Qc)).
    + rewrite sumn_plus. f_equal. rewrite (sumn_single _ i); [rewrite Nat.eqb_refl; reflexivity|lia|]. intros k Hk Nk. destruct (Nat.eqb_spec k i); [congruence|reflexivity].
    + intros k Hk. unfold vnth at 1. rewrite nth_set_nth. fold (vnth x k). destruct (Nat.eqb_spec k i) as [->|Nk]; cbn [andb].
      * replace (i <? length x) with true by (symmetry; apply Nat.ltb_lt; lia). rewrite Nat.ltb_irrefl. unfold q1. ring.
      * destruct (Nat.ltb_spec i k); [ring|]. rewrite Z by lia. ring.
  - destruct (Vc j) as [Lj Vj]; [lia|]. split; [exact Lj|]. intros r Hr. rewrite (Vj r Hr). replace (i + S j) with (i + 1 + j) by lia. f_equal. apply sumn_ext. intros k Hk. destruct (Nat.ltb_spec (i + 1 + j) k) as [Hlt|]; [|reflexivity]. rewrite E. destruct (Nat.eqb_spec k i); [lia|reflexivity].
Qed.
Lemma columns_error op : forall n i x cs, columns_from op n i x = Ok cs -> length cs = n.
Proof.
  induction n as [|n IH]; intros i x cs H; [injection H as <-; reflexivity|]. cbn [columns_from] in H. destruct (action op _) as [c|]; [cbn [bind] in H|discriminate]. destruct (columns_from op n _ _) as [cs'|] eqn:C; [cbn [bind] in H|discriminate]. injection H as <-. cbn. rewrite (IH _ _ _ C). reflexivity.
Qed.
Lemma collapse_values op M : acts_as op M -> length (stale op) = dim1 op -> dim1 op <> 0 ->
  exists A, collapse op None = Ok (A, Some A) /\ nr A = nr M /\ nc A = nc M /\ forall r j, r < nr M -> j < nc M -> ent A r j = (ent M r j + sumn (nc M) (fun k => if j <? k then ent M r k * vnth (stale op) k else 0))%Qc.
Proof.
  intros H L N. destruct (columns_values op M H (dim1 op) 0 (stale op) L eq_refl) as [cs [C [Lc V]]]; [lia|]. destruct H as [D0 [D1 _]]. unfold collapse. rewrite C. cbn [bind]. destruct cs as [|c cs]; [cbn in Lc; lia|]. unfold vstack.
  assert (Lr : length c = nr M) by (apply (V 0); lia).
  replace (forallb (fun x => length x =? length c) (c :: cs)) with true. 2: { symmetry. apply forallb_forall. intros x X. destruct (In_nth _ _ [] X) as [j [Hj <-]]. apply Nat.eqb_eq. rewrite Lr. apply V. rewrite <- Lc. exact Hj. }
  cbn [bind]. eexists. split; [reflexivity|]. cbn [mtr nr nc ent of_rows]. rewrite Lc, Lr. split; [reflexivity|split; [symmetry; exact D1|]]. intros r j Hr Hj. rewrite D1 in Hj. destruct (V j Hj) as [_ Vj]. exact (Vj r Hr).
Qed.
(** *** Rows *)
Lemma unpack_sizes_ok sizes n : unpack_sizes sizes = Ok n <-> sizes <> [] /\ forall s, In s sizes -> s = n.
Proof.
  unfold unpack_sizes. pose proof (NoDup_nodup Nat.eq_dec sizes) as N. pose proof (nodup_In Nat.eq_dec sizes) as I. destruct (nodup Nat.eq_dec sizes) as [|x [|y l]] eqn:E.
  - split; [intros [=]|]. intros [Nn _]. destruct sizes as [|a xs]; [congruence|]. destruct (proj2 (I a)). left. reflexivity.
  - split.
    + intros H. injection H as ->. split; [intros ->; discriminate E|]. intros s S. apply I in S. destruct S as [<- | []]. reflexivity.
    + intros [_ S]. f_equal. apply S, I. left. reflexivity.
  - split; [intros [=]|]. intros [_ S]. inversion N as [|? ? Nx _]; subst. exfalso. apply Nx. rewrite (S x), (S y); [left; reflexivity| |]; apply I; [right; left|left]; reflexivity.
Qed.
Lemma cumsum_nth n m : forall acc i, i < m -> nth i (cumsum acc (repeat n m)) 0 = acc + (i + 1) * n.
Proof. induction m as [|m IH]; intros acc i Hi; [lia|]. cbn [repeat cumsum]. destruct i as [|i]; cbn [nth]; [lia|]. rewrite IH by lia. lia. Qed.
Lemma indptr_nth n m i : i <= m -> nth i (0 :: cumsum 0 (repeat n m)) 0 = i * n.
Proof. intros H. cbn [cumsum]. destruct i as [|i]; cbn [nth]; [reflexivity|]. rewrite cumsum_nth by lia. lia. Qed.
Lemma nth_concat_same {X} n (ls : list (list X)) d : (forall l, In l ls -> length l = n) -> forall i k, i < length ls -> k < n -> nth (i * n + k) (concat ls) d = nth k (nth i ls []) d.
Proof.
  induction ls as [|l ls IH]; intros L i k Hi Hk; [cbn in Hi; lia|]. cbn [concat]. assert (Ll : length l = n) by (apply L; left; reflexivity). destruct i as [|i]; cbn [nth].
  - rewrite app_nth1 by lia. reflexivity.
  - rewrite app_nth2 by lia. replace (S i * n + k - length l) with (i * n + k) by lia. apply IH; [intros x X'; apply L; right; exact X'|cbn in Hi; lia|exact Hk].
Qed.
Lemma row_matrix_entries rows A : row_matrix rows = Ok A -> shape A = (length rows, length (nth 0 rows [])) /\ (forall row, In row rows -> length row = snd (shape A)) /\ forall i j, i < length rows -> j < snd (shape A) -> csr_entry A i j = vnth (nth i rows []) j.
Proof.
  unfold row_matrix. destruct (unpack_sizes _) as [n|] eqn:U; [cbn [bind]|discriminate]. intros H. injection H as <-. cbn [shape snd]. apply unpack_sizes_ok in U. destruct U as [Ne S].
  assert (L : forall row, In row rows -> length row = n) by (intros row R; apply S, in_map, R).
  split; [|split; [exact L|]].
  - destruct rows as [|r rows]; [cbn in Ne; congruence|]. cbn [nth]. rewrite (L r) by (left; reflexivity). reflexivity.
  - intros i j Hi Hj. unfold csr_entry. cbv zeta. cbn [indptr indices data]. rewrite (indptr_nth n (length rows) i) by lia. rewrite (indptr_nth n (length rows) (i + 1)) by lia. replace ((i + 1) * n - i * n) with n by lia. rewrite (sumn_single _ j).
    + rewrite (nth_concat_same n) by (try (rewrite repeat_length; exact Hi); try exact Hj; intros l I; apply repeat_spec in I; subst; apply seq_length).
      assert (Q : nth i (repeat (seq 0 n) (length rows)) [] = seq 0 n) by (apply (repeat_spec (length rows)), nth_In; rewrite repeat_length; exact Hi). rewrite Q, seq_nth, Nat.eqb_refl by exact Hj.
      unfold vnth. apply nth_concat_same; [exact L|exact Hi|exact Hj].
    + exact Hj.
    + intros k Hk Nk. rewrite (nth_concat_same n) by (try (rewrite repeat_length; exact Hi); try exact Hk; intros l I; apply repeat_spec in I; subst; apply seq_length).
      assert (Q : nth i (repeat (seq 0 n) (length rows)) [] = seq 0 n) by (apply (repeat_spec (length rows)), nth_In; rewrite repeat_length; exact Hi). rewrite Q, seq_nth by exact Hk. destruct (Nat.eqb_spec (0 + k) j); [lia|reflexivity].
Qed.
