(** Property C66: matrices of operators given by their action, and of rows *)
From Verif Require Import FeopModel FeopProofs MatProofs.
Local Close Scope Q_scope.
Local Close Scope Qc_scope.
Local Open Scope nat_scope.

(** The matrix is that of the action if the vector of the loop starts with zeros *)
Theorem C66_partial : forall op M, acts_as op M -> length (stale op) = dim1 op -> dim1 op <> 0 -> (forall k, vnth (stale op) k = 0%Qc) ->
  exists A, collapse op None = Ok (A, Some A) /\ meq A M.
Proof.
  intros op M H L N Z. destruct (collapse_values op M H L N) as [A [C [R [K V]]]]. exists A. split; [exact C|]. split; [exact R|split; [exact K|]]. intros i j Hi Hj. rewrite R in Hi. rewrite K in Hj. rewrite (V i j Hi Hj). rewrite (sumn_zero (nc M)); [unfold q0; ring|]. intros k _. destruct (j <? k); [rewrite Z; unfold q0; ring|reflexivity].
Qed.
Print Assumptions C66_partial.

(** With a vector that was used before, what is left of it adds later columns to a column *)
Theorem C66_values : forall op M, acts_as op M -> length (stale op) = dim1 op -> dim1 op <> 0 ->
  exists A, collapse op None = Ok (A, Some A) /\ nr A = nr M /\ nc A = nc M /\ forall r j, r < nr M -> j < nc M -> ent A r j = (ent M r j + sumn (nc M) (fun k => if j <? k then ent M r k * vnth (stale op) k else 0))%Qc.
Proof. exact collapse_values. Qed.
Print Assumptions C66_values.

(** So the matrix of the identity is wrong if any entry but the first is left *)
Theorem C66_refuted : forall n s k, 1 <= k -> k < n -> length s = n -> vnth s k <> 0%Qc ->
  let op := {| dim0 := n; dim1 := n; stale := s; action := fun x => Ok x |} in
  acts_as op (mid n) /\ exists A, collapse op None = Ok (A, Some A) /\ ~ meq A (mid n).
Proof.
  intros n s k K1 Kn L Z op. assert (H : acts_as op (mid n)).
  { split; [reflexivity|split; [reflexivity|]]. intros x Lx. exists x. split; [reflexivity|]. split; [exact Lx|]. intros i Hi. cbn [nr nc mid mdiag ent] in *. rewrite (sumn_single _ i); [rewrite Nat.eqb_refl; unfold q1; ring|exact Hi|]. intros j Hj Nj. destruct (Nat.eqb_spec i j); [congruence|unfold q0; ring]. }
  split; [exact H|]. destruct (collapse_values op (mid n) H L) as [A [C [R [Q V]]]]; [cbn; lia|]. exists A. split; [exact C|]. intros [_ [_ E]]. assert (R' : nr A = n) by exact R. assert (Q' : nc A = n) by exact Q.
  specialize (E k (k - 1)). rewrite R', Q' in E. specialize (E Kn). rewrite (V k (k - 1)) in E by (cbn; lia). cbn [ent mid mdiag nc] in E. destruct (Nat.eqb_spec k (k - 1)) as [|_]; [lia|]. specialize (E ltac:(lia)). apply Z.
  rewrite (sumn_single _ k) in E; [|exact Kn|].
  - rewrite Nat.eqb_refl in E. replace (k - 1 <? k) with true in E by (symmetry; apply Nat.ltb_lt; lia). cbn [stale op] in E. transitivity (q0 + q1 * vnth s k)%Qc; [unfold q0, q1; ring|exact E].
  - intros j Hj Nj. destruct (k - 1 <? j); [|reflexivity]. destruct (Nat.eqb_spec k j); [congruence|]. unfold q0. ring.
Qed.
Print Assumptions C66_refuted.

(** The matrix is computed once: then it is what was stored; without columns there is none, and what
    the action raises is raised *)
Theorem C66_cached : forall op,
  (forall A, collapse op (Some A) = Ok (A, Some A)) /\
  (forall A c, collapse op None = Ok (A, c) -> c = Some A /\ forall op', collapse op' c = Ok (A, c)) /\
  (dim1 op = 0 -> collapse op None = Err ValueError) /\
  (forall e, dim1 op <> 0 -> action op (set_nth (stale op) 0 q1) = Err e -> collapse op None = Err e).
Proof.
  intros op. split; [reflexivity|]. split; [|split].
  - intros A c H. unfold collapse in H. destruct (columns_from op _ _ _) as [cs|]; [cbn [bind] in H|discriminate]. destruct (vstack cs) as [M|]; [cbn [bind] in H|discriminate]. injection H as <- <-. split; reflexivity.
  - intros Z. unfold collapse. rewrite Z. reflexivity.
  - intros e N H. unfold collapse. destruct (dim1 op) as [|n]; [congruence|]. cbn [columns_from]. rewrite H. reflexivity.
Qed.
Print Assumptions C66_cached.

(** The matrix of rows has these rows; rows of different sizes, or none, are refused *)
Theorem C66_rows : forall rows,
  (forall A, row_matrix rows = Ok A -> shape A = (length rows, length (nth 0 rows [])) /\ (forall row, In row rows -> length row = snd (shape A)) /\ forall i j, i < length rows -> j < snd (shape A) -> csr_entry A i j = vnth (nth i rows []) j) /\
  (rows <> [] -> (forall row, In row rows -> length row = length (nth 0 rows [])) -> exists A, row_matrix rows = Ok A) /\
  (rows = [] \/ (exists r s, In r rows /\ In s rows /\ length r <> length s) -> row_matrix rows = Err ValueError).
Proof.
  intros rows. split; [exact (row_matrix_entries rows)|]. split.
  - intros N E. unfold row_matrix. rewrite (proj2 (unpack_sizes_ok (map (@length Qc) rows) (length (nth 0 rows [])))); [eexists; reflexivity|]. split; [destruct rows; [congruence|discriminate]|]. intros s S. apply in_map_iff in S. destruct S as [row [<- R]]. apply E, R.
  - intros H. unfold row_matrix. destruct (unpack_sizes _) as [n|e] eqn:U.
    + exfalso. apply unpack_sizes_ok in U. destruct U as [U1 U2]. destruct H as [->|[r [s [R [S N]]]]]; [cbn in U1; congruence|]. apply N. rewrite (U2 (length r)), (U2 (length s)); [reflexivity| |]; apply in_map; assumption.
    + unfold unpack_sizes in U. destruct (nodup _ _) as [|? [|? ?]]; try discriminate; injection U as <-; reflexivity.
Qed.
Print Assumptions C66_rows.

(** Non-vacuity: a matrix of 2 rows and 3 columns by its action; a used vector *)
Definition ex_M : mat := of_rows 2 3 [[qz 1; qz 2; qz 3]; [qz 4; qz 5; qz 6]].
Definition ex_op (s : vec) : feop := {| dim0 := 2; dim1 := 3; stale := s; action := fun x => Ok (mv ex_M x) |}.
Lemma ex_acts s : acts_as (ex_op s) ex_M.
Proof. split; [reflexivity|split; [reflexivity|]]. intros x L. exists (mv ex_M x). split; [reflexivity|]. split; [apply mv_length|]. intros i Hi. apply vnth_mv. exact Hi. Qed.
Example C66_example :
  match collapse (ex_op [qz 0; qz 0; qz 0]) None with Ok (A, _) => to_rows A | Err _ => [] end = to_rows ex_M /\
  match collapse (ex_op [qz 0; qz 0; qz 1]) None with Ok (A, _) => to_rows A | Err _ => [] end = [[qz 4; qz 5; qz 3]; [qz 10; qz 11; qz 6]] /\
  row_matrix [[qz 1; qz 2]; [qz 3; qz 4]] = Ok {| indptr := [0; 2; 4]; indices := [0; 1; 0; 1]; data := [qz 1; qz 2; qz 3; qz 4]; shape := (2, 2) |} /\
  row_matrix [[qz 1; qz 2]; [qz 3]] = Err ValueError.
Proof. repeat split; vm_compute; reflexivity. Qed.
