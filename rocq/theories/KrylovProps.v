(** Property C64: solvers of other libraries for block systems *)
From Verif Require Import KrylovModel KrylovProofs MatProofs.
Local Close Scope Q_scope.
Local Close Scope Qc_scope.
Local Open Scope nat_scope.

(** The operator handed to the library acts on arrays as the block operator on blocks, if the
    rows and columns of the operator have the same sizes *)
Theorem C64_partial : forall op xs, rsizes op = csizes op -> strict op -> map (@length Qc) xs = csizes op ->
  (forall ys, act op xs = Ok ys -> matvec op (concat xs) = Ok (concat ys)) /\ (forall e, act op xs = Err e -> matvec op (concat xs) = Err e).
Proof. intros op xs E S L. rewrite (matvec_blocks op xs E S L). split; intros ? ->; reflexivity. Qed.
Print Assumptions C64_partial.

(** For a block matrix, this is the matrix with these blocks *)
Theorem C64_matrix : forall sizes A M x, fits sizes sizes A -> placed sizes sizes A M -> length x = list_sum sizes -> matvec (bmat_op sizes sizes A) x = Ok (mv M x).
Proof.
  intros sizes A M x F P L. destruct (cut_exists sizes x L) as [xs [C ->]]. rewrite (matvec_blocks (bmat_op sizes sizes A) xs eq_refl (bmat_strict _ _ _) C). destruct (bmat_acts sizes sizes A M xs F P C) as [ys [-> <-]]. reflexivity.
Qed.
Print Assumptions C64_matrix.

(** Arrays of another length are refused *)
Theorem C64_lengths : forall op x, length x <> list_sum (csizes op) -> matvec op x = Err ValueError.
Proof. intros op x N. unfold matvec, shape. cbn [snd]. apply Nat.eqb_neq in N. rewrite N. reflexivity. Qed.
Print Assumptions C64_lengths.

(** The working vector has the sizes of the rows: with other columns, the operator acts on
    nothing *)
Theorem C64_rectangular_refuted : forall op x, strict op -> rsizes op <> csizes op -> exists e, matvec op x = Err e.
Proof. exact rectangular_never. Qed.
Print Assumptions C64_rectangular_refuted.

(** What is returned solves the block system in the sense in which the solver does, in the blocks of
    the initial guess *)
Theorem C64_solution : forall close krylov AA bb M x0 xs, promises close krylov -> rsizes AA = csizes AA -> map (@length Qc) x0 = csizes AA -> library_solve krylov AA bb M x0 = Ok xs ->
  map (@length Qc) xs = csizes AA /\ exists ys, act AA xs = Ok ys /\ close (concat ys) (concat bb).
Proof. exact library_solution. Qed.
Print Assumptions C64_solution.

(** The solution of the solver comes back, cut in blocks; another status than 0 raises, as what the solver raises *)
Theorem C64_returns : forall krylov AA bb M x0,
  (forall x, length x = list_sum (map (@length Qc) x0) -> krylov (matvec AA) (concat bb) (option_map matvec M) (concat x0) = Ok (x, 0%Z) -> exists xs, library_solve krylov AA bb M x0 = Ok xs /\ concat xs = x) /\
  (forall x s, s <> 0%Z -> krylov (matvec AA) (concat bb) (option_map matvec M) (concat x0) = Ok (x, s) -> library_solve krylov AA bb M x0 = Err AssertionError) /\
  (forall e, krylov (matvec AA) (concat bb) (option_map matvec M) (concat x0) = Err e -> library_solve krylov AA bb M x0 = Err e).
Proof.
  intros krylov AA bb M x0. split; [|split].
  - intros x. apply library_returns.
  - intros x s N K. unfold library_solve. rewrite K. cbn [bind snd]. apply Z.eqb_neq in N. rewrite N. reflexivity.
  - intros e K. unfold library_solve. rewrite K. reflexivity.
Qed.
Print Assumptions C64_returns.

(** The list of residuals of scipy_solve has the norms of the iterates: whatever the norm, an iterate
    that solves the system and is not 0 is recorded with a residual that is not 0 *)
Theorem C64_residuals_refuted : forall (norm : vec -> Qc) A x b,
  (forall v, norm v = 0%Qc <-> forall i, i < length v -> vnth v i = 0%Qc) ->
  mv A x = b -> (exists i, i < length x /\ vnth x i <> 0%Qc) ->
  norm (vsub b (mv A x)) = 0%Qc /\ forall r, In r (scipy_residuals norm [x]) -> r <> 0%Qc.
Proof.
  intros norm A x b N <- [i [Hi Nz]]. split.
  - apply N. unfold vsub. intros k Hk. rewrite vtab_length in Hk. rewrite vnth_vtab by exact Hk. ring.
  - intros r [<- | []] Z. apply Nz. exact (proj1 (N x) Z i Hi).
Qed.
Print Assumptions C64_residuals_refuted.

(** The table of cbc.block: a class for each of the seven names, KeyError for another; 1 if there
    is no preconditioner *)
Theorem C64_cbc : forall (P : Type) (one : P) inverse AA bb x0,
  (forall M, cbc_solve one inverse M_other AA bb M x0 = Err KeyError) /\
  (forall M m cls, In (m, cls) [(M_lgmres, LGMRES); (M_cg, ConjGrad); (M_bicg, BiCGStab); (M_cgn, CGN); (M_symmlq, SymmLQ); (M_tfqmr, TFQMR); (M_minres, MinRes)] ->
     cbc_solve one inverse m AA bb (Some M) x0 = inverse cls AA M x0 bb /\ cbc_solve one inverse m AA bb None x0 = inverse cls AA one x0 bb).
Proof.
  intros P one inverse AA bb x0. split; [reflexivity|]. intros M m cls H. cbn [In] in H. repeat (destruct H as [H|H]; [injection H as <- <-; split; reflexivity|]). destruct H.
Qed.
Print Assumptions C64_cbc.

(** Non-vacuity: blocks of sizes 1 and 2; the system of Jacobi, which a solver that inverts the
    diagonal solves *)
Definition ex_A (i j : nat) : mat := if i =? j then (if i =? 0 then of_rows 1 1 [[qz 2]] else of_rows 2 2 [[qz 3; qz 0]; [qz 0; qz 4]]) else mzero (nth i [1; 2] 0) (nth j [1; 2] 0).
Definition ex_solver : solver := fun A b M x0 => let x := [qz 1; qz 2; qz 3] in do y <- A x; Ok (x, if forallb (fun i => qeqb (vnth y i) (vnth b i)) (seq 0 3) then 0%Z else 1%Z).
Example C64_example :
  fits [1; 2] [1; 2] ex_A /\ placed [1; 2] [1; 2] ex_A (of_rows 3 3 [[qz 2; qz 0; qz 0]; [qz 0; qz 3; qz 0]; [qz 0; qz 0; qz 4]]) /\
  library_solve ex_solver (bmat_op [1; 2] [1; 2] ex_A) [[qz 2]; [qz 6; qz 12]] None [[qz 0]; [qz 0; qz 0]] = Ok [[qz 1]; [qz 2; qz 3]] /\
  library_solve ex_solver (bmat_op [1; 2] [1; 2] ex_A) [[qz 2]; [qz 6; qz 13]] None [[qz 0]; [qz 0; qz 0]] = Err AssertionError /\
  promises (fun y b => forall i, i < 3 -> vnth y i = vnth b i) ex_solver.
Proof.
  split; [|split; [|split; [|split]]].
  - intros i j Hi Hj. cbn in Hi, Hj. destruct i as [|[|i]]; [| |lia]; (destruct j as [|[|j]]; [| |lia]); split; reflexivity.
  - split; [reflexivity|split; [reflexivity|]]. intros i r j c Hi Hr Hj Hc. cbn in Hi, Hj. destruct i as [|[|i]]; [| |lia]; (destruct j as [|[|j]]; [| |lia]); cbn in Hr, Hc; (destruct r as [|[|r]]; [| |lia]); (destruct c as [|[|c]]; [| |lia]); try lia; vm_compute; reflexivity.
  - vm_compute. reflexivity.
  - vm_compute. reflexivity.
  - intros A b M x0 x H. unfold ex_solver in H. destruct (A [qz 1; qz 2; qz 3]) as [y|] eqn:Y; [cbn [bind] in H|discriminate]. destruct (forallb _ _) eqn:F; [|discriminate]. injection H as <-. exists y. split; [exact Y|]. intros i Hi. rewrite forallb_forall in F. specialize (F i). unfold qeqb in F. destruct (Qc_eq_dec (vnth y i) (vnth b i)) as [E|]; [exact E|]. discriminate F. apply in_seq. lia.
Qed.
Example C64_wide : strict (bmat_op [1] [2] (fun _ _ => of_rows 1 2 [[qz 1; qz 1]])) /\ matvec (bmat_op [1] [2] (fun _ _ => of_rows 1 2 [[qz 1; qz 1]])) [qz 1; qz 2] = Err RuntimeError.
Proof. split; [apply bmat_strict|vm_compute; reflexivity]. Qed.
