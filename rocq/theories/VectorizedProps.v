(** Property C65: one operator for all components of a space *)
From Verif Require Import VectorizedModel VectorizedProofs.
Local Close Scope Q_scope.
Local Close Scope Qc_scope.
Local Open Scope nat_scope.

(** What was constructed for a space applies the matrix to each component, whatever the working
    array holds *)
Theorem C65_partial : forall op W A ix work b, vectorize op W = Ok (A, ix) -> partitioned W (nr A) -> length work = wdim W -> length b = wdim W ->
  exists x, vectorized_matvec W (A, ix) work b = Ok (x, x) /\ componentwise W A b x.
Proof. exact matvec_spec. Qed.
Print Assumptions C65_partial.

(** So do products one after the other *)
Theorem C65_sequence : forall op W A ix, vectorize op W = Ok (A, ix) -> partitioned W (nr A) -> forall bs work, length work = wdim W -> (forall b, In b bs -> length b = wdim W) ->
  exists xs, products W (A, ix) work bs = Ok xs /\ Forall2 (componentwise W A) bs xs.
Proof. exact products_spec. Qed.
Print Assumptions C65_sequence.

(** The components are all there is: they determine the product *)
Theorem C65_unique : forall op W A ix b x y, vectorize op W = Ok (A, ix) -> partitioned W (nr A) -> componentwise W A b x -> componentwise W A b y -> x = y.
Proof.
  intros op W A ix b x y H P. apply vectorize_ok in H. destruct H as [A' [_ [R [_ [_ [E D]]]]]]. injection R as <- _. rewrite <- E in D. exact (componentwise_unique W A b x y P D).
Qed.
Print Assumptions C65_unique.

(** Accepted are square matrices whose size is that of one of the components, which are of one
    element *)
Theorem C65_accepted : forall op W r, vectorize op W = Ok r <->
  exists A, op = OpMat A /\ r = (A, component_dofs W) /\ component_dofs W <> [] /\ (elements W <> [] /\ forall a b, In a (elements W) -> In b (elements W) -> a = b) /\ nr A = nc A /\ wdim W = nc A * length (component_dofs W).
Proof. exact vectorize_ok. Qed.
Print Assumptions C65_accepted.

(** With a list of spaces nothing is constructed; not with equal dimensions and a matrix
    of their size *)
Theorem C65_list_refuted : forall op dims,
  (exists e, vectorize_list op dims = Err e) /\
  (forall A n, dims <> [] -> (forall d, In d dims -> d = n) -> op = OpMat A -> vectorize_list op dims = Err UnboundLocalError).
Proof.
  intros op dims. unfold vectorize_list. split.
  - destruct (unpack_set dims) as [s|e]; [|exists e; reflexivity]. cbn [bind]. destruct (get_dims op) as [[m n]|]; eexists; reflexivity.
  - intros A n N E ->. destruct (proj2 (unpack_set_ok dims)) as [s S]; [split; [exact N|intros a b Ha Hb; rewrite (E a Ha), (E b Hb); reflexivity]|]. rewrite S. reflexivity.
Qed.
Print Assumptions C65_list_refuted.

(** The diagonal matrix has the matrices on the diagonal and zeros elsewhere, so each block is
    multiplied by its matrix *)
Theorem C65_diagonal : forall D : list mat,
  length (block_diag_mat D) = length D /\
  (forall i, i < length D -> length (nth i (block_diag_mat D) []) = length D) /\
  (forall i j, i < length D -> j < length D -> nth j (nth i (block_diag_mat D) []) None = if i =? j then nth_error D i else None) /\
  (forall xs i r, i < length D -> row_product (nth i (block_diag_mat D) []) xs (length D) r = vnth (mv (nth i D (mzero 0 0)) (nth i xs [])) r).
Proof. intros D. destruct (block_diag_spec D) as [A [B C]]. split; [exact A|split; [exact B|split; [exact C|]]]. intros xs i r. apply block_diag_product. Qed.
Print Assumptions C65_diagonal.

(** Non-vacuity: two components, of which the dofs alternate, and a matrix that is not symmetric *)
Definition ex_W : space := {| wdim := 4; elements := [7; 7]; component_dofs := [[0; 2]; [1; 3]] |}.
Definition ex_A : mat := of_rows 2 2 [[qz 1; qz 2]; [qz 0; qz 3]].
Example C65_example :
  vectorize (OpMat ex_A) ex_W = Ok (ex_A, [[0; 2]; [1; 3]]) /\ partitioned ex_W 2 /\
  vectorized_matvec ex_W (ex_A, [[0; 2]; [1; 3]]) [qz 9; qz 9; qz 9; qz 9] [qz 1; qz 10; qz 2; qz 20] = Ok ([qz 5; qz 50; qz 6; qz 60], [qz 5; qz 50; qz 6; qz 60]) /\
  vectorize_list (OpMat ex_A) [2; 2] = Err UnboundLocalError /\ vectorize_list (OpMat ex_A) [2; 3] = Err ValueError /\
  vectorize (OpMat ex_A) {| wdim := 4; elements := [7; 8]; component_dofs := [[0; 2]; [1; 3]] |} = Err ValueError.
Proof.
  split; [reflexivity|]. split; [|split; [vm_compute; reflexivity|split; [reflexivity|split; reflexivity]]].
  split; [|split]; cbn.
  - intros index [<- | [<- | []]]; reflexivity.
  - repeat constructor; cbn; lia.
  - lia.
Qed.
