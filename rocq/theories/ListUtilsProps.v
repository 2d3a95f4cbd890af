(** Properties C01 and C02. *)
From Verif Require Import Base ListUtilsModel ListUtilsProofs.

(** C01: the block object has the shape of the input and each block is the
    assembly of the form at the same multi-index; block_vec for flat lists,
    block_mat otherwise. *)
Theorem C01_assemble_in_place :
  forall (A B : Type) (f : A -> res B) (g : A -> B) (s : list nat) (t : tree A) (fuel : nat),
  s <> [] -> rect s t -> (forall a, In a (leaves t) -> f a = Ok (g a)) -> 2 <= fuel ->
  exists out,
    assemble f fuel t = Ok (if length s =? 1 then BlockVec out else BlockMat out)
    /\ rect s out
    /\ forall idx, get out idx = option_map (fun a => Tensor (g a)) (get t idx).
Proof. exact @assemble_in_place. Qed.
Print Assumptions C01_assemble_in_place.

(** C01: if assembling some form raises, the exception is that of the first
    failing form in row-major order. *)
Theorem C01_assemble_first_error :
  forall (A B : Type) (f : A -> res B) (fuel : nat) (s : list nat) (t : tree A)
         (pre : list A) (a : A) (post : list A) (e : exn) (g : A -> B),
  s <> [] -> rect s t -> leaves t = pre ++ a :: post ->
  (forall x, In x pre -> f x = Ok (g x)) -> f a = Err e ->
  assemble f (S (S fuel)) t = Err e.
Proof. exact @assemble_rect_err. Qed.
Print Assumptions C01_assemble_first_error.

(** C01: ragged lists are rejected with AssertionError, the empty list with
    TypeError, and no other non-rectangular list is accepted. *)
Theorem C01_assemble_ragged :
  forall (A B : Type) (f : A -> res B) (fuel : nat) (t : tree A),
  ragged t -> assemble f (S fuel) t = Err AssertionError.
Proof. exact @assemble_ragged. Qed.
Print Assumptions C01_assemble_ragged.

Theorem C01_assemble_empty :
  forall (A B : Type) (f : A -> res B) (fuel : nat),
  assemble f (S fuel) (Node []) = Err TypeError.
Proof. exact @assemble_empty. Qed.
Print Assumptions C01_assemble_empty.

Theorem C01_assemble_accepts_only_rectangular :
  forall (A B : Type) (f : A -> res B) (l : list (tree A)),
  (forall s, ~ rect s (Node l)) -> forall fuel, exists e, assemble f fuel (Node l) = Err e.
Proof. exact @assemble_not_rect. Qed.
Print Assumptions C01_assemble_accepts_only_rectangular.

(** C02. *)
Theorem C02_reshape_row_major :
  forall (A : Type) (s : list nat) (t : tree A) (shape : list nat),
  s <> [] -> rect s t ->
  (shape = [] -> reshape_list t shape = Err TypeError) /\
  (shape <> [] -> prod_shape s <> prod_shape shape -> reshape_list t shape = Err AssertionError) /\
  (shape <> [] -> prod_shape s = prod_shape shape ->
   exists t', reshape_list t shape = Ok t' /\ rect shape t' /\
     (forall idx, length idx = length shape -> Forall2 lt idx shape ->
        get t' idx = nth_error (leaves t) (linear_index shape idx)) /\
     reshape_list t' s = Ok t).
Proof. exact @reshape_spec. Qed.
Print Assumptions C02_reshape_row_major.

(** The row-major enumeration is the one defined by multi-indices. *)
Theorem C02_row_major_meaning :
  forall (A : Type) (s : list nat) (t : tree A) (idx : list nat),
  rect s t -> length idx = length s -> Forall2 lt idx s ->
  get t idx = nth_error (leaves t) (linear_index s idx) /\ linear_index s idx < prod_shape s.
Proof. exact (fun A s t idx => @get_linear A s t idx). Qed.
Print Assumptions C02_row_major_meaning.

(** Non-vacuity: a 2x3 block form, a ragged one, and a reshape. *)
Definition ex23 : tree nat := Node [Node [Leaf 1; Leaf 2; Leaf 3]; Node [Leaf 4; Leaf 5; Leaf 6]].

Example C01_hyps : [2; 3] <> [] /\ rect [2; 3] ex23
  /\ (forall a, In a (leaves ex23) -> (fun x => if x <? 9 then Ok (x * 10) else Err ValueError) a = Ok (a * 10)).
Proof.
  split; [discriminate|]. split.
  - exists [Node [Leaf 1; Leaf 2; Leaf 3]; Node [Leaf 4; Leaf 5; Leaf 6]].
    repeat split; [cbn; lia|]. constructor; [|constructor; [|constructor]].
    + exists [Leaf 1; Leaf 2; Leaf 3]. repeat split; [cbn; lia|]. repeat constructor; eexists; reflexivity.
    + exists [Leaf 4; Leaf 5; Leaf 6]. repeat split; [cbn; lia|]. repeat constructor; eexists; reflexivity.
  - cbn. intros a H. repeat (destruct H as [<-|H]; [reflexivity|]). contradiction.
Qed.

Example C01_runs : assemble (fun x => Ok (x * 10)) 2 ex23 =
  Ok (BlockMat (Node [Node [Leaf (Tensor 10); Leaf (Tensor 20); Leaf (Tensor 30)];
                      Node [Leaf (Tensor 40); Leaf (Tensor 50); Leaf (Tensor 60)]])).
Proof. reflexivity. Qed.

Example C01_ragged_hyp : ragged (Node [Node [Leaf 1; Leaf 2]; Node [Leaf 3]]).
Proof.
  apply (ragged_here [Node [Leaf 1; Leaf 2]; Node [Leaf 3]]
           (Node [Leaf 1; Leaf 2]) (Node [Leaf 3]) [2] [1]).
  - left; reflexivity.
  - right; left; reflexivity.
  - exists [Leaf 1; Leaf 2]. repeat split; [lia|]. repeat constructor; eexists; reflexivity.
  - exists [Leaf 3]. repeat split; [lia|]. repeat constructor; eexists; reflexivity.
  - discriminate.
Qed.

Example C01_not_rect_hyp : forall s, ~ rect s (Node [Node []; Leaf 1]).
Proof.
  intros [|n s]; [intros [a H]; discriminate|].
  intros (l & E & _ & _ & H). inversion E; subst. inversion H as [|? ? H1 H2]; subst.
  inversion H2 as [|? ? H3 _]; subst. destruct s as [|m s]; [destruct H1; discriminate|].
  destruct H3 as (l & E' & _). discriminate.
Qed.

Example C02_runs : reshape_list ex23 [3; 2] =
  Ok (Node [Node [Leaf 1; Leaf 2]; Node [Leaf 3; Leaf 4]; Node [Leaf 5; Leaf 6]])
  /\ reshape_list ex23 [4; 2] = Err AssertionError /\ reshape_list ex23 [0; 6] = Err AssertionError.
Proof. repeat split. Qed.
