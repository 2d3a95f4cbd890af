(** Collapsing an expression by rewriting its graph (property C56) *)
From Verif Require Import IterProofs IterLoopProofs IterSoundProofs CollapseProofs BaseProofs.
From Coq Require Import Permutation.

(** What is returned is the value of the expression, for every order of the trees, if no
    operator occurs twice, an address holds one matrix and names tell addresses apart *)
Theorem C56_partial : forall str order fuel fresh e v,
  (forall a m a' m', str a m = str a' m' -> a = a') -> (forall l, Permutation (order l) l) ->
  from_blocks e -> NoDup (ids e) -> (forall i, In i (ids e) -> i < fresh) -> one_memory e -> (forall a m, In (a, m) (matrices e) -> a < fresh) ->
  collapse_iter str order fuel fresh e = Ok v -> oeq (Some (value v)) (den tiny (forget e)).
Proof. exact collapse_iter_sound. Qed.

(** An expression of matrices of fitting sizes is collapsed *)
Theorem C56_returns : forall str order e M fresh,
  (forall a m a' m', str a m = str a' m' -> a = a') -> (forall l, Permutation (order l) l) ->
  of_matrices e -> NoDup (ids e) -> (forall i, In i (ids e) -> i < fresh) -> den tiny (forget e) = Some (VMat M) ->
  exists n, forall fuel, n <= fuel -> exists a m, collapse_iter str order fuel fresh e = Ok (OMat a m) /\ meq m M.
Proof. exact collapse_iter_right. Qed.

(** A block system is collapsed block by block *)
Theorem C56_blocks : forall str order fuel fresh b r, collapse_blocks str order fuel fresh b = Ok r ->
  length r = length b /\ forall i, i < length b -> length (nth i r []) = length (nth i b []) /\
  forall j, j < length (nth i b []) -> collapse_iter str order fuel fresh (nth j (nth i b []) (INum q0)) = Ok (nth j (nth i r []) (ONum q0)).
Proof.
  assert (G : forall A B (f : A -> res B) l r da db, mapM f l = Ok r -> length r = length l /\ forall i, i < length l -> f (nth i l da) = Ok (nth i r db)).
  { intros A B f l. induction l as [|a l IH]; intros r da db E; [injection E as <-; split; [reflexivity|cbn; lia]|]. rewrite mapM_cons in E. destruct (f a) as [x|] eqn:EX; [|discriminate E]. cbn [bind] in E. destruct (mapM f l) as [xs|] eqn:EXS; [|discriminate E]. injection E as <-. destruct (IH xs da db eq_refl) as [L N]. split; [cbn; congruence|]. intros [|i] LT; [exact EX|]. apply N. cbn in LT. lia. }
  intros str order fuel fresh b r E. unfold collapse_blocks in E. destruct (G _ _ _ b r [] [] E) as [L N]. split; [exact L|]. intros i LT. specialize (N i LT). destruct (G _ _ _ _ _ (INum q0) (ONum q0) N) as [L' N']. auto.
Qed.

(** The same operator used twice *)
Theorem C56_shared_refuted : exists e M, of_matrices e /\ one_memory e /\ den tiny (forget e) = Some (VMat M) /\
  forall str order fuel fresh, (forall l, Permutation (order l) l) -> 5 <= fuel -> collapse_iter str order fuel fresh e = Err TypeError.
Proof.
  set (A := mid 2). set (X := IOp 0 KTr [IMat 0 A]). exists (IOp 1 KAdd [X; X]), (madd (mtr A) (mtr A)). split; [repeat constructor|]. split; [|split; [reflexivity|]].
  - intros a m m' [E|[E|[]]] [E'|[E'|[]]]; congruence.
  - intros str order fuel fresh OP LF. do 5 (destruct fuel as [|fuel]; [lia|]). unfold collapse_iter, X. cbn [expr2graph two_children get_children bind link b_stack b_fresh b_edges b_terms b_count add_edge src dst fst snd node_eqb kind_eqb andb Nat.eqb assign rounds].
    match goal with |- context [collapsable_trees ?g] => let t := eval cbn in (collapsable_trees g) in change (collapsable_trees g) with t end.
    match goal with |- context [order [?t]] => pose proof (Permutation_length_1_inv (Permutation_sym (OP [t]))) as E; rewrite E end. reflexivity.
Qed.
(** One matrix plus zero, twice: both sums have the name of the matrix *)
Theorem C56_zero_refuted : exists e M, from_blocks e /\ NoDup (ids e) /\ one_memory e /\ den tiny (forget e) = Some (VMat M) /\
  forall fuel, 6 <= fuel -> collapse_iter (fun a _ => a) (fun l => l) fuel 3 e = Err TypeError.
Proof.
  set (A := mid 2). exists (IOp 2 KAdd [IOp 0 KAdd [IMat 0 A; INum q0]; IOp 1 KAdd [IMat 0 A; INum q0]]), (madd A A). split; [repeat constructor|]. split; [repeat constructor; cbn; intuition congruence|]. split; [|split; [reflexivity|]].
  - intros a m m' [E|[E|[]]] [E'|[E'|[]]]; congruence.
  - intros fuel LF. do 6 (destruct fuel as [|fuel]; [lia|]). vm_compute. reflexivity.
Qed.
(** A product that ends in two numbers *)
Theorem C56_numbers_refuted : exists e M, from_blocks e /\ NoDup (ids e) /\ one_memory e /\ den tiny (forget e) = Some (VMat M) /\
  forall str order fuel, (forall l, Permutation (order l) l) -> 4 <= fuel -> collapse_iter str order fuel 1 e = Err ValueError.
Proof.
  set (A := mid 2). exists (IOp 0 KMul [IMat 0 A; INum (qz 2); INum (qz 3)]), (mscale (qz 2 * qz 3) A). split; [constructor; [cbn; lia| |]|].
  - intros e [<- |[<- |[<- |[]]]]; constructor.
  - intros e [<- |[<- |[<- |[]]]]; cbn; tauto.
  - split; [repeat constructor; intros []|]. split; [intros a m m' [E|[]] [E'|[]]; congruence|]. split; [reflexivity|].
    intros str order fuel OP LF. do 4 (destruct fuel as [|fuel]; [lia|]). unfold collapse_iter. cbn [expr2graph two_children get_children bind link b_stack b_fresh b_edges b_terms b_count add_edge src dst fst snd node_eqb kind_eqb andb Nat.eqb assign rounds flat_map ichain_of app].
    match goal with |- context [collapsable_trees ?g] => let t := eval cbn in (collapsable_trees g) in change (collapsable_trees g) with t end.
    match goal with |- context [order [?t]] => pose proof (Permutation_length_1_inv (Permutation_sym (OP [t]))) as E; rewrite E end. reflexivity.
Qed.
(** An operator of another kind: the loop does not end *)
Theorem C56_endless_refuted : forall str order fuel fresh id, (forall l, Permutation (order l) l) -> collapse_iter str order fuel fresh (IOp id KNone []) = Err OutOfFuel.
Proof.
  intros str order fuel fresh id OP. unfold collapse_iter. destruct fuel as [|[|fuel]]; [reflexivity|reflexivity|]. cbn [expr2graph two_children get_children bind link b_stack b_fresh b_edges b_terms b_count].
  assert (R : forall n terms fr, rounds str order n [] terms fr = Err OutOfFuel). { induction n as [|n IH]; intros terms fr; [reflexivity|]. cbn [rounds]. change (collapsable_trees []) with (@nil tree). rewrite (Permutation_nil (Permutation_sym (OP []))). cbn [one_round bind]. apply IH. }
  rewrite R. reflexivity.
Qed.
(** Names that tell only sizes apart: a wrong matrix *)
Theorem C56_names_refuted : exists e M, of_matrices e /\ NoDup (ids e) /\ one_memory e /\ den tiny (forget e) = Some (VMat M) /\
  forall fuel, 10 <= fuel -> exists a m, collapse_iter (fun _ m => 10 * nr m + nc m) (fun l => l) fuel 9 e = Ok (OMat a m) /\ ~ meq m M.
Proof.
  set (A := Mat 1 1 (fun _ _ => qz 2)). set (B := Mat 1 1 (fun _ _ => qz 5)). set (u := Mat 1 3 (fun _ _ => q1)). set (w := Mat 3 1 (fun _ _ => q1)).
  set (e := IOp 6 KMul [IOp 4 KAdd [IMat 1 u; IOp 2 KMul [IOp 0 KTr [IMat 0 A]; IMat 1 u]]; IOp 5 KAdd [IMat 3 w; IOp 3 KMul [IMat 3 w; IOp 1 KTr [IMat 2 B]]]]).
  set (U := madd u (mmul (mtr A) u)). set (W := madd w (mmul w (mtr B))).
  exists e, (mmul U W). split; [|split; [|split; [|split]]].
  - apply (om_mul 6 [] _ _); cbn.
    + intros x [<- |[<- |[]]] _; constructor; try constructor; [apply (om_mul 2 [] _ _)|apply (om_mul 3 [] _ _)]; cbn; try (intros y [<- |[<- |[]]]; cbn; try tauto; repeat constructor); tauto.
    + intros x [<- |[<- |[]]]; cbn; tauto.
    + tauto.
  - repeat constructor; cbn; intuition congruence.
  - intros a0 m1 m2. cbn. intuition congruence.
  - reflexivity.
  - intros fuel LF. do 10 (destruct fuel as [|fuel]; [lia|]). assert (R : match collapse_iter (fun _ m => 10 * nr m + nc m) (fun l => l) (S (S (S (S (S (S (S (S (S (S fuel)))))))))) 9 e with Ok (OMat _ m) => ent m 0 0 = qz 27 | _ => False end) by (vm_compute; reflexivity).
    destruct (collapse_iter _ _ _ _ _) as [[a m|q]|x]; [|destruct R|destruct R]. exists a, m. split; [reflexivity|]. intros [E1 [E2 Q]]. specialize (Q 0 0). rewrite E1, E2, R in Q. specialize (Q (le_n 1) (le_n 1)). apply (f_equal this) in Q. vm_compute in Q. discriminate Q.
Qed.
(** A product of a sum with a transpose, a number and a matrix *)
Definition ex_str (a : nat) (_ : mat) : nat := a.
Definition ex_expr : iexpr := IOp 0 KMul [IOp 1 KAdd [IMat 0 (mid 2); IOp 2 KTr [IMat 1 (Mat 2 2 (fun i j => qz (Z.of_nat (i + 2 * j))))]]; INum (qz 3); IMat 2 (mid 2)].
Example C56_example : (forall a m a' m', ex_str a m = ex_str a' m' -> a = a') /\ (forall l : list tree, Permutation (rev l) l) /\ of_matrices ex_expr /\ from_blocks ex_expr /\ NoDup (ids ex_expr) /\ (forall i, In i (ids ex_expr) -> i < 3) /\ one_memory ex_expr /\ (forall a m, In (a, m) (matrices ex_expr) -> a < 3) /\
  (exists M, den tiny (forget ex_expr) = Some (VMat M) /\ ent M 1 0 = qz 6) /\
  match collapse_iter ex_str (@rev tree) 20 3 ex_expr with Ok (OMat _ m) => ent m 1 0 = qz 6 /\ ent m 0 1 = qz 3 | _ => False end.
Proof.
  split; [auto|]. split; [intros l; apply Permutation_sym; apply Permutation_rev|]. split; [|split; [|split; [|split; [|split; [|split; [|split]]]]]].
  - apply (om_mul 0 [_] _ _); cbn; [intros e [<- |[<- |[<- |[]]]] N; [repeat constructor|destruct (N I)|constructor]|intros e [<- |[<- |[<- |[]]]]; cbn; tauto|tauto].
  - constructor; cbn; [lia|intros e [<- |[<- |[<- |[]]]]; repeat constructor|intros e [<- |[<- |[<- |[]]]]; cbn; tauto].
  - repeat constructor; cbn; intuition congruence.
  - cbn. intros i I. lia.
  - intros a m m'. cbn. intuition congruence.
  - cbn. intros a m J. destruct J as [E|[E|[E|[]]]]; injection E as <- _; lia.
  - eexists. split; [reflexivity|]. vm_compute. reflexivity.
  - vm_compute. split; reflexivity.
Qed.
Print Assumptions C56_partial.
Print Assumptions C56_returns.
Print Assumptions C56_blocks.
Print Assumptions C56_shared_refuted.
Print Assumptions C56_zero_refuted.
Print Assumptions C56_numbers_refuted.
Print Assumptions C56_endless_refuted.
Print Assumptions C56_names_refuted.
