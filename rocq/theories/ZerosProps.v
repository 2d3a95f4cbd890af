(** Property C136: zero block forms *)
From Coq Require Import Lia.
From Verif Require Import Base BaseProofs ZerosModel ZerosProofs.

(** The zeros are nested as the spaces exactly if no list is empty and none has both spaces and lists *)
Theorem C136_mirror_partial : forall V, zeros V = Ok (mirror V) <-> regular V.
Proof. intros V. split; [apply mirror_regular | apply regular_mirror]. Qed.
Print Assumptions C136_mirror_partial.

(** A space is the list of it; the only exception is that of the empty list *)
Theorem C136_returns : zeros Space = zeros (Spaces [Space]) /\ forall V e, zeros V = Err e <-> V = Spaces [] /\ e = StopIteration.
Proof. split; [reflexivity | exact zeros_err]. Qed.
Print Assumptions C136_returns.

(** Spaces or lists in a list with both are lost or counted twice, and what comes after an empty list is dropped *)
Theorem C136_mirror_refuted : 
  zeros (Spaces [Space; Spaces [Space; Space]]) = Ok (Nest [Zero; Zero]) /\
  zeros (Spaces [Spaces [Space]; Space]) = Ok (Nest [Nest [Zero]; Nest [Zero]]) /\
  forall l l', l <> [] -> Forall regular l -> zeros (Spaces (l ++ Spaces [] :: l')) = Ok (Nest (map mirror l)).
Proof.
  split; [reflexivity |]. split; [reflexivity |]. intros l l' Hl HF. destruct l as [| V l]; [congruence |].
  assert (exists x, V = Spaces x) as [x ->]. { inversion HF as [| ? ? HV _]; subst. inversion HV; subst; eauto. }
  cbn [app]. rewrite zeros_lists. rewrite app_comm_cons. assert (U : until_stop ((Spaces x :: l) ++ Spaces [] :: l') = Ok (map mirror (Spaces x :: l))).
  { revert HF. generalize (Spaces x :: l). clear. induction l as [| V l IH]; intros HF; [reflexivity |]. inversion HF; subst. cbn [app until_stop map]. rewrite (regular_mirror V) by assumption. rewrite IH by assumption. reflexivity. }
  rewrite U. reflexivity.
Qed.
Print Assumptions C136_mirror_refuted.

(** With two arguments there is a zero for each pair of spaces *)
Theorem C136_pairs : forall V Q k data, regular V -> regular Q -> zeros2 V Q = Ok (k, data) ->
  length data = count V * count Q /\ product k = count V * count Q /\ (forall a, In a data -> a = 0) /\
  forall s t, shape (mirror V) = Ok s -> shape (mirror Q) = Ok t -> length k = Nat.max (length s) (length t).
Proof.
  intros V Q k data HV HQ E. unfold zeros2 in E. rewrite (regular_mirror V HV), (regular_mirror Q HQ) in E. cbn [bind] in E.
  destruct (shape (mirror V)) as [s |] eqn:S; cbn [bind] in E; [| discriminate]. destruct (shape (mirror Q)) as [t |] eqn:T; cbn [bind] in E; [| discriminate].
  injection E as <- <-. destruct (kron_product s t) as [P L]. fold (product (kron_shape s t)). rewrite repeat_length, P, (shape_product _ _ S), (shape_product _ _ T), !count_mirror.
  split; [reflexivity |]. split; [reflexivity |]. split; [intros a Ha; apply repeat_spec in Ha; exact Ha |].
  intros s' t' E1 E2. injection E1 as <-. injection E2 as <-. exact L.
Qed.
Print Assumptions C136_pairs.

(** With a list of m spaces in the second place the last length is multiplied *)
Theorem C136_shape : forall V s n m, regular V -> 0 < m -> shape (mirror V) = Ok (s ++ [n]) ->
  exists data, zeros2 V (Spaces (repeat Space m)) = Ok (s ++ [n * m], data).
Proof.
  intros V s n m HV Hm S. unfold zeros2. rewrite (regular_mirror V HV), (regular_mirror _ (regular_spaces m Hm)). cbn [bind]. rewrite S. cbn [bind mirror]. rewrite mirror_spaces, shape_zeros by exact Hm. cbn [bind].
  replace (kron_shape (s ++ [n]) [m]) with (s ++ [n * m]); [eexists; reflexivity |]. unfold kron_shape. rewrite app_length. cbn [length].
  replace (Nat.max (length s + 1) 1) with (length s + 1) by lia. replace (length s + 1 - (length s + 1)) with 0 by lia. replace (length s + 1 - 1) with (length s) by lia. cbn [repeat app].
  clear S. induction s as [| a s IH]; [reflexivity |]. cbn [length repeat app combine map fst snd]. rewrite IH. f_equal. lia.
Qed.
Print Assumptions C136_shape.

(** ... but for lists of n and m spaces they are a vector, not a matrix, and lists of different length raise *)
Theorem C136_rank_refuted : forall n m, 0 < n -> 0 < m ->
  zeros2 (Spaces (repeat Space n)) (Spaces (repeat Space m)) = Ok ([n * m], repeat 0 (n * m)) /\
  forall k Q, n <> k -> 0 < k -> regular Q -> zeros2 (Spaces [Spaces (repeat Space n); Spaces (repeat Space k)]) Q = Err ValueError.
Proof.
  intros n m Hn Hm. assert (A : forall n, 0 < n -> zeros (Spaces (repeat Space n)) = Ok (Nest (repeat Zero n))).
  { intros i Hi. rewrite (regular_mirror _ (regular_spaces i Hi)). cbn [mirror]. rewrite mirror_spaces. reflexivity. }
  split.
  - unfold zeros2. rewrite !A by assumption. cbn [bind]. rewrite !shape_zeros by assumption. cbn [bind]. unfold kron_shape. cbn. rewrite Nat.mul_1_r. reflexivity.
  - intros k Q Hk Hk0 HQ. unfold zeros2. assert (R : regular (Spaces [Spaces (repeat Space n); Spaces (repeat Space k)])).
    { apply regular_lists; [discriminate |]. repeat constructor; assumption. }
    rewrite (regular_mirror _ R), (regular_mirror _ HQ). cbn [bind]. change (mirror (Spaces [Spaces (repeat Space n); Spaces (repeat Space k)])) with (Nest [Nest (map mirror (repeat Space n)); Nest (map mirror (repeat Space k))]).
    rewrite !mirror_spaces, shape_nest. unfold same. rewrite !shape_zeros by assumption. cbn [bind]. destruct (list_eq_dec Nat.eq_dec [n] [k]) as [E | _]; [congruence | reflexivity].
Qed.
Print Assumptions C136_rank_refuted.

(** The lines 56-61 of the file *)
Example C136_ex : let V := Space in let l2 := Spaces [V; V] in let l32 := Spaces [Spaces [V; V; V]; l2] in
  regular l32 /\ zeros l32 = Ok (Nest [Nest [Zero; Zero; Zero]; Nest [Zero; Zero]]) /\
  zeros2 V V = Ok ([1], [0]) /\ zeros2 l2 V = Ok ([2], [0; 0]) /\ zeros2 (Spaces [l2; l2]) l2 = Ok ([2; 4], repeat 0 8) /\ zeros2 l32 l2 = Err ValueError.
Proof.
  cbv zeta. split; [| repeat split]. apply regular_lists; [discriminate |]. constructor; [apply (regular_spaces 3); lia |]. constructor; [apply (regular_spaces 2); lia | constructor].
Qed.
