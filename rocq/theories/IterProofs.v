(** Collapsing an expression by rewriting its graph: specification and lemmas (property C56) *)
From Verif Require Export IterModel.
From Verif Require Import CollapseProofs BaseProofs MatProofs.
From Coq Require Import Permutation.

(** ** Specification *)
(** The expression without identities, whose value [den] is *)
Fixpoint forget (e : iexpr) : expr :=
  match e with
  | IMat _ m => EMat m
  | INum q => ENum q
  | IOp _ KAdd [a; b] => EAdd (forget a) (forget b)
  | IOp _ KSub [a; b] => ESub (forget a) (forget b)
  | IOp _ KTr [a] => ETr (forget a)
  | IOp _ KMul l => EMul (map forget l)
  | _ => EOther
  end.
(** Sums, differences, transposes and products of matrices; in a product numbers are
    allowed, but not for both of the last two factors; products are flat *)
Definition is_product (e : iexpr) : Prop := match e with IOp _ KMul _ => True | _ => False end.
Definition is_num (e : iexpr) : Prop := match e with INum _ => True | _ => False end.
Inductive of_matrices : iexpr -> Prop :=
| om_mat a m : of_matrices (IMat a m)
| om_add id a b : of_matrices a -> of_matrices b -> of_matrices (IOp id KAdd [a; b])
| om_sub id a b : of_matrices a -> of_matrices b -> of_matrices (IOp id KSub [a; b])
| om_tr id a : of_matrices a -> of_matrices (IOp id KTr [a])
| om_mul id l x y : (forall e, In e (l ++ [x; y]) -> ~ is_num e -> of_matrices e) -> (forall e, In e (l ++ [x; y]) -> ~ is_product e) -> ~ (is_num x /\ is_num y) -> of_matrices (IOp id KMul (l ++ [x; y])).
(** The identities of the operators, in all their occurrences *)
Fixpoint ids (e : iexpr) : list nat := match e with IOp id _ l => id :: flat_map ids l | _ => [] end.
Definition value (v : obj) : val := match v with OMat _ m => VMat m | ONum q => VNum q end.

(** ** Binary trees *)
Inductive bt := BT (l : nat) (v : obj) | BO (id : nat) (k : kind) (kids : list bt).
Definition nodeof (t : bt) : node := match t with BT l _ => NLab l | BO id k _ => NOp id k end.
Definition kids (t : bt) : list bt := match t with BT _ _ => [] | BO _ _ l => l end.
Fixpoint evb (t : bt) : option val :=
  match t with
  | BT _ v => Some (value v)
  | BO _ KAdd [a; b] => obind (evb a) (fun u => obind (evb b) (vadd_ tiny u))
  | BO _ KSub [a; b] => obind (evb a) (fun u => obind (evb b) (vsub_ u))
  | BO _ KMul [a; b] => omul (evb a) (evb b)
  | BO _ KTr [a] => option_map vtr (evb a)
  | _ => None
  end.
Fixpoint bsize (t : bt) : nat := match t with BT _ _ => 0 | BO _ _ l => S (list_sum (map bsize l)) end.
Lemma bsize_kid t c : In c (kids t) -> bsize c < bsize t.
Proof. destruct t as [l v|id k l]; cbn; [tauto|]. intros I. apply in_split in I. destruct I as [l1 [l2 ->]]. rewrite map_app, list_sum_app. cbn [map list_sum fold_right]. pose proof (list_sum_app [bsize c] (map bsize l2)) as Q. cbn in Q. unfold list_sum in *. cbn [fold_right] in *. lia. Qed.
(** ** Nodes *)
Lemma node_eqb_spec a b : reflect (a = b) (node_eqb a b).
Proof.
  apply iff_reflect. destruct a as [i k|i|i|p], b as [j l|j|j|q]; cbn; try (split; [discriminate|discriminate]).
  - split; [intros E; injection E as -> ->; rewrite Nat.eqb_refl; destruct l; reflexivity|]. intros E. apply andb_prop in E. destruct E as [E K]. apply Nat.eqb_eq in E. subst. destruct k, l; (reflexivity || discriminate K).
  - rewrite Nat.eqb_eq. split; [intros E; congruence|intros ->; reflexivity].
  - rewrite Nat.eqb_eq. split; [intros E; congruence|intros ->; reflexivity].
  - unfold qeqb. destruct (Qc_eq_dec p q) as [-> |N]; [tauto|]. split; [intros E; congruence|discriminate].
Qed.
Lemma node_eqb_refl a : node_eqb a a = true.
Proof. destruct (node_eqb_spec a a); congruence. Qed.
Lemma lookup_assign n v t n' : lookup n' (assign n v t) = if node_eqb n n' then Ok v else lookup n' t.
Proof.
  induction t as [|[m w] t IH]; cbn; [destruct (node_eqb n n'); reflexivity|]. destruct (node_eqb_spec m n) as [-> |N]; cbn.
  - destruct (node_eqb n n'); reflexivity.
  - rewrite IH. destruct (node_eqb_spec m n') as [-> |N']; [|reflexivity]. destruct (node_eqb_spec n n'); [congruence|reflexivity].
Qed.
Lemma add_edge_new p c i g : (forall j, ~ In (p, c, j) g) -> add_edge p c i g = g ++ [(p, c, i)].
Proof.
  induction g as [|[[p' c'] j] g IH]; intros N; cbn [add_edge app]; [reflexivity|]. unfold src, dst. cbn [fst snd]. destruct (node_eqb_spec p' p) as [-> |P]; cbn [andb].
  - destruct (node_eqb_spec c' c) as [-> |C]; [exfalso; apply (N j); cbn; auto|]. rewrite IH; [reflexivity|]. intros k K. apply (N k). cbn. auto.
  - rewrite IH; [reflexivity|]. intros k K. apply (N k). cbn. auto.
Qed.
(** ** Building the graph *)
Definition is_op (e : iexpr) : bool := match e with IOp _ _ _ => true | _ => false end.
Definition op_node (e : iexpr) : node := match e with IOp id k _ => NOp id k | _ => NLab 0 end.
Fixpoint cnodes (cnt : nat) (ch : list iexpr) : list node :=
  match ch with [] => [] | IOp id k _ :: ch' => NOp id k :: cnodes cnt ch' | _ :: ch' => NLab cnt :: cnodes (S cnt) ch' end.
Fixpoint number {A} (p : node) (i : nat) (l : list A) (f : A -> node) : list edge := match l with [] => [] | a :: l' => (p, f a, i) :: number p (S i) l' f end.
Fixpoint leaves (ch : list iexpr) : nat := match ch with [] => 0 | IOp _ _ _ :: ch' => leaves ch' | _ :: ch' => S (leaves ch') end.
Fixpoint mk (cnt : nat) (ch : list iexpr) (ts : list bt) : list bt :=
  match ch with
  | [] => []
  | IMat a m :: ch' => BT cnt (OMat a m) :: mk (S cnt) ch' ts
  | INum q :: ch' => BT cnt (ONum q) :: mk (S cnt) ch' ts
  | IOp _ _ _ :: ch' => match ts with t :: ts' => t :: mk cnt ch' ts' | [] => [] end
  end.
Definition edges1 (t : bt) : list edge := number (nodeof t) 0 (kids t) nodeof.
Lemma number_In {A} p (f : A -> node) l : forall i e, In e (number p i l f) <-> exists j a, nth_error l j = Some a /\ e = (p, f a, i + j).
Proof.
  induction l as [|a l IH]; intros i e; cbn.
  - split; [tauto|]. intros [j [a [H _]]]. destruct j; discriminate H.
  - rewrite IH. split.
    + intros [<- |[j [b [H ->]]]]; [exists 0, a; split; [reflexivity|]; f_equal; lia|exists (S j), b; split; [exact H|]; f_equal; lia].
    + intros [[|j] [b [H ->]]]; [left; injection H as ->; f_equal; lia|right; exists j, b; split; [exact H|]; f_equal; lia].
Qed.
Lemma number_map {A B} p (f : A -> node) (g : B -> node) l l' : map f l = map g l' -> forall i, number p i l f = number p i l' g.
Proof. revert l'. induction l as [|a l IH]; intros [|b l'] E i; try discriminate E; [reflexivity|]. injection E as E1 E2. cbn. rewrite E1, (IH l' E2). reflexivity. Qed.
Lemma link_spec p ch : forall i b, NoDup (cnodes (b_count b) ch) -> (forall c j, In c (cnodes (b_count b) ch) -> ~ In (p, c, j) (b_edges b)) -> (forall k v, In (NLab k, v) (b_terms b) -> k < b_count b) ->
  let b' := link p i ch b in
  b_edges b' = b_edges b ++ number p i (cnodes (b_count b) ch) (fun n => n) /\ b_count b' = b_count b + leaves ch /\ b_fresh b' = b_fresh b /\ b_stack b' = rev (filter is_op ch) ++ b_stack b /\
  (forall n, (forall k, n = NLab k -> k < b_count b) -> lookup n (b_terms b') = lookup n (b_terms b)) /\ (forall k v, In (NLab k, v) (b_terms b') -> k < b_count b') /\
  (forall ts l v, length ts = length (filter is_op ch) -> (forall t, In t ts -> exists id k l, t = BO id k l) -> In (BT l v) (mk (b_count b) ch ts) -> lookup (NLab l) (b_terms b') = Ok v /\ b_count b <= l < b_count b') /\
  forall n v, lookup n (b_terms b') = Ok v -> lookup n (b_terms b) = Ok v \/ exists l, n = NLab l /\ forall ts, length ts = length (filter is_op ch) -> In (BT l v) (mk (b_count b) ch ts).
Proof.
  assert (AI : forall k v t w n, In (n, w) (assign (NLab k) v t) -> n = NLab k \/ In (n, w) t).
  { intros k v t w n. induction t as [|[m u] t IH]; cbn; [intros [E|[]]; injection E as <- _; auto|]. destruct (node_eqb_spec m (NLab k)) as [-> |N]; cbn; [intros [E|I]; [injection E as <- _; auto|auto]|intros [E|I]; [auto|destruct (IH I); auto]]. }
  induction ch as [|c ch IH]; intros i b ND NE TB; cbn [link].
  - cbn. rewrite app_nil_r, Nat.add_0_r. split; [reflexivity|]. split; [reflexivity|]. split; [reflexivity|]. split; [reflexivity|]. split; [reflexivity|]. split; [exact TB|]. split; [intros ts l v _ _ []|]. auto.
  - destruct c as [a m|q|id k l0].
    + set (b1 := {| b_edges := add_edge p (NLab (b_count b)) i (b_edges b); b_terms := assign (NLab (b_count b)) (OMat a m) (b_terms b); b_count := S (b_count b); b_fresh := b_fresh b; b_stack := b_stack b |}).
      cbn [cnodes] in ND, NE. inversion ND as [|x y N1 N2]; subst. assert (AE : b_edges b1 = b_edges b ++ [(p, NLab (b_count b), i)]) by (apply add_edge_new; intros j; apply NE; cbn; auto).
      destruct (IH (S i) b1) as [E1 [E2 [E3 [E4 [E5 [E6 [E7 E8]]]]]]].
      * exact N2.
      * intros c j C I. rewrite AE in I. apply in_app_iff in I. destruct I as [I|[I|[]]]; [revert I; apply NE; cbn; auto|]. injection I as E _. apply N1. rewrite E. exact C.
      * intros k v I. apply AI in I. destruct I as [E|I]; [injection E as ->; cbn; lia|]. apply TB in I. cbn. lia.
      * split; [rewrite E1, AE, <- app_assoc; reflexivity|]. split; [rewrite E2; cbn; lia|]. split; [exact E3|]. split; [exact E4|]. split; [|split; [exact E6|split]].
        -- intros n N. rewrite E5 by (intros k ->; specialize (N k eq_refl); cbn; lia). cbn [b1 b_terms]. rewrite lookup_assign. destruct (node_eqb_spec (NLab (b_count b)) n) as [<- |_]; [specialize (N _ eq_refl); lia|reflexivity].
        -- intros ts l v TL TO [I|I].
           ++ injection I as <- <-. split; [|rewrite E2; cbn; lia]. rewrite E5 by (intros k E; injection E as <-; cbn; lia). cbn [b1 b_terms]. rewrite lookup_assign, node_eqb_refl. reflexivity.
           ++ destruct (E7 ts l v TL TO I) as [A B]. split; [exact A|]. cbn in B. lia.
        -- intros n v L. destruct (E8 n v L) as [L'|[l [-> M]]]; [|right; exists l; split; [reflexivity|]; intros ts TL; right; exact (M ts TL)]. cbn [b1 b_terms] in L'. rewrite lookup_assign in L'. destruct (node_eqb_spec (NLab (b_count b)) n) as [<- |_]; [|auto]. injection L' as <-. right. exists (b_count b). split; [reflexivity|]. intros ts TL. left. reflexivity.
    + set (b1 := {| b_edges := add_edge p (NLab (b_count b)) i (b_edges b); b_terms := assign (NLab (b_count b)) (ONum q) (b_terms b); b_count := S (b_count b); b_fresh := b_fresh b; b_stack := b_stack b |}).
      cbn [cnodes] in ND, NE. inversion ND as [|x y N1 N2]; subst. assert (AE : b_edges b1 = b_edges b ++ [(p, NLab (b_count b), i)]) by (apply add_edge_new; intros j; apply NE; cbn; auto).
      destruct (IH (S i) b1) as [E1 [E2 [E3 [E4 [E5 [E6 [E7 E8]]]]]]].
      * exact N2.
      * intros c j C I. rewrite AE in I. apply in_app_iff in I. destruct I as [I|[I|[]]]; [revert I; apply NE; cbn; auto|]. injection I as E _. apply N1. rewrite E. exact C.
      * intros k v I. apply AI in I. destruct I as [E|I]; [injection E as ->; cbn; lia|]. apply TB in I. cbn. lia.
      * split; [rewrite E1, AE, <- app_assoc; reflexivity|]. split; [rewrite E2; cbn; lia|]. split; [exact E3|]. split; [exact E4|]. split; [|split; [exact E6|split]].
        -- intros n N. rewrite E5 by (intros k ->; specialize (N k eq_refl); cbn; lia). cbn [b1 b_terms]. rewrite lookup_assign. destruct (node_eqb_spec (NLab (b_count b)) n) as [<- |_]; [specialize (N _ eq_refl); lia|reflexivity].
        -- intros ts l v TL TO [I|I].
           ++ injection I as <- <-. split; [|rewrite E2; cbn; lia]. rewrite E5 by (intros k E; injection E as <-; cbn; lia). cbn [b1 b_terms]. rewrite lookup_assign, node_eqb_refl. reflexivity.
           ++ destruct (E7 ts l v TL TO I) as [A B]. split; [exact A|]. cbn in B. lia.
        -- intros n v L. destruct (E8 n v L) as [L'|[l [-> M]]]; [|right; exists l; split; [reflexivity|]; intros ts TL; right; exact (M ts TL)]. cbn [b1 b_terms] in L'. rewrite lookup_assign in L'. destruct (node_eqb_spec (NLab (b_count b)) n) as [<- |_]; [|auto]. injection L' as <-. right. exists (b_count b). split; [reflexivity|]. intros ts TL. left. reflexivity.
    + set (b1 := {| b_edges := add_edge p (NOp id k) i (b_edges b); b_terms := b_terms b; b_count := b_count b; b_fresh := b_fresh b; b_stack := IOp id k l0 :: b_stack b |}).
      cbn [cnodes] in ND, NE. inversion ND as [|x y N1 N2]; subst. assert (AE : b_edges b1 = b_edges b ++ [(p, NOp id k, i)]) by (apply add_edge_new; intros j; apply NE; cbn; auto).
      destruct (IH (S i) b1) as [E1 [E2 [E3 [E4 [E5 [E6 [E7 E8]]]]]]].
      * exact N2.
      * intros c j C I. rewrite AE in I. apply in_app_iff in I. destruct I as [I|[I|[]]]; [revert I; apply NE; cbn; auto|]. injection I as E _. apply N1. rewrite E. exact C.
      * exact TB.
      * split; [rewrite E1, AE, <- app_assoc; reflexivity|]. split; [rewrite E2; cbn; lia|]. split; [exact E3|]. split; [rewrite E4; cbn [filter is_op rev b1 b_stack]; rewrite <- app_assoc; reflexivity|]. split; [exact E5|]. split; [exact E6|]. split.
        -- intros ts l v TL TO I. cbn [filter is_op length] in TL. destruct ts as [|t ts]; [discriminate TL|]. cbn [mk] in I. destruct I as [I|I]; [destruct (TO t (or_introl eq_refl)) as [a [b0 [c E]]]; congruence|]. apply (E7 ts l v); [cbn in TL; lia|intros t' T'; apply TO; cbn; auto|exact I].
        -- intros n v L. destruct (E8 n v L) as [L'|[l [-> M]]]; [auto|right; exists l; split; [reflexivity|]]. intros ts TL. cbn [filter is_op length] in TL. destruct ts as [|t ts]; [discriminate TL|]. cbn [mk]. right. apply M. cbn in TL. lia.
Qed.

Definition d (e : iexpr) : option val := den tiny (forget e).
Definition evk (k : kind) (l : list (option val)) : option val :=
  match k, l with
  | KAdd, [a; b] => obind a (fun u => obind b (vadd_ tiny u))
  | KSub, [a; b] => obind a (fun u => obind b (vsub_ u))
  | KMul, [a; b] => omul a b
  | KTr, [a] => option_map vtr a
  | _, _ => None
  end.
Lemma evb_BO id k l : evb (BO id k l) = evk k (map evb l).
Proof. destruct k, l as [|a [|b [|c l]]]; reflexivity. Qed.
Definition is_matrix (v : option val) : Prop := exists M, v = Some (VMat M).
Definition mop (e : iexpr) : Prop := of_matrices e /\ is_op e = true /\ is_matrix (d e).
Fixpoint meas (e : iexpr) : nat := match e with IOp _ _ l => S (length l + list_sum (map meas l)) | _ => 0 end.
Lemma of_matrices_not_num e : of_matrices e -> ~ is_num e.
Proof. intros O. destruct O; cbn; tauto. Qed.
Lemma vmul_num_l q v w : vmul (VNum q) v = Some (VMat w) -> exists M, v = VMat M.
Proof. destruct v; cbn; [eauto|discriminate]. Qed.
(** A product that ends in two factors not both numbers is a matrix if each factor is a number or a matrix *)
Lemma oprod_matrix l x y : forall v, oprod (l ++ [x; y]) = Some v -> (is_matrix x \/ is_matrix y) -> exists M, v = VMat M.
Proof.
  induction l as [|a l IH]; intros v P [[M ->]|[M ->]].
  - cbn in P. destruct y as [[N|q]|]; cbn in P; try discriminate P; [destruct (nc M =? nr N); [|discriminate P]|]; injection P as <-; eauto.
  - cbn in P. destruct x as [[N|q]|]; cbn in P; try discriminate P; [destruct (nc N =? nr M); [|discriminate P]|]; injection P as <-; eauto.
  - assert (E : oprod ((a :: l) ++ [Some (VMat M); y]) = omul a (oprod (l ++ [Some (VMat M); y]))) by (destruct l; reflexivity). rewrite E in P. destruct (oprod (l ++ [Some (VMat M); y])) as [w|] eqn:Ew; [|destruct a; discriminate P]. destruct (IH w eq_refl (or_introl (ex_intro _ M eq_refl))) as [N ->]. destruct a as [[A|q]|]; cbn in P; try discriminate P; [destruct (nc A =? nr N); [|discriminate P]|]; injection P as <-; eauto.
  - assert (E : oprod ((a :: l) ++ [x; Some (VMat M)]) = omul a (oprod (l ++ [x; Some (VMat M)]))) by (destruct l; reflexivity). rewrite E in P. destruct (oprod (l ++ [x; Some (VMat M)])) as [w|] eqn:Ew; [|destruct a; discriminate P]. destruct (IH w eq_refl (or_intror (ex_intro _ M eq_refl))) as [N ->]. destruct a as [[A|q]|]; cbn in P; try discriminate P; [destruct (nc A =? nr N); [|discriminate P]|]; injection P as <-; eauto.
Qed.

Lemma is_num_dec e : is_num e \/ ~ is_num e.
Proof. destruct e; cbn; auto. Qed.
Lemma oprod_defined l : forall v, oprod l = Some v -> forall u, In u l -> exists w, u = Some w.
Proof.
  induction l as [|a l IH]; intros v P u I0; [destruct I0|]. destruct I0 as [<- |I].
  - destruct l; [eauto|]. cbn in P. destruct a; [eauto|discriminate P].
  - destruct l as [|b l]; [destruct I|]. destruct a as [a|]; [|discriminate P]. destruct (oprod (b :: l)) as [w|] eqn:E; [exact (IH w eq_refl u I)|]. cbn [oprod] in P, E. rewrite E in P. discriminate P.
Qed.
Lemma of_matrices_value e : of_matrices e -> forall v, d e = Some v -> exists M, v = VMat M.
Proof.
  unfold d. induction 1 as [a m|id a b A IA B IB|id a b A IA B IB|id a A IA|id l x y F IF NP XY]; intros v E; cbn [forget den] in E.
  - injection E as <-. eauto.
  - destruct (den tiny (forget a)) as [u|]; [|discriminate E]. destruct (den tiny (forget b)) as [w|]; [|discriminate E]. destruct (IA u eq_refl) as [M ->]. destruct (IB w eq_refl) as [N ->]. cbn in E. destruct (_ && _); [injection E as <-; eauto|discriminate E].
  - destruct (den tiny (forget a)) as [u|]; [|discriminate E]. destruct (den tiny (forget b)) as [w|]; [|discriminate E]. destruct (IA u eq_refl) as [M ->]. destruct (IB w eq_refl) as [N ->]. cbn in E. destruct (_ && _); [injection E as <-; eauto|discriminate E].
  - destruct (den tiny (forget a)) as [u|]; [|discriminate E]. destruct (IA u eq_refl) as [M ->]. injection E as <-. cbn. eauto.
  - rewrite map_map, map_app in E. cbn [map] in E.
    assert (D : forall e, In e [x; y] -> exists w, den tiny (forget e) = Some w). { intros e I. apply (oprod_defined _ v E). apply in_app_iff. right. destruct I as [<- |[<- |[]]]; cbn; auto. }
    apply (oprod_matrix _ _ _ v E). destruct (is_num_dec x) as [X|X].
    + right. assert (Y : ~ is_num y) by tauto. destruct (D y) as [w W]; [cbn; auto|]. destruct (IF y (in_or_app _ [x; y] y (or_intror (or_intror (or_introl eq_refl)))) Y w W) as [M ->]. exists M. exact W.
    + left. destruct (D x) as [w W]; [cbn; auto|]. destruct (IF x (in_or_app _ [x; y] x (or_intror (or_introl eq_refl))) X w W) as [M ->]. exists M. exact W.
Qed.
Lemma flat_same l : (forall e, In e l -> ~ is_product e) -> flat_map ichain_of l = l.
Proof. induction l as [|a l IH]; intros N; [reflexivity|]. cbn. rewrite IH by (intros e I; apply N; cbn; auto). specialize (N a (or_introl eq_refl)). destruct a as [| |id [] ch]; cbn in *; (reflexivity || tauto). Qed.
Lemma last_two {A} (c : A) rest l x y : c :: rest = l ++ [x; y] -> 2 <= length rest -> exists l', rest = l' ++ [x; y].
Proof. destruct l as [|a l]; intros E N; injection E as -> ->; [cbn in N; lia|eauto]. Qed.
Lemma list_sum_cons a l : list_sum (a :: l) = a + list_sum l.
Proof. reflexivity. Qed.
(** The children of an operator as they enter the graph *)
Lemma step fresh id k ch : mop (IOp id k ch) -> NoDup (flat_map ids ch) -> (forall i, In i (flat_map ids ch) -> i < fresh) ->
  exists ch', two_children fresh k (get_children (IOp id k ch)) = Ok ch' /\ d (IOp id k ch) = evk k (map d ch') /\ (forall c, In c ch' -> is_op c = true -> mop c) /\
  NoDup (flat_map ids ch') /\ (forall i, In i (flat_map ids ch') -> i = fresh \/ In i (flat_map ids ch)) /\ list_sum (map meas ch') < meas (IOp id k ch) /\ (k <> KMul -> forall c, In c ch' -> is_matrix (d c)).
Proof.
  intros [O [_ [M DM]]] ND LT. inversion O as [|i a b A B|i a b A B|i a A|i l x y F NP XY]; subst.
  - exists [a; b]. unfold d in *. cbn [forget den] in DM. split; [reflexivity|]. split; [reflexivity|].
    assert (V : is_matrix (den tiny (forget a)) /\ is_matrix (den tiny (forget b))). { destruct (den tiny (forget a)) as [u|] eqn:U; [|discriminate DM]. destruct (den tiny (forget b)) as [w|] eqn:W; [|discriminate DM]. destruct (of_matrices_value a A u U) as [P ->]. destruct (of_matrices_value b B w W) as [Q ->]. split; eexists; reflexivity. }
    split; [intros c [<- |[<- |[]]] Op; (split; [assumption|split; [exact Op|tauto]])|]. split; [exact ND|]. split; [auto|]. split; [cbn [meas length]; lia|]. intros _ c [<- |[<- |[]]]; tauto.
  - exists [a; b]. unfold d in *. cbn [forget den] in DM. split; [reflexivity|]. split; [reflexivity|].
    assert (V : is_matrix (den tiny (forget a)) /\ is_matrix (den tiny (forget b))). { destruct (den tiny (forget a)) as [u|] eqn:U; [|discriminate DM]. destruct (den tiny (forget b)) as [w|] eqn:W; [|discriminate DM]. destruct (of_matrices_value a A u U) as [P ->]. destruct (of_matrices_value b B w W) as [Q ->]. split; eexists; reflexivity. }
    split; [intros c [<- |[<- |[]]] Op; (split; [assumption|split; [exact Op|tauto]])|]. split; [exact ND|]. split; [auto|]. split; [cbn [meas length]; lia|]. intros _ c [<- |[<- |[]]]; tauto.
  - exists [a]. unfold d in *. cbn [forget den] in DM. split; [reflexivity|]. split; [reflexivity|].
    assert (V : is_matrix (den tiny (forget a))). { destruct (den tiny (forget a)) as [u|] eqn:U; [|discriminate DM]. destruct (of_matrices_value a A u U) as [P ->]. eexists; reflexivity. }
    split; [intros c [<- |[]] Op; (split; [assumption|split; [exact Op|tauto]])|]. split; [exact ND|]. split; [auto|]. split; [cbn [meas length]; lia|]. intros _ c [<- |[]]; tauto.
  - assert (DF : forall e, In e (l ++ [x; y]) -> exists w, d e = Some w). { intros e I. unfold d in *. cbn [forget den] in DM. rewrite map_map in DM. apply (oprod_defined _ _ DM). apply in_map_iff. eauto. }
    assert (MO : forall c, In c (l ++ [x; y]) -> is_op c = true -> mop c). { intros c I Op. assert (C : of_matrices c) by (apply F; [exact I|destruct c; cbn in *; auto; discriminate]). split; [exact C|]. split; [exact Op|]. destruct (DF c I) as [w W]. destruct (of_matrices_value c C w W) as [N ->]. exists N. exact W. }
    cbn [get_children]. destruct l as [|c l].
    + exists [x; y]. split; [reflexivity|]. split; [reflexivity|]. split; [exact MO|]. split; [exact ND|]. split; [auto|]. split; [cbn [meas length app]; lia|]. congruence.
    + set (rest := l ++ [x; y]) in *. change ((c :: l) ++ [x; y]) with (c :: rest) in *.
      assert (R2 : exists r1 r2 r3, rest = r1 :: r2 :: r3). { unfold rest. destruct l as [|? [|? ?]]; cbn; eauto. }
      assert (FR : flat_map ichain_of rest = rest) by (apply flat_same; intros e I; apply NP; cbn; auto).
      assert (DE : d (IOp id KMul (c :: rest)) = omul (d c) (d (IOp fresh KMul rest))). { unfold d. cbn [forget den map]. destruct R2 as [r1 [r2 [r3 ->]]]. reflexivity. }
      exists [c; IOp fresh KMul rest]. split; [|split; [|split; [|split; [|split; [|split]]]]].
      * unfold two_children. destruct R2 as [r1 [r2 [r3 R2]]]. rewrite R2 in *. rewrite FR. reflexivity.
      * exact DE.
      * intros e [<- |[<- |[]]] Op; [apply MO; cbn; auto|]. assert (C : of_matrices (IOp fresh KMul rest)) by (apply om_mul; [intros e I; apply F; cbn; auto|intros e I; apply NP; cbn; auto|exact XY]). split; [exact C|]. split; [reflexivity|]. rewrite DE in DM. destruct (d (IOp fresh KMul rest)) as [w|] eqn:W; [|destruct (d c); discriminate DM]. destruct (of_matrices_value _ C w W) as [N ->]. exists N. reflexivity.
      * cbn [flat_map ids] in ND |- *. rewrite app_nil_r. apply (Permutation_NoDup (l := fresh :: (ids c ++ flat_map ids rest))); [apply Permutation_middle|]. constructor; [|exact ND]. intros I. specialize (LT fresh I). lia.
      * intros i I. cbn [flat_map ids] in I |- *. rewrite app_nil_r in I. rewrite in_app_iff in *. cbn [In] in I. destruct I as [I|[I|I]]; auto.
      * cbn [meas map length]. rewrite !list_sum_cons. cbn [list_sum fold_right]. cbn [meas]. destruct R2 as [r1 [r2 [r3 ->]]]. cbn [length]. rewrite ?list_sum_cons. cbn [list_sum fold_right]. lia.
      * congruence.
Qed.
Lemma NoDup_app_i {A} (l1 l2 : list A) : NoDup l1 -> NoDup l2 -> (forall x, In x l1 -> ~ In x l2) -> NoDup (l1 ++ l2).
Proof. induction l1 as [|a l1 IH]; intros N1 N2 D; [exact N2|]. inversion N1 as [|x y X Y]; subst. cbn. constructor; [rewrite in_app_iff; intros [I|I]; [tauto|exact (D a (or_introl eq_refl) I)]|]. apply IH; [exact Y|exact N2|]. intros x I. apply D. cbn. auto. Qed.
Lemma NoDup_app_e {A} (l1 l2 : list A) : NoDup (l1 ++ l2) -> NoDup l1 /\ NoDup l2 /\ forall x, In x l1 -> ~ In x l2.
Proof.
  induction l1 as [|a l1 IH]; intros N; [split; [constructor|]; split; [exact N|]; intros x []|]. cbn in N. inversion N as [|x y X Y]; subst. destruct (IH Y) as [A1 [A2 A3]]. rewrite in_app_iff in X. split; [constructor; tauto|]. split; [exact A2|]. intros x [<- |I]; [tauto|exact (A3 x I)].
Qed.
Lemma cnodes_lab ch : forall cnt l, In (NLab l) (cnodes cnt ch) -> cnt <= l < cnt + leaves ch.
Proof. induction ch as [|[a m|q|id k l0] ch IH]; intros cnt l I; cbn in I |- *; [tauto| | |]; destruct I as [E|I]; try discriminate E; try (injection E as <-; lia); specialize (IH _ _ I); lia. Qed.
Lemma cnodes_op ch : forall cnt id k, In (NOp id k) (cnodes cnt ch) -> exists l, In (IOp id k l) ch.
Proof. induction ch as [|[a m|q|i k0 l0] ch IH]; intros cnt id k I; cbn in I |- *; [tauto| | |]; destruct I as [E|I]; try discriminate E; try (destruct (IH _ _ _ I) as [l L]; eauto; fail). injection E as <- <-. eauto. Qed.
Lemma cnodes_kind ch : forall cnt n, In n (cnodes cnt ch) -> (exists l, n = NLab l) \/ exists id k, n = NOp id k.
Proof. induction ch as [|[a m|q|i k0 l0] ch IH]; intros cnt n I; cbn in I; [tauto| | |]; destruct I as [<- |I]; eauto. Qed.
Lemma cnodes_NoDup ch : forall cnt, NoDup (flat_map ids ch) -> NoDup (cnodes cnt ch).
Proof.
  induction ch as [|[a m|q|id k l0] ch IH]; intros cnt ND; cbn [cnodes]; [constructor| | |].
  - constructor; [intros I; apply cnodes_lab in I; lia|apply IH; exact ND].
  - constructor; [intros I; apply cnodes_lab in I; lia|apply IH; exact ND].
  - cbn in ND. inversion ND as [|x y X Y]; subst. constructor; [|apply IH; apply NoDup_app_e in Y; tauto]. intros I. apply cnodes_op in I. destruct I as [l L]. apply X. apply in_app_iff. right. apply in_flat_map. exists (IOp id k l). split; [exact L|cbn; auto].
Qed.
Definition rel (e : iexpr) (t : bt) : Prop := (exists l, t = BO (match e with IOp i _ _ => i | _ => 0 end) (match e with IOp _ k _ => k | _ => KNone end) l) /\ nodeof t = op_node e /\ evb t = d e.
Lemma mk_spec ch : forall cnt ts, Forall2 rel (filter is_op ch) ts -> map nodeof (mk cnt ch ts) = cnodes cnt ch /\ map evb (mk cnt ch ts) = map d ch /\ forall t, In t (mk cnt ch ts) -> In t ts \/ exists l v, t = BT l v.
Proof.
  induction ch as [|[a m|q|id k l0] ch IH]; intros cnt ts F; cbn [mk cnodes map].
  - split; [reflexivity|]. split; [reflexivity|]. intros t [].
  - destruct (IH (S cnt) ts F) as [A [B C]]. rewrite A, B. split; [reflexivity|]. split; [reflexivity|]. intros t [<- |I]; [eauto|exact (C t I)].
  - destruct (IH (S cnt) ts F) as [A [B C]]. rewrite A, B. split; [reflexivity|]. split; [reflexivity|]. intros t [<- |I]; [eauto|exact (C t I)].
  - cbn [filter is_op] in F. inversion F as [|x t y ts' [R1 [R2 R3]] F']; subst. destruct (IH cnt ts' F') as [A [B C]]. cbn [map]. rewrite A, B, R2, R3. split; [reflexivity|]. split; [reflexivity|]. intros t' [<- |I]; [cbn; auto|]. destruct (C t' I); [cbn; auto|auto].
Qed.
Lemma F2_length {A B} (P : A -> B -> Prop) l l' : Forall2 P l l' -> length l = length l'.
Proof. induction 1; cbn; congruence. Qed.
Lemma mk_all ch : forall cnt ts, Forall2 rel (filter is_op ch) ts -> forall t, In t ts -> In t (mk cnt ch ts).
Proof.
  induction ch as [|[a m|q|id k l0] ch IH]; intros cnt ts F t I; cbn [mk filter is_op] in *.
  - inversion F; subst. destruct I.
  - right. apply IH; assumption.
  - right. apply IH; assumption.
  - inversion F as [|x t' y ts' R F']; subst. destruct I as [<- |I]; [left; reflexivity|right; apply IH; assumption].
Qed.
(** A tree that the loop can collapse *)
Definition okb (s : bt) : Prop := (exists id k l, s = BO id k l /\ evb s = evk k (map evb l) /\ (k <> KMul -> forall c, In c l -> is_matrix (evb c))) /\ is_matrix (evb s).
Definition kidnodes (S0 : list bt) : list node := flat_map (fun s => map nodeof (kids s)) S0.
Record built_from (okq : bt -> Prop) (es : list iexpr) (b b' : building) (ts S0 : list bt) : Prop := {
  bf_edges : b_edges b' = b_edges b ++ flat_map edges1 S0;
  bf_rel : Forall2 rel es ts;
  bf_keep : forall n, (forall k, n = NLab k -> k < b_count b) -> lookup n (b_terms b') = lookup n (b_terms b);
  bf_count : b_count b <= b_count b';
  bf_fresh : b_fresh b <= b_fresh b';
  bf_terms : forall s l v, In s S0 -> In (BT l v) (kids s) -> lookup (NLab l) (b_terms b') = Ok v;
  bf_labels : forall l, In (NLab l) (kidnodes S0) -> b_count b <= l < b_count b';
  bf_ids : forall i k, In (NOp i k) (kidnodes S0) -> In i (flat_map ids es) \/ b_fresh b <= i < b_fresh b';
  bf_all : forall t, In t ts -> In t S0;
  bf_closed : forall s c id k l, In s S0 -> In c (kids s) -> c = BO id k l -> In c S0;
  bf_parent : forall s, In s S0 -> In s ts \/ exists s', In s' S0 /\ In s (kids s');
  bf_ok : forall s, In s S0 -> okq s;
  bf_nodup : NoDup (map nodeof ts ++ kidnodes S0);
  bf_size : length S0 <= list_sum (map meas es);
  bf_from : forall n v, lookup n (b_terms b') = Ok v -> lookup n (b_terms b) = Ok v \/ exists s l, In s S0 /\ In (BT l v) (kids s) /\ n = NLab l
}.
Lemma rel_nodes es ts : Forall2 rel es ts -> map nodeof ts = map op_node es.
Proof. induction 1 as [|e t es ts [_ [R _]] F IH]; cbn; [reflexivity|]. rewrite R, IH. reflexivity. Qed.

Lemma meas_sum_app l1 l2 : list_sum (map meas (l1 ++ l2)) = list_sum (map meas l1) + list_sum (map meas l2).
Proof. rewrite map_app, list_sum_app. reflexivity. Qed.
Lemma meas_ops l : list_sum (map meas (rev (filter is_op l))) = list_sum (map meas l).
Proof.
  induction l as [|a l IH]; [reflexivity|]. destruct a as [b m|q|id k ch]; cbn [filter is_op]; [rewrite IH; reflexivity|rewrite IH; reflexivity|].
  cbn [rev]. rewrite meas_sum_app, IH. cbn [map]. rewrite !list_sum_cons. cbn [list_sum fold_right]. lia.
Qed.
Lemma ids_ops l : flat_map ids (filter is_op l) = flat_map ids l.
Proof. induction l as [|a l IH]; [reflexivity|]. destruct a as [b m|q|id k ch]; cbn [filter is_op flat_map ids app]; rewrite IH; reflexivity. Qed.
Lemma ids_rev l : Permutation (flat_map ids (rev l)) (flat_map ids l).
Proof. induction l as [|a l IH]; [constructor|]. cbn. rewrite flat_map_app. cbn. rewrite app_nil_r. etransitivity; [apply Permutation_app_comm|]. apply Permutation_app_head. exact IH. Qed.
Lemma number_src {A} p (f : A -> node) l : forall i e, In e (number p i l f) -> src e = p.
Proof. intros i e I. apply number_In in I. destruct I as [j [a [_ ->]]]. reflexivity. Qed.
Definition leafof (v : obj) : iexpr := match v with OMat a m => IMat a m | ONum q => INum q end.
Lemma mk_leaf ch : forall cnt ts, Forall2 rel (filter is_op ch) ts -> forall x v, In (BT x v) (mk cnt ch ts) -> In (leafof v) ch.
Proof.
  induction ch as [|[a m|q|id k l0] ch IH]; intros cnt ts F x v I; cbn [mk filter is_op] in *.
  - destruct I.
  - destruct I as [I|I]; [injection I as <- <-; left; reflexivity|right; exact (IH _ _ F x v I)].
  - destruct I as [I|I]; [injection I as <- <-; left; reflexivity|right; exact (IH _ _ F x v I)].
  - inversion F as [|y t' z ts' [[l E] _] F']; subst. destruct I as [I|I]; [discriminate I|right; exact (IH _ _ F' x v I)].
Qed.
(** What a class of operators needs for the graph to be built, and the trees [okq] that arise *)
Definition steps (good : iexpr -> Prop) (okq : bt -> Prop) : Prop := forall fresh id k ch, good (IOp id k ch) -> NoDup (flat_map ids ch) -> (forall i, In i (flat_map ids ch) -> i < fresh) ->
  exists ch', two_children fresh k (get_children (IOp id k ch)) = Ok ch' /\ d (IOp id k ch) = evk k (map d ch') /\ (forall c, In c ch' -> is_op c = true -> good c) /\
  NoDup (flat_map ids ch') /\ (forall i, In i (flat_map ids ch') -> i = fresh \/ In i (flat_map ids ch)) /\ list_sum (map meas ch') < meas (IOp id k ch) /\
  forall l, map evb l = map d ch' -> (forall x v, In (BT x v) l -> In (leafof v) ch') -> okq (BO id k l).
Section Build.
Variable good : iexpr -> Prop.
Variable okq : bt -> Prop.
Hypothesis good_op : forall e, good e -> is_op e = true.
Hypothesis good_steps : steps good okq.
Lemma build fuel : forall b, list_sum (map meas (b_stack b)) < fuel -> Forall good (b_stack b) -> NoDup (flat_map ids (b_stack b)) -> (forall i, In i (flat_map ids (b_stack b)) -> i < b_fresh b) ->
  (forall e i k, In e (b_edges b) -> src e = NOp i k -> i < b_fresh b /\ ~ In i (flat_map ids (b_stack b))) -> (forall k v, In (NLab k, v) (b_terms b) -> k < b_count b) ->
  exists b' ts S0, expr2graph fuel b = Ok b' /\ built_from okq (b_stack b) b b' ts S0.
Proof.
  induction fuel as [|fuel IH]; intros b MS MO ND LT SE TB; [lia|]. cbn [expr2graph]. destruct b as [ge te cnt fr st]. cbn [b_edges b_terms b_count b_fresh b_stack] in *. destruct st as [|e st].
  { exists {| b_edges := ge; b_terms := te; b_count := cnt; b_fresh := fr; b_stack := [] |}, [], []. split; [reflexivity|]. constructor; cbn; auto; try tauto; try (intros; contradiction). rewrite app_nil_r. reflexivity. constructor. }
  inversion MO as [|x y M1 M2]; subst. destruct e as [a m|q|id k ch]; [apply good_op in M1; discriminate M1|apply good_op in M1; discriminate M1|].
  cbn [flat_map ids app] in ND. inversion ND as [|x y N1 N2]; subst. destruct (NoDup_app_e _ _ N2) as [Nch [Nst Dis]].
  assert (LTc : forall i, In i (flat_map ids ch) -> i < fr) by (intros i I; apply LT; cbn; right; apply in_app_iff; auto).
  assert (Lid : id < fr) by (apply LT; cbn; auto).
  destruct (good_steps fr id k ch M1 Nch LTc) as [ch' [E1 [E2 [E3 [E4 [E5 [E6 E7]]]]]]]. rewrite E1. cbn [bind].
  set (b0 := {| b_edges := ge; b_terms := te; b_count := cnt; b_fresh := S fr; b_stack := st |}).
  destruct (link_spec (NOp id k) ch' 0 b0) as [L1 [L2 [L3 [L4 [L5 [L6 [L7 L8]]]]]]].
  { apply cnodes_NoDup. exact E4. }
  { intros c j C I. destruct (SE _ id k I eq_refl) as [_ N]. apply N. cbn. auto. }
  { exact TB. }
  set (b1 := link (NOp id k) 0 ch' b0) in *. cbn [b0 b_edges b_terms b_count b_fresh b_stack] in L1, L2, L3, L4, L5, L7, L8.
  assert (SI : forall i, In i (flat_map ids (b_stack b1)) <-> In i (flat_map ids ch') \/ In i (flat_map ids st)).
  { intros i. rewrite L4, flat_map_app, in_app_iff. assert (P : Permutation (flat_map ids (rev (filter is_op ch'))) (flat_map ids ch')) by (rewrite <- (ids_ops ch'); apply ids_rev). split; intros [I|I]; auto; left; [apply (Permutation_in _ P I)|apply (Permutation_in _ (Permutation_sym P) I)]. }
  assert (NotId : ~ In id (flat_map ids (b_stack b1))).
  { rewrite SI. intros [I|I]; [apply E5 in I; destruct I as [I|I]; [lia|]|]; apply N1; apply in_app_iff; auto. }
  destruct (IH b1) as [b' [ts' [S' [R BF]]]].
  { rewrite L4, meas_sum_app, meas_ops. cbn [map] in MS. rewrite list_sum_cons in MS. lia. }
  { rewrite L4. apply Forall_app. split; [|exact M2]. apply Forall_forall. intros c C. apply in_rev in C. apply filter_In in C. destruct C as [C Op]. exact (E3 c C Op). }
  { rewrite L4, flat_map_app. apply NoDup_app_i.
    - apply (Permutation_NoDup (Permutation_sym (ids_rev _))). rewrite ids_ops. exact E4.
    - exact Nst.
    - intros i I J. apply (Permutation_in _ (ids_rev _)) in I. rewrite ids_ops in I. apply E5 in I. destruct I as [-> |I]; [assert (fr < fr); [apply LT; cbn; right; apply in_app_iff; auto|lia]|exact (Dis i I J)]. }
  { intros i I. rewrite L3. apply SI in I. destruct I as [I|I]; [apply E5 in I; destruct I as [-> |I]; [lia|specialize (LTc i I); lia]|]. assert (i < fr); [apply LT; cbn; right; apply in_app_iff; auto|lia]. }
  { intros e i k0 I E. rewrite L3. rewrite L1 in I. apply in_app_iff in I. destruct I as [I|I].
    - destruct (SE e i k0 I E) as [A B]. split; [lia|]. rewrite SI. intros [J|J]; [apply E5 in J; destruct J as [-> |J]; [lia|]|]; apply B; cbn; right; apply in_app_iff; auto.
    - apply number_src in I. rewrite I in E. injection E as <- <-. split; [lia|exact NotId]. }
  { exact L6. }
  rewrite R. destruct BF as [Be Br Bk Bc Bf Bt Bl Bi Ba Bcl Bp Bo Bn Bs Bfr]. rewrite L4 in Br. apply Forall2_app_inv_l in Br. destruct Br as [tc [tr [Rc [Rr ->]]]].
  assert (Rc' : Forall2 rel (filter is_op ch') (rev tc)). { assert (G : forall l l', Forall2 rel l l' -> Forall2 rel (rev l) (rev l')). { clear. induction 1 as [|x y l l' H F IH]; cbn; [constructor|]. apply Forall2_app; [exact IH|]. constructor; [exact H|constructor]. } apply G in Rc. rewrite rev_involutive in Rc. exact Rc. }
  destruct (mk_spec ch' cnt (rev tc) Rc') as [K1 [K2 K3]].
  set (t := BO id k (mk cnt ch' (rev tc))).
  assert (TO : forall x, In x (rev tc) -> exists i k0 l, x = BO i k0 l). { intros x X. apply in_rev in X. clear - X Rc. induction Rc as [|e y l l' [[z ->] _] F IH]; [destruct X|]. destruct X as [<- |X]; [eauto|auto]. }
  assert (TRN : forall n, In n (map nodeof tr) -> exists i k0, n = NOp i k0 /\ In i (flat_map ids st)).
  { intros n I. rewrite (rel_nodes _ _ Rr) in I. apply in_map_iff in I. destruct I as [e [<- I]]. assert (O : is_op e = true) by (rewrite Forall_forall in M2; apply good_op; apply (M2 e I)). destruct e as [| |i k0 l]; try discriminate O. exists i, k0. split; [reflexivity|]. apply in_flat_map. exists (IOp i k0 l). split; [exact I|cbn; auto]. }
  assert (TCN : forall i k0 l, In (IOp i k0 l) ch' -> In (NOp i k0) (map nodeof tc)).
  { intros i k0 l I. rewrite (rel_nodes _ _ Rc), map_rev, <- in_rev. apply in_map_iff. exists (IOp i k0 l). split; [reflexivity|]. apply filter_In. split; [exact I|reflexivity]. }
  exists b', (t :: tr), (t :: S'). split; [reflexivity|]. constructor; cbn [b_edges b_terms b_count b_fresh b_stack].
  - rewrite Be, L1, <- app_assoc. f_equal. cbn [flat_map]. f_equal. unfold edges1. cbn [t nodeof kids]. apply number_map. rewrite map_id. symmetry. exact K1.
  - constructor; [|exact Rr]. split; [eexists; reflexivity|]. split; [reflexivity|]. unfold t. rewrite evb_BO, K2. symmetry. exact E2.
  - intros n N. rewrite Bk; [apply L5; exact N|]. intros j ->. specialize (N j eq_refl). lia.
  - lia.
  - lia.
  - intros s l v [<- |I] K; [|exact (Bt s l v I K)]. cbn [t kids] in K. destruct (L7 (rev tc) l v) as [A B]; [symmetry; exact (F2_length _ _ _ Rc')|exact TO|exact K|]. rewrite Bk; [exact A|]. intros j E. injection E as <-. lia.
  - intros l I. cbn [kidnodes flat_map t kids] in I. apply in_app_iff in I. destruct I as [I|I]; [rewrite K1 in I; apply cnodes_lab in I; lia|]. specialize (Bl l I). lia.
  - intros i k0 I. cbn [kidnodes flat_map t kids] in I. apply in_app_iff in I. destruct I as [I|I].
    + rewrite K1 in I. apply cnodes_op in I. destruct I as [l I]. assert (J : In i (flat_map ids ch')) by (apply in_flat_map; exists (IOp i k0 l); split; [exact I|cbn; auto]). apply E5 in J. destruct J as [-> |J]; [right; lia|]. left. cbn. right. apply in_app_iff. auto.
    + specialize (Bi i k0 I). destruct Bi as [J|J]; [|right; lia]. apply SI in J. destruct J as [J|J]; [apply E5 in J; destruct J as [-> |J]; [right; lia|]|]; left; cbn; right; apply in_app_iff; auto.
  - intros x [<- |I]; [cbn; auto|]. right. apply Ba. apply in_app_iff. auto.
  - intros s c i k0 l [<- |I] K E; [|right; exact (Bcl s c i k0 l I K E)]. right. cbn [t kids] in K. destruct (K3 c K) as [J|[l' [v J]]]; [|congruence]. apply Ba. apply in_app_iff. left. apply in_rev. exact J.
  - intros s [<- |I]; [left; cbn; auto|]. destruct (Bp s I) as [J|[s' [J1 J2]]]; [|right; exists s'; split; [cbn; auto|exact J2]]. apply in_app_iff in J. destruct J as [J|J]; [|left; cbn; auto]. right. exists t. split; [cbn; auto|]. cbn [t kids].
    apply (mk_all ch' cnt _ Rc'). apply -> in_rev. exact J.
  - intros s [<- |I]; [|exact (Bo s I)]. apply E7; [exact K2|]. intros x v X. exact (mk_leaf ch' cnt (rev tc) Rc' x v X).
  - cbn [map app kidnodes flat_map t kids nodeof]. fold (kidnodes S'). rewrite K1. rewrite map_app, <- app_assoc in Bn. destruct (NoDup_app_e _ _ Bn) as [Bn1 [Bn2 Bn3]]. destruct (NoDup_app_e _ _ Bn2) as [Bn4 [Bn5 Bn6]]. constructor.
    + rewrite !in_app_iff. intros [I|[I|I]].
      * destruct (TRN _ I) as [i [k0 [E J]]]. injection E as <- <-. apply N1. apply in_app_iff. auto.
      * apply cnodes_op in I. destruct I as [l I]. apply NotId. apply SI. left. apply in_flat_map. eexists. split; [exact I|cbn; auto].
      * apply Bi in I. destruct I as [I|I]; [exact (NotId I)|lia].
    + apply NoDup_app_i; [exact Bn4| |].
      * apply NoDup_app_i; [apply cnodes_NoDup; exact E4|exact Bn5|]. intros n I J. destruct (cnodes_kind _ _ _ I) as [[l ->]|[i [k0 ->]]].
        -- apply cnodes_lab in I. apply Bl in J. lia.
        -- apply cnodes_op in I. destruct I as [l I]. apply (Bn3 _ (TCN _ _ _ I)). apply in_app_iff. auto.
      * intros n I J. apply in_app_iff in J. destruct J as [J|J]; [|exact (Bn6 n I J)]. destruct (TRN n I) as [i [k0 [-> _]]]. apply cnodes_op in J. destruct J as [l J]. apply (Bn3 _ (TCN _ _ _ J)). apply in_app_iff. auto.
  - rewrite L4, meas_sum_app, meas_ops in Bs. cbn [length map]. rewrite list_sum_cons. lia.
  - intros n v L. destruct (Bfr n v L) as [L'|[s [l [I [J ->]]]]]; [|right; exists s, l; split; [cbn; auto|auto]]. destruct (L8 n v L') as [L''|[l [-> M]]]; [auto|]. right. exists t, l. split; [cbn; auto|]. split; [|reflexivity]. apply M. symmetry. exact (F2_length _ _ _ Rc').
Qed.
End Build.
Lemma mop_steps : steps mop okb.
Proof.
  intros fresh id k ch M ND LT. destruct (step fresh id k ch M ND LT) as [ch' [E1 [E2 [E3 [E4 [E5 [E6 E7]]]]]]]. exists ch'. repeat (split; [assumption|]). intros l K2 _. split.
  - exists id, k, l. split; [reflexivity|]. split; [apply evb_BO|]. intros NK c C. specialize (E7 NK). assert (J : In (evb c) (map evb l)) by (apply in_map; exact C). rewrite K2 in J. apply in_map_iff in J. destruct J as [e [<- J]]. exact (E7 e J).
  - rewrite evb_BO, K2, <- E2. apply M.
Qed.
