(** Lemmas for ZerosProps.v *)
From Coq Require Import Lia.
From Verif Require Import Base BaseProofs ZerosModel.

(** The same lists with 0 for each space *)
Fixpoint mirror (V : tree) : nest := match V with Space => Zero | Spaces l => Nest (map mirror l) end.
(** Lists that are not empty, of spaces only or of such lists only *)
Inductive regular : tree -> Prop :=
| regular_spaces n : 0 < n -> regular (Spaces (repeat Space n))
| regular_lists l : l <> [] -> Forall regular l -> regular (Spaces l).
(** The number of spaces, of zeros *)
Fixpoint count (V : tree) : nat := match V with Space => 1 | Spaces l => list_sum (map count l) end.
Fixpoint count0 (z : nest) : nat := match z with Zero => 1 | Nest l => list_sum (map count0 l) end.
Definition product (s : list nat) : nat := fold_right Nat.mul 1 s.

Lemma tree_rect' (P : tree -> Prop) : P Space -> (forall l, Forall P l -> P (Spaces l)) -> forall V, P V.
Proof.
  intros H0 H1. fix IH 1. intros [| l]; [exact H0 |]. apply H1. induction l as [| V l IHl]; constructor; [apply IH | exact IHl].
Qed.
Lemma nest_rect' (P : nest -> Prop) : P Zero -> (forall l, Forall P l -> P (Nest l)) -> forall z, P z.
Proof.
  intros H0 H1. fix IH 1. intros [| l]; [exact H0 |]. apply H1. induction l as [| V l IHl]; constructor; [apply IH | exact IHl].
Qed.

(** list(map(zeros, l)) *)
Fixpoint until_stop (l : list tree) : res (list nest) :=
  match l with
  | [] => Ok []
  | V :: l' =>
      match zeros V with
      | Err StopIteration => Ok []
      | Err e => Err e
      | Ok z => do zs <- until_stop l'; Ok (z :: zs)
      end
  end.
Lemma zeros_lists x l : zeros (Spaces (Spaces x :: l)) = do zs <- until_stop (Spaces x :: l); Ok (Nest zs).
Proof. reflexivity. Qed.

Lemma zeros_err V e : zeros V = Err e <-> V = Spaces [] /\ e = StopIteration.
Proof.
  revert e. induction V as [| l IH] using tree_rect'; intros e; [split; [discriminate | intros [E _]; discriminate E] |].
  destruct l as [| [| x] l]; [cbn; split; [intros E; injection E as <-; auto | intros [_ ->]; reflexivity] | cbn; split; [discriminate | intros [E _]; discriminate E] |].
  rewrite zeros_lists. split; [| intros [E _]; discriminate E]. intros E. exfalso.
  assert (U : forall l, Forall (fun V => forall e, zeros V = Err e <-> V = Spaces [] /\ e = StopIteration) l -> exists zs, until_stop l = Ok zs).
  { induction 1 as [| V l' HV _ IHl]; [eexists; reflexivity |]. cbn [until_stop]. destruct (zeros V) as [z | e'] eqn:Z.
    - destruct IHl as [zs ->]. eexists; reflexivity.
    - destruct (proj1 (HV e') eq_refl) as [_ ->]. eexists; reflexivity. }
  destruct (U _ IH) as [zs Hz]. rewrite Hz in E. discriminate E.
Qed.
Lemma zeros_not_zero V : zeros V <> Ok Zero.
Proof.
  destruct V as [| [| [| x] l]]; try discriminate. rewrite zeros_lists. destruct (until_stop (Spaces x :: l)); discriminate.
Qed.
Lemma mirror_spaces n : map mirror (repeat Space n) = repeat Zero n.
Proof. induction n; cbn; congruence. Qed.
Lemma regular_mirror V : regular V -> zeros V = Ok (mirror V).
Proof.
  induction V as [| l IH] using tree_rect'; intros R; inversion R as [n Hn E | l' Hl HF E]; subst.
  - destruct n as [| n]; [lia |]. cbn [mirror]. rewrite mirror_spaces. cbn. rewrite repeat_length. reflexivity.
  - destruct l as [| V l]; [congruence |]. assert (exists x, V = Spaces x) as [x ->]. { inversion HF as [| ? ? HV _]; subst. inversion HV; subst; eauto. }
    rewrite zeros_lists. cbn [mirror]. assert (U : until_stop (Spaces x :: l) = Ok (map mirror (Spaces x :: l))).
    { clear R Hl. revert IH HF. generalize (Spaces x :: l). clear. induction l as [| V l IHl]; intros IH HF; [reflexivity |].
      inversion IH; subst. inversion HF; subst. cbn [until_stop map]. rewrite H1 by assumption. rewrite IHl by assumption. reflexivity. }
    rewrite U. reflexivity.
Qed.
Lemma mirror_regular V : zeros V = Ok (mirror V) -> regular V.
Proof.
  induction V as [| l IH] using tree_rect'; intros E; [discriminate |]. destruct l as [| [| x] l]; [discriminate | |].
  - cbn [zeros first_is_space bind mirror map] in E. injection E as E. assert (EL : Space :: l = repeat Space (S (length l))).
    { cbn [length repeat]. f_equal. clear IH. induction l as [| V l IHl]; [reflexivity |]. cbn [length repeat map] in *. injection E as E1 E2. f_equal; [| apply IHl; exact E2].
      destruct V; [reflexivity | discriminate E1]. }
    rewrite EL. constructor. lia.
  - apply regular_lists; [discriminate |]. rewrite zeros_lists in E. cbn [mirror] in E. revert E IH. generalize (Spaces x :: l). clear. intros l E IH.
    destruct (until_stop l) as [zs |] eqn:U; cbn [bind] in E; [| discriminate]. injection E as ->. induction l as [| V l IHl]; constructor.
    + inversion IH; subst. apply H1. cbn [until_stop map] in U. destruct (zeros V) as [z | e] eqn:Z.
      * destruct (until_stop l); cbn [bind] in U; [| discriminate]. injection U as -> _. reflexivity.
      * destruct e; discriminate U.
    + inversion IH; subst. apply IHl; [| exact H2]. cbn [until_stop map] in U. destruct (zeros V) as [z | e] eqn:Z; [| destruct e; discriminate U].
      destruct (until_stop l) as [zs |]; cbn [bind] in U; [| discriminate]. injection U as _ ->. reflexivity.
Qed.
Lemma count_mirror V : count0 (mirror V) = count V.
Proof.
  induction V as [| l IH] using tree_rect'; [reflexivity |]. cbn [mirror count0 count]. f_equal. rewrite map_map. apply map_ext_in. intros V HV. rewrite Forall_forall in IH. auto.
Qed.

Fixpoint same (l : list nest) : res (list nat) :=
  match l with
  | [] => Ok [0]
  | z :: l' =>
      do s <- shape z;
      match l' with
      | [] => Ok (1 :: s)
      | _ => do t <- same l';
             match t with
             | n :: s' => if list_eq_dec Nat.eq_dec s s' then Ok (S n :: s) else Err ValueError
             | [] => Err TypeError
             end
      end
  end.
Lemma shape_nest l : shape (Nest l) = same l. Proof. reflexivity. Qed.
Lemma shape_product z s : shape z = Ok s -> product s = count0 z.
Proof.
  revert s. induction z as [| l IH] using nest_rect'; intros s E; [injection E as <-; reflexivity |].
  rewrite shape_nest in E. assert (U : forall l, Forall (fun z => forall s, shape z = Ok s -> product s = count0 z) l -> forall s, same l = Ok s ->
    exists n s', s = n :: s' /\ n * product s' = list_sum (map count0 l)).
  { clear. induction l as [| z l IHl]; intros H s E; [injection E as <-; exists 0, []; split; reflexivity |].
    inversion H; subst. cbn [same] in E. destruct (shape z) as [sz |] eqn:SZ; cbn [bind] in E; [| discriminate].
    destruct l as [| z' l]; [injection E as <-; exists 1, sz; cbn; rewrite (H2 sz eq_refl); split; [reflexivity | lia] |].
    destruct (same (z' :: l)) as [t |] eqn:T; [cbn [bind] in E | discriminate]. destruct (IHl H3 t eq_refl) as (n & s' & -> & P).
    destruct (list_eq_dec Nat.eq_dec sz s') as [-> |]; [| discriminate]. injection E as <-. exists (S n), s'. split; [reflexivity |].
    change (map count0 (z :: z' :: l)) with (count0 z :: map count0 (z' :: l)). cbn [list_sum fold_right]. fold (list_sum (map count0 (z' :: l))). rewrite <- P, <- (H2 s' eq_refl). cbn. lia. }
  destruct (U l IH s E) as (n & s' & -> & P). exact P.
Qed.
Lemma shape_cons l s : same l = Ok s -> exists n s', s = n :: s'.
Proof.
  destruct l as [| z l]; cbn [same]; [intros E; injection E as <-; eauto |]. destruct (shape z); cbn [bind]; [| discriminate].
  destruct l; [intros E; injection E as <-; eauto |]. destruct (same (n :: l)) as [[| k s'] |]; cbn [bind]; try discriminate. destruct (list_eq_dec _ _ _); [| discriminate]. intros E; injection E as <-; eauto.
Qed.
Lemma product_app s t : product (s ++ t) = product s * product t.
Proof. unfold product. induction s as [| a s IH]; cbn [app fold_right]; [lia |]. rewrite IH. lia. Qed.
Lemma product_ones n : product (repeat 1 n) = 1.
Proof. unfold product. induction n; cbn [repeat fold_right]; lia. Qed.
Lemma product_times s : forall t, length s = length t -> product (map (fun p => fst p * snd p) (combine s t)) = product s * product t.
Proof. unfold product. induction s as [| a s IH]; intros [| b t] H; try discriminate; [reflexivity |]. cbn [combine map fold_right fst snd]. rewrite IH by (cbn in H; lia). lia. Qed.
Lemma kron_product s t : product (kron_shape s t) = product s * product t /\ length (kron_shape s t) = Nat.max (length s) (length t).
Proof.
  unfold kron_shape. set (d := Nat.max (length s) (length t)).
  assert (L : forall x, length x <= d -> length (repeat 1 (d - length x) ++ x) = d) by (intros x H; rewrite app_length, repeat_length; lia).
  split.
  - rewrite product_times by (rewrite !L by lia; reflexivity). rewrite !product_app, !product_ones. lia.
  - rewrite map_length, combine_length, !L by lia. lia.
Qed.
Lemma shape_zeros n : 0 < n -> shape (Nest (repeat Zero n)) = Ok [n].
Proof.
  rewrite shape_nest. induction n as [| n IH]; intros H; [lia |]. cbn [repeat same shape bind]. destruct n as [| n]; [reflexivity |].
  rewrite IH by lia. reflexivity.
Qed.
