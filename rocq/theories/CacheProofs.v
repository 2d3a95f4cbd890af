(** Specification vocabulary and proofs for CacheModel.v. *)
From Verif Require Import Base BaseProofs CacheModel.
From Coq Require Import Permutation.

(** ** Specification vocabulary *)

(** The answers are the ones computed afresh. *)
Definition transparent {Rq Val} (key : Rq -> list katom) (compute : Rq -> res Val) (h : list Rq) : Prop :=
  serve key compute [] h = map compute h.

(** Within the history, spaces with the same element on the same mesh are the
    same (no other dof numbering, no change of the mesh), and the space of the
    result is on the mesh of the request. *)
Definition well_named {D} (h : list (request D)) : Prop :=
  (forall r r' V V', In r h -> In r' h -> (V = q_V r \/ V = q_TV r) -> (V' = q_V r' \/ V' = q_TV r') ->
     s_elem V = s_elem V' -> s_mesh V = s_mesh V' -> V = V') /\
  (forall r, In r h -> q_mesh r = s_mesh (q_TV r)).

(** ** Proofs *)

Lemma key_eqb_spec k l : key_eqb k l = true <-> k = l.
Proof. unfold key_eqb. destruct (list_eq_dec katom_eq_dec k l); split; congruence. Qed.

Section Memo.
Context {Rq Val : Type}.
Variable key : Rq -> list katom.
Variable compute : Rq -> res Val.

(** Every entry was computed for some request of the history. *)
Definition sound (dom : Rq -> Prop) (cache : list (list katom * Val)) : Prop :=
  forall k v, In (k, v) cache -> exists r, dom r /\ key r = k /\ compute r = Ok v.

Lemma lookup_In k (cache : list (list katom * Val)) v : lookup k cache = Some v -> In (k, v) cache.
Proof.
  induction cache as [|[k' v'] c IH]; cbn; [discriminate|]. destruct (key_eqb k k') eqn:E.
  - intros H. injection H as ->. apply key_eqb_spec in E. subst. left. reflexivity.
  - intros H. right. auto.
Qed.

Lemma serve_transparent (dom : Rq -> Prop) :
  (forall r r', dom r -> dom r' -> key r = key r' -> compute r = compute r') ->
  forall h cache, (forall r, In r h -> dom r) -> sound dom cache -> serve key compute cache h = map compute h.
Proof.
  intros SEP. induction h as [|r h IH]; intros cache D S; [reflexivity|]. cbn [serve map]. unfold cached.
  assert (Dr : dom r) by (apply D; left; reflexivity).
  destruct (lookup (key r) cache) as [v|] eqn:L.
  - apply lookup_In in L. destruct (S _ _ L) as (r' & D' & K & C). rewrite IH; [|intros; apply D; right; assumption|assumption].
    rewrite (SEP r r' Dr D') by congruence. rewrite C. reflexivity.
  - destruct (compute r) as [v|e] eqn:C.
    + rewrite IH; [reflexivity|intros; apply D; right; assumption|]. intros k v' [E|H]; [|auto]. injection E as <- <-. eauto.
    + rewrite IH; [reflexivity|intros; apply D; right; assumption|assumption].
Qed.

Lemma transparent_if h : (forall r r', In r h -> In r' h -> key r = key r' -> compute r = compute r') -> transparent key compute h.
Proof. intros H. apply (serve_transparent (fun r => In r h)); [assumption|auto|]. intros k v []. Qed.

(** The condition is necessary. *)
Lemma not_transparent r r' v : key r = key r' -> compute r = Ok v -> compute r' <> Ok v -> ~ transparent key compute [r; r'].
Proof.
  intros K C N T. unfold transparent in T. cbn [serve map] in T. unfold cached in T. cbn [lookup] in T. rewrite C in T.
  cbn [lookup] in T. rewrite (proj2 (key_eqb_spec (key r') (key r))) in T by congruence. injection T as T. congruence.
Qed.
End Memo.

Lemma space_key_eq {D} (h : list (request D)) r r' : well_named h -> In r h -> In r' h ->
  space_key (q_V r) = space_key (q_V r') -> space_key (q_TV r) = space_key (q_TV r') ->
  q_V r = q_V r' /\ q_TV r = q_TV r' /\ q_mesh r = q_mesh r'.
Proof.
  intros [W1 W2] H H' E1 E2. injection E1 as E1 E1'. injection E2 as E2 E2'.
  assert (q_V r = q_V r') by (apply (W1 r r'); auto). assert (T : q_TV r = q_TV r') by (apply (W1 r r'); auto).
  repeat split; try assumption. rewrite (W2 r H), (W2 r' H'), T. reflexivity.
Qed.

Lemma onum_inj a b : onum a = onum b -> a = b.
Proof. destruct a, b; cbn; congruence. Qed.

Lemma map_KNum_inj l l' : map KNum l = map KNum l' -> l = l'.
Proof. revert l'. induction l as [|x l IH]; intros [|y l'] E; try discriminate; [reflexivity|]. injection E as -> E. f_equal. auto. Qed.

Lemma app_inj_length {X} (a b c d : list X) : length a = length c -> a ++ b = c ++ d -> a = c /\ b = d.
Proof.
  revert c. induction a as [|x a IH]; intros [|y c] L E; try discriminate; [auto|]. injection E as -> E. injection L as L.
  destruct (IH c L E) as [-> ->]. auto.
Qed.
