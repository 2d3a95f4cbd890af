(** Specification and proofs for evaluators *)
From Verif Require Import Base BaseProofs Mat FemEvalModel.
From Coq Require Import List ZArith Lia Bool.
Import ListNotations.
Local Open Scope Z_scope.

Section Spec.
Context {F X : Type}.
Variable V : space F X.

(** ** Specification: what was set last, of what can be set *)
Definition set_last {A} (pick : op F X -> option A) (start : A) (ops : list (op F X)) : A :=
  fold_left (fun a o => match pick o with Some b => b | None => a end) ops start.
Definition cell_set (o : op F X) : option nat := match o with SetCell c => if (c <? s_ncells V)%nat then Some c else None | _ => None end.
Definition dof_set (o : op F X) : option Z := match o with SetDof d => if d <? Z.of_nat (s_dim V) then Some d else None | _ => None end.
Definition the_cell (ops : list (op F X)) : nat := set_last cell_set 0%nat ops.
Definition the_dof (ops : list (op F X)) : Z := set_last dof_set 0 ops.
(** The orientation of a cell; of curves in space 0 *)
Definition side (c : nat) : nat := if ((s_tdim V =? 1) && (s_gdim V =? 3))%nat then 0%nat else s_orientation V c.

(** ** Proofs *)
Definition at_cell (st : state) (c : nat) (d : Z) : Prop :=
  e_cell st = c /\ e_vertex_x st = s_coordinates V c /\ e_orientation st = side c /\ e_dof st = d.
Lemma orient_ok : forall c, cell_orientation V (is_1d_in_3d V) c = Ok (side c).
Proof.
  intros c. unfold cell_orientation, is_1d_in_3d, orientation, side. destruct ((s_tdim V =? 1) && (s_gdim V =? 3))%nat; reflexivity.
Qed.
Lemma new_ok : (0 < s_ncells V)%nat -> exists st, new V = Ok st /\ at_cell st 0 0.
Proof.
  intros H. unfold new, get_cell. replace (0 <? s_ncells V)%nat with true by (symmetry; apply Nat.ltb_lt; auto). cbn [bind].
  rewrite orient_ok. cbn [bind]. eexists. split; [reflexivity |]. unfold at_cell. auto.
Qed.
Lemma step_at : forall st c d o, at_cell st c d ->
  at_cell (fst (step V st o)) (match cell_set o with Some c' => c' | None => c end) (match dof_set o with Some d' => d' | None => d end).
Proof.
  intros st c d o [H1 [H2 [H3 H4]]]. destruct o as [v | v | f | f | x]; cbn [step cell_set dof_set fst call]; try (split; auto; fail).
  - unfold set_dof. destruct (v <? Z.of_nat (s_dim V)); cbn [fst]; unfold at_cell; cbn [e_cell e_vertex_x e_orientation e_dof]; auto.
  - unfold set_cell, get_cell. destruct (v <? s_ncells V)%nat; cbn [fst]; [rewrite orient_ok; cbn [fst] |]; unfold at_cell; cbn [e_cell e_vertex_x e_orientation e_dof]; auto.
Qed.
Lemma run_at : forall ops st c d, at_cell st c d -> at_cell (fst (run V st ops)) (set_last cell_set c ops) (set_last dof_set d ops).
Proof.
  induction ops as [| o ops IH]; intros st c d H; [exact H |]. cbn [run fst]. unfold set_last. cbn [fold_left]. apply IH, step_at, H.
Qed.
Lemma run_app : forall ops ops' st, fst (run V st (ops ++ ops')) = fst (run V (fst (run V st ops)) ops') /\
  snd (run V st (ops ++ ops')) = snd (run V st ops) ++ snd (run V (fst (run V st ops)) ops').
Proof.
  induction ops as [| o ops IH]; intros ops' st; [split; reflexivity |]. cbn [app run fst snd]. destruct (IH ops' (fst (step V st o))) as [E1 E2].
  rewrite E1, E2. split; reflexivity.
Qed.
Lemma run_one : forall ops o st, snd (run V st (ops ++ [o])) = snd (run V st ops) ++ [snd (step V (fst (run V st ops)) o)].
Proof. intros ops o st. destruct (run_app ops [o] st) as [_ E]. rewrite E. reflexivity. Qed.
Lemma run_new : forall ops st, Forall (fun o => o <> Array Own) (snd (run V st ops)).
Proof.
  induction ops as [| o ops IH]; intros st; cbn [run snd]; constructor; auto.
  destruct o as [v | v | f | f | x]; cbn [step snd]; try discriminate.
  - destruct (snd (set_dof V st v)); discriminate.
  - destruct (snd (set_cell V st v)); discriminate.
  - unfold eval. destruct (item _ _); discriminate.
Qed.
End Spec.
