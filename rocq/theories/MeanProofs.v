(** Specification vocabulary for means, and lemmas. *)
From Verif Require Import Base Mat MatProofs MeanModel.

(** ** Vocabulary *)

(** the function with coefficients [u] *)
Definition value (V : sspace) (u : vec) (x : nat) : Qc := sumn (s_dim V) (fun j => (vnth u j * basis V j x)%Qc).

(** the integral over a domain: sums over cells and points *)
Inductive integral (f : nat -> Qc) : list mcell -> Qc -> Prop :=
| int_nil : integral f [] 0%Qc
| int_cell vol cells a : integral f cells a -> integral f (MCell vol [] :: cells) a
| int_point vol p w rest cells a : integral f (MCell vol rest :: cells) a -> integral f (MCell vol ((p, w) :: rest) :: cells) (w * f p + a)%Qc.

(** quadrature is right for constants *)
Definition exact (domain : list mcell) : Prop :=
  Forall (fun c => fold_right Qcplus 0%Qc (map snd (rule c)) = volume c) domain.

(** the volume of a domain *)
Definition size (domain : list mcell) : Qc := fold_right Qcplus 0%Qc (map volume domain).

(** ** Lemmas *)
Lemma assembled_integral d f : integral f d (assembled d f).
Proof.
  unfold assembled. induction d as [| c d IH]; cbn [map fold_right]; [constructor |].
  destruct c as [vol r]. cbn [rule]. induction r as [| (p, w) r IHr]; cbn [map fold_right fst snd].
  - replace (q0 + _)%Qc with (fold_right Qcplus q0 (map (fun c => fold_right Qcplus q0 (map (fun pw => (snd pw * f (fst pw))%Qc) (rule c))) d)) by (unfold q0; ring).
    constructor. exact IH.
  - rewrite <- Qcplus_assoc. constructor. exact IHr.
Qed.

Lemma integral_fun f d a b : integral f d a -> integral f d b -> a = b.
Proof.
  intros H. revert b. induction H; intros b Hb; inversion Hb; subst.
  - reflexivity.
  - apply IHintegral. assumption.
  - f_equal. apply IHintegral. assumption.
Qed.

Lemma assembled_ext d f g : (forall x, f x = g x) -> assembled d f = assembled d g.
Proof.
  intros H. unfold assembled. f_equal. apply map_ext. intros c. f_equal. apply map_ext. intros pw. rewrite H. reflexivity.
Qed.
Lemma fold_plus {A} (l : list A) f g :
  fold_right Qcplus q0 (map (fun x => (f x + g x)%Qc) l) = (fold_right Qcplus q0 (map f l) + fold_right Qcplus q0 (map g l))%Qc.
Proof. induction l as [| a l IH]; cbn [map fold_right]; [unfold q0; ring | rewrite IH; ring]. Qed.
Lemma fold_scal {A} (l : list A) f a :
  fold_right Qcplus q0 (map (fun x => (a * f x)%Qc) l) = (a * fold_right Qcplus q0 (map f l))%Qc.
Proof. induction l as [| b l IH]; cbn [map fold_right]; [unfold q0; ring | rewrite IH; ring]. Qed.
Lemma assembled_plus d f g : assembled d (fun x => (f x + g x)%Qc) = (assembled d f + assembled d g)%Qc.
Proof.
  unfold assembled. rewrite <- fold_plus. f_equal. apply map_ext. intros c. rewrite <- fold_plus. f_equal. apply map_ext. intros pw. ring.
Qed.
Lemma assembled_scal d a f : assembled d (fun x => (a * f x)%Qc) = (a * assembled d f)%Qc.
Proof.
  unfold assembled. rewrite <- fold_scal. f_equal. apply map_ext. intros c. rewrite <- fold_scal. f_equal. apply map_ext. intros pw. ring.
Qed.
Lemma assembled_sum d n (f : nat -> nat -> Qc) : assembled d (fun x => sumn n (fun j => f j x)) = sumn n (fun j => assembled d (f j)).
Proof.
  induction n as [| n IH]; cbn [sumn].
  - transitivity (assembled d (fun x => (q0 * q0)%Qc)); [apply assembled_ext; intros x; unfold q0; ring |]. rewrite (assembled_scal d q0 (fun _ => q0)). unfold q0. ring.
  - rewrite <- IH, <- assembled_plus. reflexivity.
Qed.
Lemma assembled_const d a : exact d -> assembled d (fun _ => a) = (a * size d)%Qc.
Proof.
  unfold exact, assembled, size. intros H. induction H as [| c d Hc Hd IH]; cbn [map fold_right]; [unfold q0; ring |].
  rewrite IH, <- Hc. clear. assert (G : fold_right Qcplus q0 (map (fun pw : nat * Qc => (snd pw * a)%Qc) (rule c)) = (a * fold_right Qcplus 0 (map snd (rule c)))%Qc).
  { induction (rule c) as [| pw r IH]; cbn [map fold_right]; [unfold q0; ring | rewrite IH; ring]. }
  rewrite G. ring.
Qed.
