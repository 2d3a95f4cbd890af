(** A solver of regular systems: elimination.  It shows that there are solvers as assumed of df.solve in SpaceOpProofs.v; no part of
    /repo is modelled here. *)
From Coq Require Import Lia.
From Verif Require Import Base BaseProofs Mat MatProofs SpaceOpModel SpaceOpProofs.
Local Open Scope nat_scope.

(** A row: coefficients and right hand side *)
Notation row := (list Qc * Qc)%type.
Definition rdot (a x : list Qc) : Qc := sumn (length x) (fun i => (vnth a i * vnth x i)%Qc).
Definition holds (x : list Qc) (r : row) : Prop := rdot (fst r) x = snd r.
Definition vanishes (x : list Qc) (r : row) : Prop := rdot (fst r) x = q0.
Definition head (r : row) : Qc := vnth (fst r) 0.

Fixpoint pivot (rows : list row) : option (row * list row) :=
  match rows with
  | [] => None
  | r :: rows' => if qeqb (head r) q0 then match pivot rows' with None => None | Some (p, rest) => Some (p, r :: rest) end else Some (r, rows')
  end.
Definition eliminate (n : nat) (p r : row) : row :=
  (vtab n (fun i => (vnth (fst r) (S i) - head r / head p * vnth (fst p) (S i))%Qc), (snd r - head r / head p * snd p)%Qc).
Fixpoint eliminate_all (n : nat) (rows : list row) : res (list Qc) :=
  match n with
  | 0 => Ok []
  | S n' =>
      match pivot rows with
      | None => Err ValueError
      | Some (p, rest) => do y <- eliminate_all n' (map (eliminate n' p) rest);
                          Ok (((snd p - rdot (tl (fst p)) y) / head p)%Qc :: y)
      end
  end.
Definition elimination (A : mat) (b : vec) : res vec :=
  eliminate_all (nr A) (map (fun i => (vtab (nc A) (ent A i), vnth b i)) (seq 0 (nr A))).

Lemma pivot_some rows p rest : pivot rows = Some (p, rest) -> head p <> q0 /\ length rows = S (length rest) /\ forall P : row -> Prop, P p -> Forall P rest -> Forall P rows.
Proof.
  revert p rest. induction rows as [|r rows IH]; intros p rest E; cbn [pivot] in E; [discriminate|].
  destruct (qeqb (head r) q0) eqn:Q.
  - destruct (pivot rows) as [[p' rest']|]; [|discriminate]. injection E as <- <-. destruct (IH p' rest' eq_refl) as (H1 & H2 & H3).
    split; [exact H1|]. split; [cbn [length]; lia|]. intros P HP F. constructor; [exact (Forall_inv F)|]. apply H3; [exact HP|exact (Forall_inv_tail F)].
  - injection E as <- <-. split; [intros H; rewrite H, qeqb_refl in Q; discriminate|]. split; [reflexivity|]. intros P HP F. constructor; assumption.
Qed.
Lemma pivot_none rows : pivot rows = None -> Forall (fun r => head r = q0) rows.
Proof.
  induction rows as [|r rows IH]; intros E; [constructor|]. cbn [pivot] in E. destruct (qeqb (head r) q0) eqn:Q; [|discriminate].
  constructor; [apply qeqb_eq, Q|]. apply IH. destruct (pivot rows) as [[p rest]|]; [discriminate|reflexivity].
Qed.
Lemma rdot_cons a x y : rdot a (x :: y) = (vnth a 0 * x + sumn (length y) (fun i => vnth a (S i) * vnth y i))%Qc.
Proof. unfold rdot. cbn [length]. rewrite sumn_first. reflexivity. Qed.
Lemma rdot_eliminate n p r y : length y = n -> head p <> q0 ->
  rdot (fst (eliminate n p r)) y = (sumn n (fun i => vnth (fst r) (S i) * vnth y i) - head r / head p * sumn n (fun i => vnth (fst p) (S i) * vnth y i))%Qc.
Proof.
  intros L H. unfold rdot, eliminate. cbn [fst]. rewrite L, <- sumn_scal, <- sumn_minus. apply sumn_ext. intros i Hi. rewrite vnth_vtab by exact Hi. ring.
Qed.
Lemma tl_sum a y : rdot (tl a) y = sumn (length y) (fun i => (vnth a (S i) * vnth y i)%Qc).
Proof. unfold rdot. apply sumn_ext. intros i _. f_equal. destruct a; [destruct i|]; reflexivity. Qed.
(** The first unknown from the pivot: a solution of the rest is one of all rows *)
Lemma back p r x y n : length y = n -> head p <> q0 -> rdot (fst p) (x :: y) = snd p -> rdot (fst (eliminate n p r)) y = snd (eliminate n p r) -> rdot (fst r) (x :: y) = snd r.
Proof.
  intros L H P E. rewrite rdot_eliminate in E by assumption. rewrite rdot_cons, L in *. unfold eliminate in E. cbn [snd] in E. fold (head p) in P. fold (head r).
  set (sr := sumn n (fun i => (vnth (fst r) (S i) * vnth y i)%Qc)) in *. set (sp := sumn n (fun i => (vnth (fst p) (S i) * vnth y i)%Qc)) in *.
  assert (E' : sr = (snd r - head r / head p * snd p + head r / head p * sp)%Qc) by (rewrite <- E; ring). rewrite E', <- P. field. exact H.
Qed.
Lemma solved n rows x : eliminate_all n rows = Ok x -> length rows = n -> length x = n /\ Forall (holds x) rows.
Proof.
  revert rows x. induction n as [|n IH]; intros rows x E L.
  - injection E as <-. destruct rows; [|discriminate]. split; constructor.
  - cbn [eliminate_all] in E. destruct (pivot rows) as [[p rest]|] eqn:P; [|discriminate]. destruct (pivot_some rows p rest P) as (H & LR & F).
    destruct (eliminate_all n (map (eliminate n p) rest)) as [y|] eqn:Y; [|discriminate]. cbn [bind] in E. injection E as <-.
    destruct (IH _ y Y ltac:(rewrite map_length; lia)) as [LY FY]. split; [cbn [length]; lia|].
    assert (HP : rdot (fst p) (((snd p - rdot (tl (fst p)) y) / head p)%Qc :: y) = snd p).
    { rewrite rdot_cons, tl_sum. fold (head p). field. exact H. }
    apply F; [exact HP|]. rewrite Forall_map in FY. eapply Forall_impl; [|exact FY]. intros r Hr. exact (back p r _ y n LY H HP Hr).
Qed.
(** With only the trivial solution of the homogeneous rows there is always a pivot *)
Definition homogeneous (r : row) : row := (fst r, q0).
Definition trivial (n : nat) (rows : list row) : Prop := forall x, length x = n -> Forall (vanishes x) rows -> forall i, i < n -> vnth x i = q0.
Lemma goes n rows : length rows = n -> trivial n rows -> exists x, eliminate_all n rows = Ok x.
Proof.
  revert rows. induction n as [|n IH]; intros rows L T; [exists []; reflexivity|]. cbn [eliminate_all].
  destruct (pivot rows) as [[p rest]|] eqn:P.
  - destruct (pivot_some rows p rest P) as (H & LR & F).
    destruct (IH (map (eliminate n p) rest)) as [y ->]; [rewrite map_length; lia| |eexists; reflexivity].
    intros y LY FY i Hi. rewrite Forall_map in FY. set (x := ((- sumn n (fun i => vnth (fst p) (S i) * vnth y i)) / head p)%Qc).
    apply (T (x :: y)) with (i := S i); [cbn [length]; lia| |lia].
    assert (HP : rdot (fst p) (x :: y) = q0).
    { rewrite rdot_cons, LY. fold (head p). unfold x, q0. field. exact H. }
    apply F; [exact HP|]. eapply Forall_impl; [|exact FY]. intros r Hr. unfold vanishes in *.
    apply (back (homogeneous p) (homogeneous r) x y n LY H HP). cbn [homogeneous fst]. unfold eliminate, homogeneous. cbn [fst snd]. unfold eliminate in Hr. cbn [fst] in Hr. etransitivity; [exact Hr|]. unfold q0. ring.
  - apply pivot_none in P. exfalso. assert (Z : vnth (q1 :: repeat q0 n) 0 = q0).
    { apply T; [cbn [length]; rewrite repeat_length; reflexivity| |lia]. eapply Forall_impl; [|exact P]. intros r Hr. unfold vanishes. rewrite rdot_cons. fold (head r). rewrite Hr, sumn_zero; [unfold q0; ring|].
      intros i _. replace (vnth (repeat q0 n) i) with q0; [unfold q0; ring|]. symmetry. unfold vnth. apply nth_repeat. }
    discriminate Z.
Qed.
Lemma elimination_regular : solves_regular elimination.
Proof.
  intros n A b (R & C & T) L. unfold elimination. rewrite R, C. set (rows := map (fun i => (vtab n (ent A i), vnth b i)) (seq 0 n)).
  assert (LR : length rows = n) by (unfold rows; rewrite map_length, seq_length; reflexivity).
  assert (RD : forall x i, length x = n -> i < n -> rdot (vtab n (ent A i)) x = vnth (mv A x) i).
  { intros x i Lx Hi. rewrite vnth_mv by lia. unfold rdot. rewrite Lx, C. apply sumn_ext. intros j Hj. rewrite vnth_vtab by exact Hj. reflexivity. }
  destruct (goes n rows LR) as [x E].
  - intros x Lx F. apply T; [exact Lx|]. intros i Hi. rewrite Forall_forall in F. specialize (F (vtab n (ent A i), vnth b i)). unfold vanishes in F. cbn [fst] in F. rewrite RD in F by assumption. apply F.
    unfold rows. apply in_map_iff. exists i. split; [reflexivity|]. apply in_seq. lia.
  - exists x. split; [exact E|]. destruct (solved n rows x E LR) as [Lx F]. split; [exact Lx|]. apply vec_ext; [rewrite mv_length; lia|].
    intros i Hi. rewrite mv_length, R in Hi. rewrite Forall_forall in F. specialize (F (vtab n (ent A i), vnth b i)). unfold holds in F. cbn [fst snd] in F. rewrite RD in F by assumption. apply F.
    unfold rows. apply in_map_iff. exists i. split; [reflexivity|]. apply in_seq. lia.
Qed.
