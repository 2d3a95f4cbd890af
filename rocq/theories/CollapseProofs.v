(** What a cbc.block expression denotes (independent of the code), and proofs
    that [collapse] computes it. *)
From Verif Require Import Base BaseProofs Mat MatProofs ConvertModel.
From Coq Require Import Field.

(** ** Specification *)

Inductive val := VMat (m : mat) | VNum (a : Qc).

Definition veq (u v : val) : Prop :=
  match u, v with
  | VMat A, VMat B => meq A B
  | VNum a, VNum b => a = b
  | _, _ => False
  end.

Definition oeq (u v : option val) : Prop :=
  match u, v with Some a, Some b => veq a b | None, None => True | _, _ => False end.

(** A number acts as that multiple of the identity. *)
Definition vmul (u v : val) : option val :=
  match u, v with
  | VNum a, VNum b => Some (VNum (a * b))
  | VNum a, VMat B => Some (VMat (mscale a B))
  | VMat A, VNum b => Some (VMat (mscale b A))
  | VMat A, VMat B => if nc A =? nr B then Some (VMat (mmul A B)) else None
  end.

(** [neg a]: the number [a] counts as zero when added to a matrix. *)
Definition vadd_ (neg : Qc -> bool) (u v : val) : option val :=
  match u, v with
  | VNum a, VNum b => Some (VNum (a + b))
  | VMat A, VMat B =>
    if (nr A =? nr B) && (nc A =? nc B) then Some (VMat (madd A B)) else None
  | VMat A, VNum b =>
    if neg b then Some (VMat A)
    else if nr A =? nc A then Some (VMat (madd A (mscale b (mid (nr A))))) else None
  | VNum a, VMat B =>
    if neg a then Some (VMat B)
    else if nr B =? nc B then Some (VMat (madd (mscale a (mid (nr B))) B)) else None
  end.

Definition vsub_ (u v : val) : option val :=
  match u, v with
  | VNum a, VNum b => Some (VNum (a - b))
  | VMat A, VMat B =>
    if (nr A =? nr B) && (nc A =? nc B) then Some (VMat (msub A B)) else None
  | VMat A, VNum b =>
    if qeqb b q0 then Some (VMat A)
    else if nr A =? nc A then Some (VMat (msub A (mscale b (mid (nr A))))) else None
  | VNum a, VMat B =>
    if qeqb a q0 then Some (VMat (mscale (- q1) B))
    else if nr B =? nc B then Some (VMat (msub (mscale a (mid (nr B))) B)) else None
  end.

Definition vtr (u : val) : val :=
  match u with VMat A => VMat (mtr A) | VNum a => VNum a end.

Definition obind {A B} (x : option A) (f : A -> option B) : option B :=
  match x with Some a => f a | None => None end.
Definition omul (x y : option val) : option val := obind x (fun a => obind y (vmul a)).

(** Product of a non-empty chain. *)
Fixpoint oprod (l : list (option val)) : option val :=
  match l with
  | [] => None
  | [x] => x
  | x :: l' => omul x (oprod l')
  end.

(** The unit vectors of R^n *)
Definition axis (n j : nat) : vec := vtab n (fun i => if i =? j then q1 else q0).
(** The linear-algebra value of an expression; [None] if sizes do not match. *)
Fixpoint den (neg : Qc -> bool) (e : expr) : option val :=
  match e with
  | EMat m => Some (VMat m)
  | ENum a => Some (VNum a)
  | EMul chain => oprod (map (den neg) chain)
  | EAdd a b => obind (den neg a) (fun u => obind (den neg b) (vadd_ neg u))
  | ESub a b => obind (den neg a) (fun u => obind (den neg b) (vsub_ u))
  | ETr a => option_map vtr (den neg a)
  | EDiag v => Some (VMat (mdiag (length v) (vnth v)))
  | EMatrix m => Some (VMat m)
  | EFun m n act =>
    if forallb (fun j => length (act (axis n j)) =? m) (seq 0 n)
    then Some (VMat (Mat m n (fun i j => vnth (act (axis n j)) i)))
    else None
  | EOther => None
  end.

(** Numbers below 1e-14 in magnitude count as zero in a sum with a matrix. *)
Definition threshold : Qc := Q2Qc (1 # 100000000000000).
Definition tiny (a : Qc) : bool := qltb (qabs a) threshold.
(** Nothing but 0 counts as zero. *)
Definition exactly_zero (a : Qc) : bool := qeqb a q0.

(** cbc.block chains have at least two factors (they come from [*]). *)
Inductive wf_chains : expr -> Prop :=
| wfc_mat m : wf_chains (EMat m)
| wfc_num a : wf_chains (ENum a)
| wfc_mul l : 2 <= length l -> Forall wf_chains l -> wf_chains (EMul l)
| wfc_add a b : wf_chains a -> wf_chains b -> wf_chains (EAdd a b)
| wfc_sub a b : wf_chains a -> wf_chains b -> wf_chains (ESub a b)
| wfc_tr a : wf_chains a -> wf_chains (ETr a)
| wfc_diag v : wf_chains (EDiag v)
| wfc_matrix m : wf_chains (EMatrix m)
| wfc_fun m n act :
    (forall j, j < n -> length (act (axis n j)) = m) -> wf_chains (EFun m n act)
| wfc_other : wf_chains EOther.

(** What a returned object stands for. *)
Definition val_of (r : expr) : option val :=
  match r with EMat m => Some (VMat m) | ENum a => Some (VNum a) | _ => None end.

(** ** Algebra of values *)

Lemma veq_refl u : veq u u.
Proof. destruct u; cbn; [apply meq_refl|reflexivity]. Qed.
Lemma veq_sym u v : veq u v -> veq v u.
Proof. destruct u, v; cbn; auto. apply meq_sym. Qed.
Lemma veq_trans u v w : veq u v -> veq v w -> veq u w.
Proof. destruct u, v, w; cbn; try tauto. apply meq_trans. congruence. Qed.
Lemma oeq_refl u : oeq u u.
Proof. destruct u; cbn; [apply veq_refl|exact I]. Qed.
Lemma oeq_sym u v : oeq u v -> oeq v u.
Proof. destruct u, v; cbn; auto. apply veq_sym. Qed.
Lemma oeq_trans u v w : oeq u v -> oeq v w -> oeq u w.
Proof. destruct u, v, w; cbn; try tauto. apply veq_trans. Qed.

Lemma vmul_proper u u' v v' : veq u u' -> veq v v' -> oeq (vmul u v) (vmul u' v').
Proof.
  destruct u, u', v, v'; cbn [veq vmul]; try tauto; intros H K; subst; cbn [oeq veq].
  - pose proof H as (H1 & H2 & H3). pose proof K as (K1 & K2 & K3). rewrite <- H2, <- K1.
    destruct (Nat.eqb_spec (nc m) (nr m1)) as [E|E]; [|exact I]. cbn. apply mmul_meq; assumption.
  - apply mscale_meq; assumption.
  - apply mscale_meq; assumption.
  - reflexivity.
Qed.

Lemma omul_proper u u' v v' : oeq u u' -> oeq v v' -> oeq (omul u v) (omul u' v').
Proof.
  destruct u, u', v, v'; cbn; try tauto. apply vmul_proper.
Qed.

Lemma omul_assoc u v w : oeq (omul (omul u v) w) (omul u (omul v w)).
Proof.
  destruct u as [[A|a]|], v as [[B|b]|], w as [[C|c]|]; cbn;
    repeat match goal with
    | |- context [if ?x =? ?y then _ else _] => destruct (Nat.eqb_spec x y); cbn
    end; try exact I; try congruence; try tauto;
    try (apply meq_refl); try (apply mmul_assoc; assumption);
    try (repeat split; cbn; intros; try rewrite <- ?sumn_scal; try (apply sumn_ext; intros); ring);
    try reflexivity; try ring.
Qed.

Lemma oprod_cons x l : l <> [] -> oprod (x :: l) = omul x (oprod l).
Proof. destruct l; [congruence|reflexivity]. Qed.

Lemma oprod_app l1 l2 : l1 <> [] -> l2 <> [] -> oeq (oprod (l1 ++ l2)) (omul (oprod l1) (oprod l2)).
Proof.
  intros H1 H2. induction l1 as [|x l1 IH]; [congruence|].
  destruct l1 as [|y l1].
  - cbn [app]. rewrite oprod_cons by assumption. apply oeq_refl.
  - rewrite <- app_comm_cons, oprod_cons by discriminate.
    eapply oeq_trans; [apply omul_proper; [apply oeq_refl|apply IH; discriminate]|].
    rewrite (oprod_cons x (y :: l1)) by discriminate. apply oeq_sym, omul_assoc.
Qed.

(** ** Denotation of the operator overloads *)

Section WithNeg.
Variable neg : Qc -> bool.

Lemma den_chain_of e : wf_chains e -> oeq (oprod (map (den neg) (chain_of e))) (den neg e) /\ chain_of e <> [].
Proof.
  intros H. destruct H as [| |l Hl _| | | | | | |];
    (split; [apply oeq_refl|cbn [chain_of]; try discriminate]).
  destruct l; [cbn in *; lia|discriminate].
Qed.

Lemma den_py_mul a b : wf_chains a -> wf_chains b ->
  oeq (den neg (py_mul a b)) (omul (den neg a) (den neg b)).
Proof.
  intros Ha Hb.
  assert (G : oeq (den neg (EMul (chain_of a ++ chain_of b))) (omul (den neg a) (den neg b))).
  { destruct (den_chain_of a Ha) as [Ea Na]. destruct (den_chain_of b Hb) as [Eb Nb].
    cbn [den]. rewrite map_app.
    eapply oeq_trans.
    - apply oprod_app; intros E; apply map_eq_nil in E; contradiction.
    - apply omul_proper; assumption. }
  destruct a, b; try exact G.
Qed.

Lemma wf_chain_of e : wf_chains e -> Forall wf_chains (chain_of e) /\ 1 <= length (chain_of e).
Proof. intros H; destruct H; cbn; split; auto; try (repeat constructor; auto; fail); try lia. Qed.

Lemma wf_py_mul a b : wf_chains a -> wf_chains b -> wf_chains (py_mul a b).
Proof.
  intros Ha Hb. destruct (wf_chain_of a Ha) as [Fa La]. destruct (wf_chain_of b Hb) as [Fb Lb].
  assert (G : wf_chains (EMul (chain_of a ++ chain_of b))).
  { constructor; [rewrite app_length; lia|]. apply Forall_app; auto. }
  destruct a, b; try exact G. constructor.
Qed.

Lemma fold_py_mul l x : wf_chains x -> Forall wf_chains l ->
  wf_chains (fold_left py_mul l x) /\
  oeq (den neg (fold_left py_mul l x)) (oprod (map (den neg) (x :: l))).
Proof.
  revert x. induction l as [|y l IH]; intros x Hx Hl.
  - split; [exact Hx|apply oeq_refl].
  - inversion Hl; subst. cbn [fold_left].
    destruct (IH (py_mul x y)) as [W E]; [apply wf_py_mul; assumption|assumption|].
    split; [exact W|]. eapply oeq_trans; [exact E|].
    assert (P := den_py_mul x y Hx H1).
    destruct l as [|z l].
    + cbn [map oprod]. exact P.
    + cbn [map]. rewrite (oprod_cons _ (den neg z :: _)) by discriminate.
      rewrite (oprod_cons (den neg x)) by discriminate.
      rewrite (oprod_cons (den neg y)) by discriminate.
      eapply oeq_trans; [apply omul_proper; [exact P|apply oeq_refl]|]. apply omul_assoc.
Qed.

Lemma reduce_mul_den l r : Forall wf_chains l -> reduce_mul l = Ok r ->
  wf_chains r /\ oeq (den neg r) (oprod (map (den neg) l)).
Proof.
  destruct l as [|x l]; [discriminate|]. intros H E. inversion E; subst; clear E.
  inversion H; subst. apply fold_py_mul; assumption.
Qed.

End WithNeg.

(** ** Soundness of collapse *)

Lemma of_columns n m act :
  (forall j, j < n -> length (act (axis n j)) = m) ->
  meq (mtr (of_rows n m (map act (Rn_basis n)))) (Mat m n (fun i j => vnth (act (axis n j)) i)).
Proof.
  intros H. repeat split. intros i j Hi Hj. cbn in *. unfold Rn_basis. change unit_vec with axis. rewrite map_map.
  rewrite (nth_indep _ [] (act (axis n 0))) by (rewrite map_length, seq_length; lia).
  rewrite (map_nth (fun x => act (axis n x))), seq_nth by lia. reflexivity.
Qed.

Lemma collapse_columns_sound n m act r :
  (forall j, j < n -> length (act (axis n j)) = m) ->
  collapse_columns n act = Ok r ->
  exists A, r = EMat A /\ meq A (Mat m n (fun i j => vnth (act (axis n j)) i)).
Proof.
  intros H. unfold collapse_columns. destruct n as [|n]; [discriminate|].
  cbn [Rn_basis seq map]. change unit_vec with axis. rewrite (H 0) by lia.
  destruct (forallb _ _); [|discriminate]. intros E. inversion E; subst; clear E.
  eexists; split; [reflexivity|]. apply (of_columns (S n) m act H).
Qed.

Definition sound_res (neg : Qc -> bool) (e : expr) (x : res expr) : Prop :=
  forall r, x = Ok r -> exists v v', val_of r = Some v /\ den neg e = Some v' /\ veq v v'.

Lemma oeq_some_l u v : oeq u (Some v) -> exists w, u = Some w /\ veq w v.
Proof. destruct u; cbn; [eauto|contradiction]. Qed.

Lemma val_of_wf r v : val_of r = Some v -> wf_chains r.
Proof. destruct r; try discriminate; constructor. Qed.
Lemma val_of_den neg r v : val_of r = Some v -> den neg r = Some v.
Proof. destruct r; try discriminate; auto. Qed.

Lemma sound_transfer neg e e' x :
  oeq (den neg e') (den neg e) -> sound_res neg e' x -> sound_res neg e x.
Proof.
  intros E S r Hr. destruct (S r Hr) as (v & v' & H1 & H2 & H3).
  rewrite H2 in E. apply oeq_sym, oeq_some_l in E as (w & Ew & Hw).
  exists v, w. repeat split; auto. eapply veq_trans; [exact H3|]. apply veq_sym; exact Hw.
Qed.

Lemma vadd_proper neg u u' v v' : veq u u' -> veq v v' -> oeq (vadd_ neg u v) (vadd_ neg u' v').
Proof.
  destruct u, u', v, v'; cbn [veq vadd_]; try tauto; intros H K; subst; cbn [oeq veq]; try reflexivity.
  - pose proof H as (H1 & H2 & H3). pose proof K as (K1 & K2 & K3). rewrite <- H1, <- H2, <- K1, <- K2.
    destruct (Nat.eqb_spec (nr m) (nr m1)); cbn; [|exact I].
    destruct (Nat.eqb_spec (nc m) (nc m1)); cbn; [|exact I].
    apply madd_meq; assumption.
  - destruct (neg a0); [exact H|]. pose proof H as (H1 & H2 & H3). rewrite <- H1, <- H2.
    destruct (Nat.eqb_spec (nr m) (nc m)); [|exact I]. cbn.
    apply madd_meq; auto using meq_refl; cbn; congruence.
  - destruct (neg a0); [exact K|]. pose proof K as (H1 & H2 & H3). rewrite <- H1, <- H2.
    destruct (Nat.eqb_spec (nr m) (nc m)); [|exact I]. cbn.
    apply madd_meq; auto using meq_refl; cbn; congruence.
Qed.

Lemma vsub_proper u u' v v' : veq u u' -> veq v v' -> oeq (vsub_ u v) (vsub_ u' v').
Proof.
  destruct u, u', v, v'; cbn [veq vsub_]; try tauto; intros H K; subst; cbn [oeq veq]; try reflexivity.
  - pose proof H as (H1 & H2 & H3). pose proof K as (K1 & K2 & K3). rewrite <- H1, <- H2, <- K1, <- K2.
    destruct (Nat.eqb_spec (nr m) (nr m1)); cbn; [|exact I].
    destruct (Nat.eqb_spec (nc m) (nc m1)); cbn; [|exact I].
    apply msub_meq; assumption.
  - destruct (qeqb a0 q0); [exact H|]. pose proof H as (H1 & H2 & H3). rewrite <- H1, <- H2.
    destruct (Nat.eqb_spec (nr m) (nc m)); [|exact I]. cbn.
    apply msub_meq; auto using meq_refl; cbn; congruence.
  - destruct (qeqb a0 q0); [apply mscale_meq; exact K|]. pose proof K as (H1 & H2 & H3). rewrite <- H1, <- H2.
    destruct (Nat.eqb_spec (nr m) (nc m)); [|exact I]. cbn.
    apply msub_meq; auto using meq_refl; cbn; congruence.
Qed.

Lemma obind2_proper (f : val -> val -> option val) u u' v v' :
  (forall a a' b b', veq a a' -> veq b b' -> oeq (f a b) (f a' b')) ->
  oeq u u' -> oeq v v' ->
  oeq (obind u (fun a => obind v (f a))) (obind u' (fun a => obind v' (f a))).
Proof. intros Hf. destruct u, u', v, v'; cbn; try tauto. apply Hf. Qed.

Lemma den_py_add neg a b : den neg (py_add a b) = den neg (EAdd a b).
Proof. destruct a, b; reflexivity. Qed.
Lemma den_py_sub neg a b : den neg (py_sub a b) = den neg (ESub a b).
Proof. destruct a, b; reflexivity. Qed.
Lemma wf_py_add a b : wf_chains a -> wf_chains b -> wf_chains (py_add a b).
Proof. destruct a, b; intros; cbn; constructor; assumption. Qed.
Lemma wf_py_sub a b : wf_chains a -> wf_chains b -> wf_chains (py_sub a b).
Proof. destruct a, b; intros; cbn; constructor; assumption. Qed.

Lemma sound_bind2 neg a b (xa xb : res expr) (k : expr -> expr -> res expr) e :
  sound_res neg a xa -> sound_res neg b xb ->
  (forall a' b', wf_chains a' -> wf_chains b' -> oeq (den neg a') (den neg a) -> oeq (den neg b') (den neg b) ->
     sound_res neg e (k a' b')) ->
  sound_res neg e (do a' <- xa; do b' <- xb; k a' b').
Proof.
  intros Sa Sb Hk r Hr.
  destruct xa as [a'|]; cbn [bind] in Hr; [|discriminate].
  destruct xb as [b'|]; cbn [bind] in Hr; [|discriminate].
  destruct (Sa a' eq_refl) as (va & va' & A1 & A2 & A3).
  destruct (Sb b' eq_refl) as (vb & vb' & B1 & B2 & B3).
  apply (Hk a' b'); auto; eauto using val_of_wf.
  - rewrite (val_of_den neg _ _ A1), A2. exact A3.
  - rewrite (val_of_den neg _ _ B1), B2. exact B3.
Qed.

Lemma collapse_sound_all fuel :
  (forall e, wf_chains e -> sound_res tiny e (collapse fuel e)) /\
  (forall e, wf_chains e -> sound_res tiny e (collapse_tr fuel e)) /\
  (forall e, wf_chains e -> sound_res tiny e (collapse_add fuel e)) /\
  (forall e, wf_chains e -> sound_res tiny e (collapse_sub fuel e)) /\
  (forall e, wf_chains e -> sound_res tiny e (collapse_mul fuel e)).
Proof.
  induction fuel as [|fuel (IHc & IHt & IHa & IHs & IHm)].
  { repeat split; intros e _ r H; discriminate. }
  assert (Smat : forall A e, den tiny e = Some (VMat A) -> sound_res tiny e (Ok (EMat A))).
  { intros A e He r E. inversion E; subst. exists (VMat A), (VMat A).
    repeat split; auto; intros; reflexivity. }
  repeat split; intros e W.
  - destruct W; cbn [collapse].
    + apply Smat; reflexivity.
    + intros r E; inversion E; subst. exists (VNum a), (VNum a). repeat split.
    + apply IHm. constructor; assumption.
    + apply IHa. constructor; assumption.
    + apply IHs. constructor; assumption.
    + apply IHt. constructor; assumption.
    + apply Smat; reflexivity.
    + apply Smat; reflexivity.
    + intros r E. apply (collapse_columns_sound n m act r H) in E as (A & -> & HA).
      exists (VMat A), (VMat (Mat m n (fun i j => vnth (act (axis n j)) i))).
      repeat split; try apply HA; auto. cbn [den].
      replace (forallb _ _) with true; [reflexivity|]. symmetry. apply forallb_forall.
      intros j Hj. apply in_seq in Hj. apply Nat.eqb_eq, H. lia.
    + intros r E; discriminate.
  - (* transpose *)
    destruct e; cbn [collapse_tr]; try (intros r E; discriminate).
    assert (G : sound_res tiny (ETr e) (do x <- collapse fuel (ETr e); collapse_tr fuel x)).
    { intros r E. destruct (collapse fuel (ETr e)) as [x|] eqn:Ex; cbn [bind] in E; [|discriminate].
      destruct (IHc (ETr e) W x Ex) as (v & v' & H1 & H2 & H3).
      destruct (IHt x (val_of_wf _ _ H1) r E) as (w & w' & K1 & K2 & K3).
      rewrite (val_of_den _ _ _ H1) in K2. inversion K2; subst.
      exists w, v'. repeat split; auto. eapply veq_trans; eassumption. }
    destruct e; try exact G. apply Smat. reflexivity.
  - (* add *)
    destruct e; cbn [collapse_add]; try (intros r E; discriminate).
    inversion W; subst.
    assert (G : sound_res tiny (EAdd e1 e2)
        (do a' <- collapse fuel e1; do b' <- collapse fuel e2; collapse_add fuel (py_add a' b'))).
    { apply sound_bind2 with (a := e1) (b := e2); auto.
      intros a' b' Wa Wb Ea Eb. eapply sound_transfer; [|apply IHa; apply wf_py_add; assumption].
      rewrite den_py_add. cbn [den]. apply obind2_proper; auto. apply vadd_proper. }
    destruct e1, e2; try exact G.
    + intros r E. destruct ((nr m =? nr m0) && (nc m =? nc m0)) eqn:D; cbn in E; [|discriminate].
      eapply Smat; [|exact E]. cbn. rewrite D. reflexivity.
    + change tol14 with threshold; destruct (qltb (qabs a) threshold) eqn:D; [|exact G].
      apply Smat. cbn. unfold tiny. rewrite D. reflexivity.
    + change tol14 with threshold; destruct (qltb (qabs a) threshold) eqn:D; [|exact G].
      apply Smat. cbn. unfold tiny. rewrite D. reflexivity.
  - (* sub *)
    destruct e; cbn [collapse_sub]; try (intros r E; discriminate).
    inversion W; subst.
    assert (G : sound_res tiny (ESub e1 e2)
        (do a' <- collapse fuel e1; do b' <- collapse fuel e2; collapse_sub fuel (py_sub a' b'))).
    { apply sound_bind2 with (a := e1) (b := e2); auto.
      intros a' b' Wa Wb Ea Eb. eapply sound_transfer; [|apply IHs; apply wf_py_sub; assumption].
      rewrite den_py_sub. cbn [den]. apply obind2_proper; auto. apply vsub_proper. }
    destruct e1, e2; try exact G.
    intros r E. destruct ((nr m =? nr m0) && (nc m =? nc m0)) eqn:D; cbn in E; [|discriminate].
    eapply Smat; [|exact E]. cbn. rewrite D. reflexivity.
  - (* mul *)
    destruct e as [| |[|a [|b [|c l]]]| | | | | | |]; cbn [collapse_mul]; try (intros r E; discriminate).
    + intros r E. destruct (collapse fuel a); cbn in E; discriminate.
    + inversion W as [| |? Wl Wf| | | | | | |]; subst. inversion Wf as [|? ? Wa Wf']; subst. inversion Wf' as [|? ? Wb _]; subst.
      assert (G : sound_res tiny (EMul [a; b])
        (do a' <- collapse fuel a; do b' <- collapse fuel b; collapse fuel (py_mul a' b'))).
      { apply sound_bind2 with (a := a) (b := b); auto.
        intros a' b' Wa' Wb' Ea Eb. eapply sound_transfer; [|apply IHc; apply wf_py_mul; assumption].
        eapply oeq_trans; [apply den_py_mul; assumption|]. cbn [den map oprod]. apply omul_proper; assumption. }
      destruct a, b; try exact G.
      * intros r E. destruct (nc m =? nr m0) eqn:D; cbn in E; [|discriminate].
        eapply Smat; [|exact E]. cbn. rewrite D. reflexivity.
      * apply Smat. reflexivity.
      * apply Smat. reflexivity.
    + inversion W as [| |? Wl Wf| | | | | | |]; subst. inversion Wf as [|? ? Wa Wf']; subst.
      destruct (reduce_mul (b :: c :: l)) as [rr|] eqn:R; [|discriminate].
      destruct (reduce_mul_den tiny _ _ Wf' R) as [Wr Er].
      cbn [bind].
      apply sound_bind2 with (a := a) (b := rr); auto.
      intros a' b' Wa' Wb' Ea Eb. eapply sound_transfer; [|apply IHm; apply wf_py_mul; assumption].
      eapply oeq_trans; [apply den_py_mul; assumption|]. cbn [den map]. rewrite oprod_cons by discriminate.
      apply omul_proper; [assumption|]. eapply oeq_trans; [exact Eb|]. exact Er.
Qed.

Theorem collapse_sound fuel e r :
  wf_chains e -> collapse fuel e = Ok r ->
  exists v v', val_of r = Some v /\ den tiny e = Some v' /\ veq v v'.
Proof. intros W. apply (proj1 (collapse_sound_all fuel) e W). Qed.
