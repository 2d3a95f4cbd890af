(** Specification vocabulary and proofs for SerialModel.v *)
From Verif Require Import SerialModel RestrictModel MatProofs FillProofs.
Local Open Scope nat_scope.
Local Close Scope Q_scope.
Local Close Scope Qc_scope.

(** A call of the process [r] among [ops] gives the entry (i, j) the value v *)
Definition gives (ops : list (nat * op)) (r i j : nat) (v : Qc) (m : mode) : Prop :=
  exists cols vals l, In (r, SetRow (Z.of_nat i) cols vals m) ops /\ nth_error cols l = Some (Z.of_nat j) /\ nth_error vals l = Some v.
(** The same for calls of one process *)
Definition wrote (body : list op) (i j : nat) (v : Qc) (m : mode) : Prop := gives (map (fun o => (0, o)) body) 0 i j v m.
Definition only (m : mode) (body : list op) : Prop := forall row cols vals m', In (SetRow row cols vals m') body -> m' = m.
(** What calls add to an entry *)
Definition part (i j : nat) (o : op) : Qc :=
  match o with
  | SetRow row cols vals _ => sumn (length cols) (fun l => if (row =? Z.of_nat i)%Z && (nth l cols (-1) =? Z.of_nat j)%Z then nth l vals q0 else q0)
  | Raise _ => q0
  end.
Definition total (body : list op) (i j : nat) : Qc := sumn (length body) (fun k => part i j (nth k body (Raise OutOfFuel))).

(** ** Lists of single values *)
Definition write := (Z * Z * Qc * mode)%type.
Definition at_ (i j : nat) (w : write) : bool := let '(a, b, _, _) := w in (a =? Z.of_nat i)%Z && (b =? Z.of_nat j)%Z.
Definition val (w : write) : Qc := let '(_, _, v, _) := w in v.
Definition mod_ (w : write) : mode := let '(_, _, _, m) := w in m.
Definition legal (w : write) : bool := let '(a, b, _, _) := w in (0 <=? a)%Z && (0 <=? b)%Z.
Definition op_writes (o : op) : list write := match o with SetRow row cols vals m => map (fun p => (row, fst p, snd p, m)) (combine cols vals) | Raise _ => [] end.
Definition writes (ops : list (nat * op)) : list (nat * write) := flat_map (fun ro => map (pair (fst ro)) (op_writes (snd ro))) ops.

Lemma put_other E w i j : legal w = true -> at_ i j w = false -> put E w i j = E i j.
Proof.
  destruct w as [[[a b] v] m]. unfold legal, at_, put, set_ent. intros L H. apply andb_prop in L. destruct L as [L1 L2]. apply Z.leb_le in L1, L2.
  assert (X : (i =? Z.to_nat a) && (j =? Z.to_nat b) = false).
  { destruct (Nat.eqb_spec i (Z.to_nat a)) as [e|n]; [|reflexivity]. destruct (Nat.eqb_spec j (Z.to_nat b)) as [e'|n]; [|reflexivity].
    rewrite e, e', !Z2Nat.id, !Z.eqb_refl in H by assumption. discriminate. }
  destruct m; rewrite X; reflexivity.
Qed.
Lemma put_here E w i j : at_ i j w = true -> put E w i j = match mod_ w with INSERT_VALUES => val w | ADD_VALUES => (E i j + val w)%Qc end.
Proof.
  destruct w as [[[a b] v] m]. unfold at_, put, set_ent, mod_, val. intros H. apply andb_prop in H. destruct H as [H1 H2]. apply Z.eqb_eq in H1, H2. subst.
  destruct m; rewrite ?Nat2Z.id, !Nat.eqb_refl; reflexivity.
Qed.
Lemma puts_other ws E i j : Forall (fun w => legal w = true /\ at_ i j w = false) ws -> fold_left put ws E i j = E i j.
Proof. revert E. induction ws as [|w ws IH]; intros E H; [reflexivity|]. cbn [fold_left]. rewrite IH by exact (Forall_inv_tail H). apply put_other; apply (Forall_inv H). Qed.
Lemma puts_insert ws E i j v : Forall (fun w => legal w = true /\ (at_ i j w = true -> mod_ w = INSERT_VALUES /\ val w = v)) ws ->
  Exists (fun w => at_ i j w = true) ws -> fold_left put ws E i j = v.
Proof.
  revert E. induction ws as [|w ws IH]; intros E H X; [inversion X|]. cbn [fold_left].
  destruct (Exists_dec (fun w => at_ i j w = true) ws) as [Y|N]; [intros; apply bool_dec| |].
  - apply IH; [exact (Forall_inv_tail H)|exact Y].
  - inversion X as [? ? A|? ? A]; subst; [|contradiction]. rewrite puts_other.
    + rewrite put_here by exact A. destruct (proj2 (Forall_inv H) A) as [-> ->]. reflexivity.
    + apply Forall_forall. intros w' I. split; [exact (proj1 (proj1 (Forall_forall _ _) (Forall_inv_tail H) w' I))|].
      destruct (at_ i j w') eqn:e; [|reflexivity]. exfalso. apply N, Exists_exists. exists w'. split; assumption.
Qed.
Fixpoint sum_of (l : list Qc) : Qc := match l with [] => q0 | a :: l' => (a + sum_of l')%Qc end.
Lemma sum_of_app l k : sum_of (l ++ k) = (sum_of l + sum_of k)%Qc.
Proof. induction l as [|a l IH]; cbn [app sum_of]; [unfold q0|rewrite IH]; ring. Qed.
Lemma puts_add ws E i j : Forall (fun w => legal w = true /\ mod_ w = ADD_VALUES) ws ->
  fold_left put ws E i j = (E i j + sum_of (map (fun w => if at_ i j w then val w else q0) ws))%Qc.
Proof.
  revert E. induction ws as [|w ws IH]; intros E H; cbn [fold_left map sum_of]; [unfold q0; ring|]. rewrite IH by exact (Forall_inv_tail H).
  destruct (Forall_inv H) as [L A]. destruct (at_ i j w) eqn:e.
  - rewrite put_here, A by exact e. ring.
  - rewrite put_other by assumption. unfold q0. ring.
Qed.

(** ** What calls leave behind *)
Lemma set_values_spec r ws A B : set_values r ws A = Ok B ->
  p_rows B = p_rows A /\ p_cols B = p_cols A /\ p_owner B = p_owner A /\ p_sent B = p_sent A /\ p_mode B = p_mode A /\
  p_store B = fold_left put (filter (fun w => legal w && (p_owner A (Z.to_nat (fst (fst (fst w)))) =? r)) ws) (p_store A) /\
  p_stash B = p_stash A ++ filter (fun w => legal w && negb (p_owner A (Z.to_nat (fst (fst (fst w)))) =? r)) ws.
Proof.
  revert A. induction ws as [|w ws IH]; intros A H; cbn [set_values] in H.
  - injection H as <-. cbn. rewrite app_nil_r. repeat split.
  - destruct w as [[[a b] v] m]. unfold set_value in H. cbn [filter legal fst].
    destruct ((a <? 0)%Z || (b <? 0)%Z) eqn:e.
    + cbn [bind] in H. destruct (IH A H) as (P1 & P2 & P3 & P4 & P5 & P6 & P7).
      assert (L : (0 <=? a)%Z && (0 <=? b)%Z = false).
      { apply orb_prop in e. rewrite !Z.ltb_lt in e. destruct (Z.leb_spec 0 a); [|reflexivity]. destruct (Z.leb_spec 0 b); [|reflexivity]. lia. }
      rewrite L. cbn [andb]. repeat split; assumption.
    + assert (L : (0 <=? a)%Z && (0 <=? b)%Z = true). { apply orb_false_elim in e. destruct e as [e1 e2]. apply Z.ltb_ge in e1, e2. rewrite !(proj2 (Z.leb_le _ _)) by assumption. reflexivity. }
      rewrite L. cbn [andb]. destruct ((Z.of_nat (p_rows A) <=? a)%Z || (Z.of_nat (p_cols A) <=? b)%Z); [discriminate|].
      destruct (p_owner A (Z.to_nat a) =? r) eqn:o; cbn [bind negb] in H |- *; destruct (IH _ H) as (P1 & P2 & P3 & P4 & P5 & P6 & P7); cbn [p_rows p_cols p_owner p_store p_stash p_sent p_mode] in *.
      * repeat split; assumption.
      * rewrite P7, <- app_assoc. repeat split; assumption.
Qed.
Lemma run_spec debug ops A B : run debug ops A = Ok B ->
  p_rows B = p_rows A /\ p_cols B = p_cols A /\ p_owner B = p_owner A /\ p_sent B = p_sent A /\
  p_store B = fold_left put (map snd (filter (fun rw => legal (snd rw) && (p_owner A (Z.to_nat (fst (fst (fst (snd rw))))) =? fst rw)) (writes ops))) (p_store A) /\
  p_stash B = p_stash A ++ map snd (filter (fun rw => legal (snd rw) && negb (p_owner A (Z.to_nat (fst (fst (fst (snd rw))))) =? fst rw)) (writes ops)).
Proof.
  assert (FM : forall (f : nat -> write -> bool) (r : nat) ws, map snd (filter (fun rw => f (fst rw) (snd rw)) (map (pair r) ws)) = filter (f r) ws).
  { intros f r ws. induction ws as [|w ws IH]; [reflexivity|]. cbn [map filter fst snd]. destruct (f r w); cbn [map snd]; rewrite IH; reflexivity. }
  revert A. induction ops as [|[r o] ops IH]; intros A H; cbn [run] in H.
  - injection H as <-. cbn. rewrite app_nil_r. repeat split.
  - destruct (step debug r o A) as [C|] eqn:e; [|discriminate]. cbn [bind] in H. destruct (IH C H) as (P1 & P2 & P3 & P4 & P5 & P6).
    unfold step in e. destruct o as [row cols vals m|]; [|discriminate]. destruct (negb (length vals =? length cols)); [discriminate|].
    destruct (debug && _) in e; [discriminate|]. apply set_values_spec in e. cbn [p_rows p_cols p_owner p_store p_stash p_sent p_mode] in e. destruct e as (Q1 & Q2 & Q3 & Q4 & Q5 & Q6 & Q7).
    unfold writes. cbn [flat_map fst snd op_writes]. rewrite !filter_app, !map_app.
    rewrite (FM (fun r w => legal w && (p_owner A (Z.to_nat (fst (fst (fst w)))) =? r)) r), (FM (fun r w => legal w && negb (p_owner A (Z.to_nat (fst (fst (fst w)))) =? r)) r).
    cbv beta. rewrite fold_left_app, app_assoc. change (list (Z * Z * Qc * mode)) with (list write) in *. rewrite P1, P2, P3, P4, P5, P6, Q6, Q7, Q3. repeat split; assumption.
Qed.
Lemma gives_writes ops r i j v m : gives ops r i j v m <-> In (r, (Z.of_nat i, Z.of_nat j, v, m)) (writes ops).
Proof.
  assert (CB : forall (cols : list Z) (vals : list Qc) j v, In (j, v) (combine cols vals) <-> exists l, nth_error cols l = Some j /\ nth_error vals l = Some v).
  { intros cols. induction cols as [|c cols IH]; intros vals x w.
    - split; [intros []|intros ([|l] & H & _); discriminate].
    - destruct vals as [|y vals]; [split; [intros []|intros ([|l] & _ & H); discriminate]|]. cbn [combine In]. rewrite IH. split.
      + intros [E|(l & H)]; [injection E as -> ->; exists 0; split; reflexivity|exists (S l); exact H].
      + intros ([|l] & H1 & H2); [cbn in H1, H2; injection H1 as ->; injection H2 as ->; left; reflexivity|right; exists l; split; assumption]. }
  unfold gives, writes. rewrite in_flat_map. split.
  - intros (cols & vals & l & I & H1 & H2). exists (r, SetRow (Z.of_nat i) cols vals m). split; [exact I|]. cbn [fst snd op_writes]. apply in_map_iff. eexists. split; [reflexivity|].
    apply in_map_iff. exists (Z.of_nat j, v). split; [reflexivity|]. apply CB. exists l. split; assumption.
  - intros ([r' o] & I & H). cbn [fst snd] in H. apply in_map_iff in H. destruct H as (w & E & H). injection E as -> ->. destruct o as [row cols vals m'|]; [|destruct H].
    cbn [op_writes] in H. apply in_map_iff in H. destruct H as ([a b] & E & H). cbn [fst snd] in E. injection E as -> -> -> ->. apply CB in H. destruct H as (l & H1 & H2). exists cols, vals, l. repeat split; assumption.
Qed.
(** a place in range, as an index *)
Lemma legal_at i j w : at_ i j w = true -> legal w = true.
Proof. destruct w as [[[a b] v] m]. unfold at_, legal. intros H. apply andb_prop in H. destruct H as [H1 H2]. apply Z.eqb_eq in H1, H2. subst. rewrite !(proj2 (Z.leb_le _ _)) by lia. reflexivity. Qed.
Lemma at_eq i j w : at_ i j w = true -> w = (Z.of_nat i, Z.of_nat j, val w, mod_ w).
Proof. destruct w as [[[a b] v] m]. unfold at_. intros H. apply andb_prop in H. destruct H as [H1 H2]. apply Z.eqb_eq in H1, H2. subst. reflexivity. Qed.
Lemma at_self i j v m : at_ i j (Z.of_nat i, Z.of_nat j, v, m) = true.
Proof. unfold at_. rewrite !Z.eqb_refl. reflexivity. Qed.

(** ** One process *)
Lemma enter_ok world test trial A : enter world test trial = Ok A -> exists n m, A = assemblyBegin (createAIJ n m (fun _ => 0)).
Proof.
  unfold enter. destruct test as [n|n|n p], trial as [k|k|k q]; try discriminate; unfold py_assert.
  - destruct (world =? 1); [|discriminate]. cbn [bind]. intros H. injection H as <-. exists n, k. reflexivity.
  - destruct (p =? 1); [|discriminate]. cbn [bind]. intros H. injection H as <-. exists n, k. reflexivity.
Qed.
Lemma with_spec debug world test trial body A i j : with_matrix debug world test trial body = Ok A ->
  getValue A i j = Ok (fold_left put (map snd (filter (fun rw => legal (snd rw) && (0 =? fst rw)) (writes (map (fun o => (0, o)) body)))) (fun _ _ => q0) i j).
Proof.
  unfold with_matrix. destruct (enter world test trial) as [A0|] eqn:e; [|discriminate]. apply enter_ok in e. destruct e as (n & m & ->). cbn [bind].
  destruct (run debug _ _) as [B|] eqn:R; [|discriminate]. cbn [bind]. intros H. injection H as <-. apply run_spec in R. destruct R as (_ & _ & _ & P4 & P5 & _).
  cbn [assemblyBegin createAIJ p_owner p_sent p_store p_stash app] in *. unfold getValue, assemblyEnd. cbn [p_assembled p_store]. rewrite P4, P5. reflexivity.
Qed.
Lemma serial_filter body : filter (fun rw => legal (snd rw) && (0 =? fst rw)) (writes (map (fun o => (0, o)) body)) = filter (fun rw => legal (snd rw)) (writes (map (fun o => (0, o)) body)).
Proof.
  apply filter_ext_in. intros [r w] I. unfold writes in I. apply in_flat_map in I. destruct I as ([r' o] & I1 & I2). apply in_map_iff in I1. destruct I1 as (o' & E & _). injection E as <- <-.
  cbn [fst snd] in I2. apply in_map_iff in I2. destruct I2 as (w' & E & _). injection E as <- <-. cbn. apply andb_true_r.
Qed.
Lemma writes_app a b : writes (a ++ b) = writes a ++ writes b.
Proof. unfold writes. apply flat_map_app. Qed.
Lemma run_app debug a b A : run debug (a ++ b) A = do B <- run debug a A; run debug b B.
Proof. revert A. induction a as [|[r o] a IH]; intros A; [reflexivity|]. cbn [app run]. destruct (step debug r o A) as [C|]; [|reflexivity]. cbn [bind]. apply IH. Qed.

(** ** Modes *)
Lemma set_values_mode r ws A B : set_values r ws A = Ok B -> p_mode B = p_mode A.
Proof. intros H. apply set_values_spec in H. apply H. Qed.
Lemma run_modes ops A B : run true ops A = Ok B ->
  (forall r row cols vals m', In (r, SetRow row cols vals m') ops -> p_mode B = Some m') /\ (forall m, p_mode A = Some m -> p_mode B = Some m).
Proof.
  revert A. induction ops as [|[r o] ops IH]; intros A H; cbn [run] in H.
  - injection H as <-. split; [intros ? ? ? ? ? []|auto].
  - destruct (step true r o A) as [C|] eqn:e; [|discriminate]. cbn [bind] in H. unfold step in e. destruct o as [row cols vals k|]; [|discriminate].
    destruct (negb (length vals =? length cols)); [discriminate|]. destruct (p_mode A) as [m0|] eqn:pm.
    + destruct (mode_eqb k m0) eqn:q; [|discriminate]. assert (k = m0) by (destruct k, m0; try discriminate; reflexivity). subst k. cbn [andb negb] in e.
      apply set_values_mode in e. cbn [p_mode] in e. destruct (IH C H) as [I1 I2]. split.
      * intros r' row' cols' vals' m' [E|I]; [injection E as -> -> -> -> ->; apply I2, e|exact (I1 _ _ _ _ _ I)].
      * intros m E. injection E as ->. apply I2, e.
    + cbn [andb] in e. apply set_values_mode in e. cbn [p_mode] in e. destruct (IH C H) as [I1 I2]. split; [|discriminate].
      intros r' row' cols' vals' m' [E|I]; [injection E as -> -> -> -> ->; apply I2, e|exact (I1 _ _ _ _ _ I)].
Qed.
Lemma run_lengths debug ops A B : run debug ops A = Ok B -> Forall (fun ro => match snd ro with SetRow _ cols vals _ => length vals = length cols | Raise _ => True end) ops.
Proof.
  revert A. induction ops as [|[r o] ops IH]; intros A H; cbn [run] in H; constructor.
  - destruct (step debug r o A) as [C|] eqn:e; [|discriminate]. unfold step in e. cbn [snd]. destruct o as [row cols vals k|]; [|exact I]. destruct (Nat.eqb_spec (length vals) (length cols)) as [L|]; [exact L|discriminate].
  - destruct (step debug r o A) as [C|]; [|discriminate]. exact (IH C H).
Qed.
Lemma run_no_raise debug ops A B r e : run debug ops A = Ok B -> ~ In (r, Raise e) ops.
Proof.
  revert A. induction ops as [|[r' o] ops IH]; intros A H; cbn [run] in H; [intros []|]. destruct (step debug r' o A) as [C|] eqn:s; [|discriminate]. cbn [bind] in H.
  intros [E|I]; [injection E as -> ->; discriminate|exact (IH C H I)].
Qed.

Lemma set_values_range r ws A B i j v md : set_values r ws A = Ok B -> In (Z.of_nat i, Z.of_nat j, v, md) ws -> i < p_rows A /\ j < p_cols A.
Proof.
  revert A. induction ws as [|w ws IH]; intros A H I; [destruct I|]. cbn [set_values] in H. destruct (set_value r w A) as [C|] eqn:e; [|discriminate]. cbn [bind] in H.
  assert (S1 : p_rows C = p_rows A /\ p_cols C = p_cols A).
  { assert (R1 : set_values r [w] A = Ok C) by (cbn [set_values]; rewrite e; reflexivity). apply set_values_spec in R1. split; apply R1. }
  destruct I as [->|I].
  - unfold set_value in e. rewrite !(proj2 (Z.ltb_ge _ _)) in e by lia. cbn [orb] in e. destruct (Z.leb_spec (Z.of_nat (p_rows A)) (Z.of_nat i)); [discriminate|].
    destruct (Z.leb_spec (Z.of_nat (p_cols A)) (Z.of_nat j)); [discriminate|]. lia.
  - destruct S1 as [<- <-]. exact (IH C H I).
Qed.
Lemma run_range debug ops A B r i j v md : run debug ops A = Ok B -> gives ops r i j v md -> i < p_rows A /\ j < p_cols A.
Proof.
  intros H G. apply gives_writes in G. revert A H. induction ops as [|[r' o] ops IH]; intros A H; [destruct G|]. cbn [run] in H. destruct (step debug r' o A) as [C|] eqn:e; [|discriminate]. cbn [bind] in H.
  assert (S1 : p_rows C = p_rows A /\ p_cols C = p_cols A).
  { assert (R1 : run debug [(r', o)] A = Ok C) by (cbn [run]; rewrite e; reflexivity). apply run_spec in R1. split; apply R1. }
  unfold writes in G. cbn [flat_map fst snd] in G. apply in_app_or in G. destruct G as [G|G].
  - apply in_map_iff in G. destruct G as (w & E & G). injection E as _ ->. unfold step in e. destruct o as [row cols vals k|]; [|discriminate]. destruct (negb _); [discriminate|]. destruct (debug && _); [discriminate|].
    exact (set_values_range _ _ _ _ i j v md e G).
  - destruct S1 as [<- <-]. exact (IH G C H).
Qed.

(** ** The matrix of trace_mat_two_restrict *)
Lemma set_values_row ins d cols vals A : (forall r, p_owner A r = 0) -> d < p_rows A -> Forall (fun c => c < p_cols A) cols -> length vals = length cols ->
  set_values 0 (map (fun p => (Z.of_nat d, fst p, snd p, ins)) (combine (map Z.of_nat cols) vals)) A =
  Ok (PMat (p_rows A) (p_cols A) (p_owner A) (match ins with INSERT_VALUES => set_row (p_store A) d cols vals | ADD_VALUES => add_row (p_store A) d cols vals end)
        (p_stash A) (p_sent A) (p_mode A) (p_assembled A)).
Proof.
  revert vals A. induction cols as [|c cols IH]; intros [|v vals] A O D F L; try discriminate.
  - cbn. destruct A, ins; reflexivity.
  - cbn [map combine set_values fst snd]. unfold set_value. rewrite !(proj2 (Z.ltb_ge _ _)) by lia. cbn [orb]. pose proof (Forall_inv F) as C. cbn beta in C.
    rewrite !(proj2 (Z.leb_gt _ _)) by lia. cbn [orb]. rewrite O. cbn [Nat.eqb bind].
    rewrite IH; cbn [p_rows p_cols p_owner p_store p_stash p_sent p_mode p_assembled]; [|exact O|exact D|exact (Forall_inv_tail F)|injection L as L; exact L].
    unfold put. rewrite !Nat2Z.id. destruct ins; reflexivity.
Qed.
(** rows that are inserted one after another *)
Lemma run_rows debug rows A : (forall r, p_owner A r = 0) -> p_mode A = None \/ p_mode A = Some INSERT_VALUES ->
  Forall (fun r => fst (fst r) < p_rows A /\ Forall (fun c => c < p_cols A) (snd (fst r)) /\ length (snd r) = length (snd (fst r))) rows ->
  exists B, run debug (map (fun r => (0, SetRow (Z.of_nat (fst (fst r))) (map Z.of_nat (snd (fst r))) (snd r) INSERT_VALUES)) rows) A = Ok B /\ p_sent B = p_sent A /\
    p_store B = fold_left (fun E r => set_row E (fst (fst r)) (snd (fst r)) (snd r)) rows (p_store A).
Proof.
  revert A. induction rows as [|[[d cols] vals] rows IH]; intros A O M F; cbn [map run fold_left]; [exists A; repeat split|].
  destruct (Forall_inv F) as (F1 & F2 & F3). cbn [fst snd] in *. cbn [step]. rewrite F3, map_length, Nat.eqb_refl. cbn [negb].
  assert (G : debug && match p_mode A with Some m' => negb (mode_eqb INSERT_VALUES m') | None => false end = false) by (destruct M as [-> | ->]; apply andb_false_r).
  rewrite G. rewrite set_values_row by assumption. cbn [p_rows p_cols p_owner p_store p_stash p_sent p_mode p_assembled bind].
  match goal with |- context [run debug _ ?C] => destruct (IH C) as (B & R & S1 & S2) end; cbn [p_rows p_cols p_owner p_store p_mode]; [exact O|right; destruct M as [-> | ->]; reflexivity|exact (Forall_inv_tail F)|].
  exists B. rewrite R. repeat split; assumption.
Qed.
Section Two.
Variable gdim : nat.
Variables cell_mid trace_mid normal : nat -> vec.
Variable facet_cells : nat -> list nat.
Variables T_dofs V_dofs : nat -> list nat.
Variable dof_value : nat -> nat -> nat -> nat -> Qc.
Variables m n : nat.
Hypothesis T_range : forall t, Forall (fun d => d < m) (T_dofs t).
Hypothesis V_range : forall c, Forall (fun d => d < n) (V_dofs c).
(** a matrix on one process with these entries, nothing pending *)
Definition holds (A : pmat) (E : nat -> nat -> Qc) : Prop := p_rows A = m /\ p_cols A = n /\ (forall r, p_owner A r = 0) /\ p_sent A = [] /\ p_store A = E.
Definition row_op (t k d : nat) (md : mode) (mc : (Qc -> Qc) * nat) : op :=
  SetRow (Z.of_nat d) (map Z.of_nat (V_dofs (snd mc))) (values_on V_dofs dof_value t k mc) md.
Lemma step_row t k d md mc A E : d < m -> holds A E -> exists B, step false 0 (row_op t k d md mc) A = Ok B /\
  holds B (match md with INSERT_VALUES => set_row E d (V_dofs (snd mc)) (values_on V_dofs dof_value t k mc) | ADD_VALUES => add_row E d (V_dofs (snd mc)) (values_on V_dofs dof_value t k mc) end).
Proof.
  intros D (H1 & H2 & H3 & H4 & H5). unfold step, row_op. assert (L : length (values_on V_dofs dof_value t k mc) = length (V_dofs (snd mc))) by (unfold values_on; rewrite map_length, seq_length; reflexivity).
  rewrite L, map_length, Nat.eqb_refl. cbn [negb andb]. rewrite set_values_row; cbn [p_rows p_cols p_owner p_store p_stash p_sent p_mode p_assembled];
    [|exact H3|rewrite H1; exact D|rewrite H2; apply V_range|exact L]. eexists. split; [reflexivity|]. unfold holds. cbn [p_rows p_cols p_owner p_sent p_store]. rewrite H5. repeat split; assumption.
Qed.
Lemma run_adds t k d mcs A E : d < m -> holds A E -> exists B, run false (map (fun o => (0, o)) (map (row_op t k d ADD_VALUES) mcs)) A = Ok B /\
  holds B (fold_left (fun E' mc' => add_row E' d (V_dofs (snd mc')) (values_on V_dofs dof_value t k mc')) mcs E).
Proof.
  intros D. revert A E. induction mcs as [|mc mcs IH]; intros A E H; cbn [map run fold_left]; [exists A; split; [reflexivity|exact H]|].
  destruct (step_row t k d ADD_VALUES mc A E D H) as (B & S1 & H1). rewrite S1. cbn [bind]. apply IH, H1.
Qed.
Lemma run_sweep t k d mcs A E : d < m -> holds A E -> exists B, run false (map (fun o => (0, o)) (sweep_ops V_dofs dof_value t k d mcs)) A = Ok B /\ holds B (sweep V_dofs dof_value t k d mcs E).
Proof.
  intros D H. destruct mcs as [|mc mcs]; [exists A; split; [reflexivity|exact H]|]. unfold sweep_ops, sweep. cbn [map run].
  destruct (step_row t k d INSERT_VALUES mc A E D H) as (B & S1 & H1). unfold row_op in S1. rewrite S1. cbn [bind]. apply run_adds; assumption.
Qed.
Lemma run_dofs t mcs ds k seen A E : Forall (fun d => d < m) ds -> holds A E ->
  fst (dofs_ops V_dofs dof_value t k mcs ds seen) = fst (two_dofs V_dofs dof_value t k mcs ds (seen, E)) /\
  exists B, run false (map (fun o => (0, o)) (snd (dofs_ops V_dofs dof_value t k mcs ds seen))) A = Ok B /\ holds B (snd (two_dofs V_dofs dof_value t k mcs ds (seen, E))).
Proof.
  revert k seen A E. induction ds as [|d ds IH]; intros k seen A E F H; cbn [dofs_ops two_dofs fst snd]; [split; [reflexivity|]; exists A; split; [reflexivity|exact H]|].
  destruct (nth d seen true); [apply IH; [exact (Forall_inv_tail F)|exact H]|]. cbn [fst snd].
  destruct (run_sweep t k d mcs A E (Forall_inv F) H) as (B & R1 & H1). destruct (IH (S k) (set_nth seen d true) B _ (Forall_inv_tail F) H1) as (I1 & C & R2 & H2).
  split; [exact I1|]. exists C. rewrite map_app, run_app, R1. cbn [bind]. split; [exact R2|exact H2].
Qed.
Lemma run_loop ps mapping cells seen A E : holds A E ->
  match two_loop gdim cell_mid trace_mid normal facet_cells T_dofs V_dofs dof_value ps mapping cells (seen, E) with
  | Ok s => exists B, run false (map (fun o => (0, o)) (loop_ops gdim cell_mid trace_mid normal facet_cells T_dofs V_dofs dof_value ps mapping cells seen)) A = Ok B /\ holds B (snd s)
  | Err e => run false (map (fun o => (0, o)) (loop_ops gdim cell_mid trace_mid normal facet_cells T_dofs V_dofs dof_value ps mapping cells seen)) A = Err e
  end.
Proof.
  revert seen A E. induction cells as [|t cells IH]; intros seen A E H; cbn [two_loop loop_ops]; [exists A; split; [reflexivity|exact H]|].
  destruct (opt_res KeyError (lookup t mapping)) as [f|e]; cbn [bind]; [|reflexivity]. destruct (two_cells gdim cell_mid trace_mid normal ps t (facet_cells f)) as [mcs|e]; cbn [bind]; [|reflexivity].
  destruct (run_dofs t mcs (T_dofs t) 0 seen A E (T_range t) H) as (I1 & B & R1 & H1). specialize (IH (fst (dofs_ops V_dofs dof_value t 0 mcs (T_dofs t) seen)) B _ H1).
  assert (PE : two_dofs V_dofs dof_value t 0 mcs (T_dofs t) (seen, E) = (fst (dofs_ops V_dofs dof_value t 0 mcs (T_dofs t) seen), snd (two_dofs V_dofs dof_value t 0 mcs (T_dofs t) (seen, E))))
    by (rewrite I1; apply surjective_pairing).
  rewrite PE. destruct (two_loop _ _ _ _ _ _ _ _ ps mapping cells _) as [s|e]; rewrite map_app, run_app, R1; cbn [bind]; exact IH.
Qed.
(** calls of both modes *)
Lemma dofs_unseen t mcs ds k seen d : In d ds -> nth d seen true = false -> exists k', incl (sweep_ops V_dofs dof_value t k' d mcs) (snd (dofs_ops V_dofs dof_value t k mcs ds seen)).
Proof.
  revert k seen. induction ds as [|x ds IH]; intros k seen I N; [destruct I|]. cbn [dofs_ops]. destruct (Nat.eq_dec x d) as [->|X].
  - rewrite N. exists k. cbn [snd]. apply incl_appl, incl_refl.
  - destruct I as [I|I]; [contradiction|]. destruct (nth x seen true) eqn:s; [apply IH; assumption|]. cbn [snd].
    destruct (IH (S k) (set_nth seen x true) I) as (k' & H); [rewrite nth_set_nth, (proj2 (Nat.eqb_neq d x)) by congruence; exact N|]. exists k'. apply incl_appr, H.
Qed.
Lemma dofs_seen t mcs ds k seen d : ~ In d ds -> nth d (fst (dofs_ops V_dofs dof_value t k mcs ds seen)) true = nth d seen true.
Proof.
  revert k seen. induction ds as [|x ds IH]; intros k seen N; [reflexivity|]. cbn [dofs_ops]. destruct (nth x seen true); cbn [fst].
  - apply IH. intros H. apply N. right. exact H.
  - rewrite IH by (intros H; apply N; right; exact H). rewrite nth_set_nth, (proj2 (Nat.eqb_neq d x)); [reflexivity|]. intros ->. apply N. left. reflexivity.
Qed.
End Two.
