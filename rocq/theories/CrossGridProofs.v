(** Specification vocabulary and proofs for CrossGridModel.v *)
From Verif Require Import Base BaseProofs MakeMeshModel MakeMeshProps GeomModel CrossGridModel.
From Coq Require Import Reals Lra.
Local Open Scope nat_scope.

(** Meshes of intervals, triangles and tetrahedra in which everything is there *)
Definition simplicial (m : mesh (R := R)) : Prop :=
  (m_tdim m = 1 \/ m_tdim m = 2 \/ m_tdim m = 3) /\ 0 < m_gdim m /\ Forall (fun x => length x = m_gdim m) (m_vertices m) /\
  Forall (fun c => length c = m_tdim m + 1 /\ Forall (fun v => v < length (m_vertices m)) c) (m_cells m).
(** A list without its j-th entry *)
Definition without {A} (j : nat) (l : list A) : list A := firstn j l ++ skipn (S j) l.
Fixpoint wsum (ws xs : list R) : R := match ws, xs with w :: ws', x :: xs' => (w * x + wsum ws' xs')%R | _, _ => 0%R end.
(** [p] is the combination of the points with the weights [ws], which sum to one *)
Definition combination (gdim : nat) (ws : list R) (pts : list (list R)) (p : list R) : Prop :=
  length ws = length pts /\ fold_right Rplus 0%R ws = 1%R /\ forall k, k < gdim -> nth k p 0%R = wsum ws (map (fun q => nth k q 0%R) pts).
Definition in_simplex (gdim : nat) (pts : list (list R)) (p : list R) : Prop := exists ws, combination gdim ws pts p /\ Forall (fun w => (0 <= w)%R) ws.
Definition inside_simplex (gdim : nat) (pts : list (list R)) (p : list R) : Prop := exists ws, combination gdim ws pts p /\ Forall (fun w => (0 < w)%R) ws.
(** not degenerate: the weights are unique *)
Definition independent (gdim : nat) (pts : list (list R)) : Prop :=
  forall ws ws' p, combination gdim ws pts p -> combination gdim ws' pts p -> ws = ws'.
Definition points (m : mesh (R := R)) (cell : list nat) : list (list R) := map (fun v => nth v (m_vertices m) []) cell.
Definition barycenter (gdim : nat) (pts : list (list R)) (c : list R) : Prop := exists w, combination gdim (map (fun _ => w) pts) pts c.

Lemma basis_without nv : nv = 2 \/ nv = 3 \/ nv = 4 -> forall (cell : list nat), length cell = nv ->
  map (map (fun i => nth i cell 0)) (combos (seq 0 nv) (nv - 1)) = map (fun k => without (nv - 1 - k) cell) (seq 0 nv).
Proof.
  intros [-> | [-> | ->]] cell L; [destruct cell as [| a [| b [| ]]] | destruct cell as [| a [| b [| c [| ]]]] | destruct cell as [| a [| b [| c [| d [| ]]]]]]; try discriminate L; reflexivity.
Qed.
Lemma split_length basis : forall cells pc center, length (fst (split_cells basis cells pc center)) = length cells * length basis /\ length (snd (split_cells basis cells pc center)) = length cells * length basis.
Proof.
  induction cells as [| c cells IH]; intros pc center; [split; reflexivity |]. cbn [split_cells]. destruct (IH (pc + 1) (center + 1)) as [H1 H2]. destruct (split_cells basis cells (pc + 1) (center + 1)). cbn [fst snd] in *.
  rewrite !app_length, !map_length. cbn [length]. lia.
Qed.
Lemma split_nth basis : forall cells pc center i cell k base, nth_error cells i = Some cell -> nth_error basis k = Some base ->
  nth_error (fst (split_cells basis cells pc center)) (i * length basis + k) = Some (map (fun i => nth i cell 0) base ++ [center + i]) /\
  nth_error (snd (split_cells basis cells pc center)) (i * length basis + k) = Some (pc + i).
Proof.
  induction cells as [| c cells IH]; intros pc center i cell k base Hi Hk; [destruct i; discriminate |]. cbn [split_cells].
  specialize (IH (pc + 1) (center + 1)). destruct (split_cells basis cells (pc + 1) (center + 1)) as [fine parents]. cbn [fst snd] in *.
  assert (K : k < length basis) by (apply nth_error_Some; congruence). destruct i as [| i]; cbn [nth_error] in Hi.
  - injection Hi as ->. cbn [Nat.mul Nat.add]. rewrite !nth_error_app1 by (rewrite map_length; exact K). rewrite !Nat.add_0_r. split; erewrite map_nth_error; eauto.
  - destruct (IH i cell k base Hi Hk) as [H1 H2]. rewrite !nth_error_app2 by (rewrite map_length; cbn; lia). rewrite !map_length.
    replace (S i * length basis + k - length basis) with (i * length basis + k) by (cbn; lia). rewrite H1, H2. replace (center + 1 + i) with (center + S i) by lia. replace (pc + 1 + i) with (pc + S i) by lia. split; reflexivity.
Qed.
Lemma split_rows n basis : forall cells pc center, Forall (fun b => length b = n) basis -> Forall (fun c => length c = n + 1) (fst (split_cells basis cells pc center)).
Proof.
  intros cells pc center H. revert pc center. induction cells as [| c cells IH]; intros pc center; [constructor |]. cbn [split_cells]. specialize (IH (pc + 1) (center + 1)). destruct (split_cells basis cells (pc + 1) (center + 1)). cbn [fst] in *.
  apply Forall_app. split; [| exact IH]. apply Forall_forall. intros f Hf. apply in_map_iff in Hf. destruct Hf as [b [<- Hb]]. rewrite app_length, map_length. rewrite Forall_forall in H. rewrite (H b Hb). reflexivity.
Qed.

Lemma wsum_const w xs : wsum (map (fun _ => w) xs) xs = (w * fold_right Rplus 0 xs)%R.
Proof. induction xs as [| x xs IH]; cbn [map wsum fold_right]; [ring |]. rewrite IH. ring. Qed.
Lemma nth_map_seq {B} (f : nat -> B) n k d : k < n -> nth k (map f (seq 0 n)) d = f k.
Proof. intros H. rewrite (nth_indep _ d (f 0)) by (rewrite map_length, seq_length; exact H). rewrite map_nth, seq_nth by exact H. reflexivity. Qed.
Lemma cell_mean_ok gdim x cell : cell <> [] -> Forall (fun v => v < length x) cell ->
  exists c, cell_mean gdim x cell = Ok c /\ length c = gdim /\ combination gdim (map (fun _ => (/ INR (length cell))%R) cell) (map (fun v => nth v x []) cell) c.
Proof.
  intros NE H. unfold cell_mean. rewrite (mapM_map _ (fun v => nth v x [])).
  2: { eapply Forall_impl; [| exact H]. intros v Hv. rewrite (nth_error_nth' x [] Hv). reflexivity. }
  cbn [bind]. eexists. split; [reflexivity |]. split; [rewrite map_length, seq_length; reflexivity |]. split; [rewrite !map_length; reflexivity |].
  assert (P : INR (length cell) <> 0%R) by (apply not_0_INR; destruct cell; [contradiction | discriminate]). split.
  - assert (S : forall (l : list nat) w, fold_right Rplus 0%R (map (fun _ => w) l) = (INR (length l) * w)%R).
    { induction l as [| a l IH]; intros w; [cbn; ring |]. cbn [map fold_right length]. rewrite IH, S_INR. ring. }
    rewrite S. field. exact P.
  - intros k Hk. rewrite nth_map_seq by exact Hk. rewrite map_length. rewrite !map_map.
    replace (map (fun _ : nat => (/ INR (length cell))%R) cell) with (map (fun _ : R => (/ INR (length cell))%R) (map (fun v => nth k (nth v x []) 0%R) cell)) by (rewrite map_map; reflexivity).
    rewrite wsum_const. unfold Rdiv. ring.
Qed.

(** Weights *)
Definition put {A} (j : nat) (a : A) (l : list A) : list A := firstn j l ++ a :: skipn j l.
Lemma without_S {A} j (x : A) l : without (S j) (x :: l) = x :: without j l. Proof. reflexivity. Qed.
Lemma without_0 {A} (x : A) l : without 0 (x :: l) = l. Proof. reflexivity. Qed.
Lemma without_length {A} j (l : list A) : j < length l -> S (length (without j l)) = length l.
Proof. intros H. unfold without. rewrite app_length, firstn_length, skipn_length. lia. Qed.
Lemma without_map {A B} (f : A -> B) j l : without j (map f l) = map f (without j l).
Proof. unfold without. rewrite map_app, firstn_map, skipn_map. reflexivity. Qed.
Lemma put_length {A} j (a : A) l : j <= length l -> length (put j a l) = S (length l).
Proof. intros H. unfold put. rewrite app_length. cbn [length]. rewrite firstn_length, skipn_length. lia. Qed.
Lemma put_nth {A} j (a d : A) l : j <= length l -> nth j (put j a l) d = a.
Proof. intros H. unfold put. rewrite app_nth2 by (rewrite firstn_length; lia). rewrite firstn_length. replace (j - Nat.min j (length l)) with 0 by lia. reflexivity. Qed.
Lemma in_firstn {A} j (l : list A) x : In x (firstn j l) -> In x l.
Proof. intros H. rewrite <- (firstn_skipn j l). apply in_or_app. left. exact H. Qed.
Lemma in_skipn {A} j (l : list A) x : In x (skipn j l) -> In x l.
Proof. intros H. rewrite <- (firstn_skipn j l). apply in_or_app. right. exact H. Qed.
Lemma put_other {A} (P : A -> Prop) j a d l i : j <= length l -> Forall P l -> i <> j -> i < S (length l) -> P (nth i (put j a l) d).
Proof.
  intros Hj F N Hi. rewrite Forall_forall in F. unfold put. destruct (Nat.lt_ge_cases i j) as [L | L].
  - rewrite app_nth1 by (rewrite firstn_length; lia). apply F. apply (in_firstn j). apply nth_In. rewrite firstn_length. lia.
  - rewrite app_nth2 by (rewrite firstn_length; lia). rewrite firstn_length. replace (i - Nat.min j (length l)) with (S (i - j - 1)) by lia. cbn [nth]. apply F. apply (in_skipn j). apply nth_In. rewrite skipn_length. lia.
Qed.
Lemma put_without {A} j (a : A) l : j <= length l -> without j (put j a l) = l.
Proof.
  intros H. revert l H. induction j as [| j IH]; intros l H; [reflexivity |]. destruct l as [| x l]; [cbn in H; lia |]. change (put (S j) a (x :: l)) with (x :: put j a l). rewrite without_S, IH by (cbn in H; lia). reflexivity.
Qed.
Lemma put_Forall {A} (P : A -> Prop) j a l : P a -> Forall P l -> Forall P (put j a l).
Proof. intros Ha F. rewrite <- (firstn_skipn j l) in F. apply Forall_app in F. unfold put. apply Forall_app. split; [apply F |]. constructor; [exact Ha | apply F]. Qed.
Lemma without_Forall {A} (P : A -> Prop) j l : Forall P l -> Forall P (without j l).
Proof. intros F. apply Forall_forall. rewrite Forall_forall in F. intros x H. apply F. unfold without in H. apply in_app_or in H. destruct H as [H | H]; [apply (in_firstn j) | apply (in_skipn (S j))]; exact H. Qed.

Lemma sum_without j : forall ws, j < length ws -> fold_right Rplus 0%R ws = (nth j ws 0 + fold_right Rplus 0 (without j ws))%R.
Proof.
  induction j as [| j IH]; intros [| w ws] H; cbn [length] in H; try lia; [reflexivity |]. rewrite without_S. cbn [fold_right nth]. rewrite (IH ws) by lia. ring.
Qed.
Lemma wsum_without j : forall ws xs, length ws = length xs -> j < length ws -> wsum ws xs = (nth j ws 0 * nth j xs 0 + wsum (without j ws) (without j xs))%R.
Proof.
  induction j as [| j IH]; intros [| w ws] [| x xs] L H; cbn [length] in *; try lia; [reflexivity |]. rewrite !without_S. cbn [wsum nth]. rewrite (IH ws xs) by lia. ring.
Qed.
Lemma wsum_app : forall ws xs w x, length ws = length xs -> wsum (ws ++ [w]) (xs ++ [x]) = (wsum ws xs + w * x)%R.
Proof. induction ws as [| u ws IH]; intros [| y xs] w x L; try discriminate L; cbn [app wsum]; [ring |]. rewrite IH by (cbn in L; lia). ring. Qed.
Lemma sum_app : forall ws w, fold_right Rplus 0%R (ws ++ [w]) = (fold_right Rplus 0 ws + w)%R.
Proof. induction ws as [| u ws IH]; intros w; cbn [app fold_right]; [ring |]. rewrite IH. ring. Qed.
Lemma wsum_shift a : forall ws xs, length ws = length xs -> wsum (map (fun w => (w + a)%R) ws) xs = (wsum ws xs + a * fold_right Rplus 0 xs)%R.
Proof. induction ws as [| u ws IH]; intros [| y xs] L; try discriminate L; cbn [map wsum fold_right]; [ring |]. rewrite IH by (cbn in L; lia). ring. Qed.
Lemma sum_shift a : forall ws, fold_right Rplus 0%R (map (fun w => (w + a)%R) ws) = (fold_right Rplus 0 ws + INR (length ws) * a)%R.
Proof. induction ws as [| u ws IH]; [cbn; ring |]. cbn [map fold_right length]. rewrite IH, S_INR. ring. Qed.
Lemma sum_const {A} w (l : list A) : fold_right Rplus 0%R (map (fun _ => w) l) = (INR (length l) * w)%R.
Proof. induction l as [| a l IH]; [cbn; ring |]. cbn [map fold_right length]. rewrite IH, S_INR. ring. Qed.
Lemma least : forall ws, ws <> [] -> exists j, j < length ws /\ Forall (fun w => (nth j ws 0 <= w)%R) ws.
Proof.
  induction ws as [| w ws IH]; intros N; [contradiction |]. destruct ws as [| v ws]; [exists 0; split; [cbn; lia | repeat constructor; cbn; lra] |].
  destruct IH as [j [Hj Fj]]; [discriminate |]. destruct (Rle_dec w (nth j (v :: ws) 0%R)) as [L | L].
  - exists 0. split; [cbn; lia |]. constructor; [cbn; lra |]. eapply Forall_impl; [| exact Fj]. cbn [nth]. intros u Hu. cbn beta in Hu. eapply Rle_trans; [exact L | exact Hu].
  - exists (S j). split; [cbn [length] in *; lia |]. cbn [nth] in *. constructor; [apply Rlt_le, Rnot_le_lt; exact L | exact Fj].
Qed.

Section Star.
Variables (gdim : nat) (pts : list (list R)) (c : list R) (w : R).
Hypothesis B : combination gdim (map (fun _ => w) pts) pts c.
Lemma center_k k : k < gdim -> nth k c 0%R = (w * fold_right Rplus 0 (map (fun q => nth k q 0) pts))%R.
Proof. destruct B as [_ [_ H]]. intros Hk. rewrite H by exact Hk. rewrite <- wsum_const, map_map. reflexivity. Qed.
Lemma center_w : (INR (length pts) * w = 1)%R.
Proof. destruct B as [_ [H _]]. rewrite sum_const in H. exact H. Qed.
(** from the weights in the old cell to those in a new one, and back *)
Lemma to_child ws p j : combination gdim ws pts p -> j < length pts ->
  combination gdim (map (fun u => (u + - nth j ws 0)%R) (without j ws) ++ [(INR (length pts) * nth j ws 0)%R]) (without j pts ++ [c]) p.
Proof.
  intros [L [S H]] Hj. set (a := nth j ws 0%R). assert (LW : length (without j ws) = length (without j pts)) by (pose proof (without_length j ws); pose proof (without_length j pts); lia).
  split; [rewrite !app_length, map_length; cbn; lia |]. split.
  - rewrite sum_app, sum_shift, LW. rewrite (sum_without j ws) in S by lia. fold a in S. pose proof (without_length j pts Hj) as E. rewrite <- E, S_INR. lra.
  - intros k Hk. rewrite (H k Hk), map_app. cbn [map]. rewrite wsum_app by (rewrite !map_length; exact LW). rewrite (center_k k Hk), wsum_shift by (rewrite map_length; exact LW).
    rewrite (wsum_without j ws) by (rewrite ?map_length; lia). fold a. rewrite without_map. rewrite (sum_without j (map _ pts)) by (rewrite map_length; exact Hj). rewrite without_map.
    pose proof center_w as W. set (x := nth j (map (fun q => nth k q 0%R) pts) 0%R). set (y := fold_right Rplus 0%R _). set (z := wsum _ _). replace (INR (length pts) * a * (w * (x + y)))%R with (INR (length pts) * w * (a * (x + y)))%R by ring. rewrite W. ring.
Qed.
Lemma to_parent us t p j : combination gdim (us ++ [t]) (without j pts ++ [c]) p -> j < length pts ->
  combination gdim (map (fun u => (u + t * w)%R) (put j 0%R us)) pts p.
Proof.
  intros [L [S H]] Hj. pose proof (without_length j pts Hj) as E. rewrite !app_length in L. cbn [length] in L. assert (LU : length us = length (without j pts)) by lia.
  assert (LP : length (put j 0%R us) = length pts) by (rewrite put_length; lia). split; [rewrite map_length; exact LP |].
  assert (J : j <= length us) by lia. split.
  - rewrite sum_shift, LP. rewrite (sum_without j) by lia. rewrite put_nth, put_without by exact J. rewrite sum_app in S. pose proof center_w as W.
    replace (INR (length pts) * (t * w))%R with (INR (length pts) * w * t)%R by ring. rewrite W. lra.
  - intros k Hk. rewrite (H k Hk), map_app. cbn [map]. rewrite wsum_app by (rewrite map_length; exact LU). rewrite (center_k k Hk), wsum_shift by (rewrite map_length; exact LP).
    rewrite (wsum_without j (put j 0%R us)) by (rewrite ?map_length; lia). rewrite put_nth, put_without by exact J. rewrite without_map. ring.
Qed.
Lemma w_pos : pts <> [] -> (0 < w)%R.
Proof.
  intros N. pose proof center_w as W. assert (P : (0 < INR (length pts))%R) by (apply lt_0_INR; destruct pts; [contradiction | cbn; lia]).
  apply (Rmult_lt_reg_l (INR (length pts))); [exact P |]. rewrite W. lra.
Qed.
End Star.
Lemma split_last (l : list R) : l <> [] -> exists us t, l = us ++ [t].
Proof. intros N. destruct (exists_last N) as [us [t E]]. exists us, t. exact E. Qed.
