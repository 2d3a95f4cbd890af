(** One operator for all components of a space: specification and lemmas (property C65) *)
From Verif Require Export VectorizedModel.
From Verif Require Import MatProofs FillProofs BaseProofs.
Local Close Scope Q_scope.
Local Close Scope Qc_scope.
Local Open Scope nat_scope.

(** ** Specification *)
(** Each component has [n] dofs, dofs of the space, which no other component has *)
Definition partitioned (W : space) (n : nat) : Prop :=
  (forall index, In index (component_dofs W) -> length index = n) /\ NoDup (concat (component_dofs W)) /\ forall k, In k (concat (component_dofs W)) -> k < wdim W.
Definition dof (W : space) (j i : nat) : nat := nth i (nth j (component_dofs W) []) 0.
(** [x] is [A] applied to each component of [b] *)
Definition componentwise (W : space) (A : mat) (b x : vec) : Prop :=
  length x = wdim W /\ forall j i, j < length (component_dofs W) -> i < nr A -> vnth x (dof W j i) = sumn (nc A) (fun k => (ent A i k * vnth b (dof W j k))%Qc).
(** A product with a diagonal of matrices *)
Definition row_product (row : list (option mat)) (xs : list vec) (n r : nat) : Qc :=
  sumn n (fun j => match nth j row None with Some A => vnth (mv A (nth j xs [])) r | None => 0%Qc end).

(** ** Lemmas *)
Lemma put_values index : forall values work w, put work index values = Ok w -> NoDup index -> length w = length work /\ (forall i, i < length index -> vnth w (nth i index 0) = vnth values i) /\ (forall k, ~ In k index -> vnth w k = vnth work k).
Proof.
  induction index as [|a index IH]; intros values work w H N; unfold put in H.
  - cbn [forallb length] in H. destruct values as [|v values]; [cbn in H|discriminate]. injection H as <-. repeat split. intros i Hi. cbn in Hi. lia.
  - cbn [forallb] in H. destruct (a <? length work) eqn:A; [cbn [andb] in H|discriminate]. apply Nat.ltb_lt in A. destruct (forallb (fun k => k <? length work) index) eqn:F; [|discriminate]. destruct values as [|v values]; [discriminate|]. cbn [length Nat.eqb combine fold_left fst snd] in H. destruct (length values =? length index) eqn:L; [|discriminate].
    inversion N as [|? ? Na N' ]; subst. destruct (IH values (set_nth work a v) w) as [W1 [W2 W3]]; [|exact N'|].
    { unfold put. rewrite set_nth_length, F, L. exact H. }
    rewrite set_nth_length in W1. split; [exact W1|split].
    + intros [|i] Hi; cbn [nth].
      * rewrite (W3 a Na). unfold vnth. rewrite nth_set_nth, Nat.eqb_refl. apply Nat.ltb_lt in A. rewrite A. reflexivity.
      * cbn in Hi. rewrite W2 by lia. reflexivity.
    + intros k Nk. cbn in Nk. rewrite W3 by (intros K; apply Nk; right; exact K). unfold vnth. rewrite nth_set_nth. destruct (Nat.eqb_spec k a) as [->|]; [|reflexivity]. exfalso. apply Nk. left. reflexivity.
Qed.
Lemma put_ok index values work : (forall k, In k index -> k < length work) -> length values = length index -> exists w, put work index values = Ok w.
Proof.
  intros R L. unfold put. replace (forallb (fun k => k <? length work) index) with true. rewrite L, Nat.eqb_refl. eexists; reflexivity.
  symmetry. apply forallb_forall. intros k K. apply Nat.ltb_lt. auto.
Qed.
Lemma component_spec A b work index : nr A = length index -> nc A = length index -> NoDup index -> (forall k, In k index -> k < length b /\ k < length work) ->
  exists w, component A b work index = Ok w /\ length w = length work /\ (forall i, i < length index -> vnth w (nth i index 0) = sumn (nc A) (fun k => (ent A i k * vnth b (nth k index 0%nat))%Qc)) /\ (forall k, ~ In k index -> vnth w k = vnth work k).
Proof.
  intros E1 E2 N R. unfold component, sub_vector, multiply. replace (forallb (fun k => k <? length b) index) with true by (symmetry; apply forallb_forall; intros k K; apply Nat.ltb_lt, R, K). cbn [bind]. rewrite map_length, E2, Nat.eqb_refl. cbn [bind].
  destruct (put_ok index (mv A (map (vnth b) index)) work) as [w P]; [intros k K; apply R, K|rewrite mv_length; exact E1|]. exists w. split; [exact P|]. destruct (put_values _ _ _ _ P N) as [W1 [W2 W3]]. split; [exact W1|split; [|exact W3]].
  intros i Hi. rewrite (W2 i Hi), vnth_mv by lia. rewrite E2. apply sumn_ext. intros k Hk. f_equal. unfold vnth at 1. rewrite (nth_indep _ q0 (vnth b 0%nat)) by (rewrite map_length; lia). rewrite map_nth. reflexivity.
Qed.
Lemma NoDup_parts {X} (l l' : list X) : NoDup (l ++ l') -> NoDup l /\ NoDup l' /\ forall x, In x l -> ~ In x l'.
Proof.
  induction l as [|a l IH]; intros H; [repeat split; [constructor|exact H|intros x []]|]. cbn in H. inversion H as [|? ? Na N]; subst. destruct (IH N) as [A [B C]]. repeat split; [constructor; [|exact A]|exact B|].
  - intros K. apply Na, in_or_app. left. exact K.
  - intros x [<- | K]; [|apply C; exact K]. intros K. apply Na, in_or_app. right. exact K.
Qed.
Lemma components_spec A b indices : forall work, (forall index, In index indices -> length index = nr A) -> nr A = nc A -> NoDup (concat indices) -> (forall k, In k (concat indices) -> k < length b /\ k < length work) ->
  exists w, foldM (fun w index => component A b w index) indices work = Ok w /\ length w = length work /\
    (forall j i, j < length indices -> i < nr A -> vnth w (nth i (nth j indices []) 0) = sumn (nc A) (fun k => (ent A i k * vnth b (nth k (nth j indices []) 0%nat))%Qc)) /\ (forall k, ~ In k (concat indices) -> vnth w k = vnth work k).
Proof.
  induction indices as [|index indices IH]; intros work L E N R.
  - exists work. repeat split. intros j i Hj. cbn in Hj. lia.
  - cbn [concat] in N, R. apply NoDup_parts in N. destruct N as [N1 [N2 N3]]. assert (Li : length index = nr A) by (apply L; left; reflexivity).
    destruct (component_spec A b work index) as [w1 [C1 [C2 [C3 C4]]]]; [congruence|congruence|exact N1|intros k K; apply R, in_or_app; left; exact K|].
    destruct (IH w1) as [w [D1 [D2 [D3 D4]]]]; [intros x X; apply L; right; exact X|exact E|exact N2|intros k K; rewrite C2; apply R, in_or_app; right; exact K|].
    exists w. cbn [foldM]. rewrite C1. cbn [bind]. split; [exact D1|]. split; [congruence|]. split.
    + intros [|j] i Hj Hi; cbn [nth]; [|apply D3; [cbn in Hj; lia|exact Hi]]. rewrite D4; [apply C3; lia|]. apply N3, nth_In. lia.
    + intros k Nk. cbn [concat] in Nk. rewrite D4, C4; [reflexivity| |]; intros K; apply Nk, in_or_app; tauto.
Qed.
Lemma unpack_set_ok xs : (exists x, unpack_set xs = Ok x) <-> xs <> [] /\ forall a b, In a xs -> In b xs -> a = b.
Proof.
  unfold unpack_set. pose proof (NoDup_nodup Nat.eq_dec xs) as N. pose proof (nodup_In Nat.eq_dec xs) as I. destruct (nodup Nat.eq_dec xs) as [|x [|y l]] eqn:E.
  - split; [intros [? [=]]|]. intros [Nn _]. destruct xs as [|a xs]; [congruence|]. destruct (proj2 (I a)). left. reflexivity.
  - split; [|exists x; reflexivity]. intros _. split; [intros ->; discriminate E|]. intros a b Ha Hb. apply I in Ha, Hb. destruct Ha as [<- | []], Hb as [<- | []]. reflexivity.
  - split; [intros [? [=]]|]. intros [_ S]. inversion N as [|? ? Nx _]; subst. exfalso. apply Nx. rewrite (S x y); [left; reflexivity| |]; apply I; [left|right; left]; reflexivity.
Qed.
Lemma vectorize_ok op W r : vectorize op W = Ok r <-> exists A, op = OpMat A /\ r = (A, component_dofs W) /\ component_dofs W <> [] /\ (elements W <> [] /\ forall a b, In a (elements W) -> In b (elements W) -> a = b) /\ nr A = nc A /\ wdim W = nc A * length (component_dofs W).
Proof.
  unfold vectorize. split.
  - destruct (0 <? length (component_dofs W)) eqn:Z; cbn [py_assert bind]; [|discriminate]. apply Nat.ltb_lt in Z. destruct (unpack_set (elements W)) as [e|] eqn:U; [cbn [bind]|discriminate]. destruct op as [A|a]; [|discriminate]. destruct (Nat.eqb_spec (nr A) (nc A)) as [E|]; [cbn [andb]|discriminate].
    destruct (Nat.eqb_spec (nc A * length (component_dofs W)) (wdim W)) as [E'|]; cbn [py_assert bind]; [|discriminate]. intros H. injection H as <-. exists A. split; [reflexivity|split; [reflexivity|]]. split; [intros K; rewrite K in Z; cbn in Z; lia|]. split; [apply unpack_set_ok; exists e; exact U|]. split; [exact E|symmetry; exact E'].
  - intros [A [-> [-> [N [S [E D]]]]]]. destruct (component_dofs W) as [|d ds] eqn:C; [congruence|]. cbn [length Nat.ltb Nat.leb py_assert bind]. apply unpack_set_ok in S. destruct S as [e ->]. cbn [bind]. rewrite E, D, !Nat.eqb_refl. reflexivity.
Qed.
Lemma concat_same_length {X} n (ls : list (list X)) : (forall l, In l ls -> length l = n) -> length (concat ls) = n * length ls.
Proof. induction ls as [|l ls IH]; intros H; [cbn; lia|]. cbn [concat length]. rewrite app_length, IH, (H l); [lia|left; reflexivity|intros x X'; apply H; right; exact X']. Qed.
(** By counting, each dof is one of a component *)
Lemma covered W n k : partitioned W n -> wdim W = n * length (component_dofs W) -> k < wdim W -> exists j i, j < length (component_dofs W) /\ i < n /\ k = dof W j i.
Proof.
  intros [L [N R]] D Hk. assert (I : In k (concat (component_dofs W))).
  { apply (NoDup_length_incl N (l' := seq 0 (wdim W))); [rewrite seq_length, (concat_same_length n _ L); lia|intros x X; apply in_seq; specialize (R x X); lia|apply in_seq; lia]. }
  apply in_concat in I. destruct I as [index [I1 I2]]. destruct (In_nth _ _ [] I1) as [j [Hj E]]. destruct (In_nth _ _ 0 I2) as [i [Hi E']]. exists j, i. split; [exact Hj|]. split; [rewrite <- (L index I1); exact Hi|]. unfold dof. rewrite E. symmetry. exact E'.
Qed.
Lemma componentwise_unique W A b x y : partitioned W (nr A) -> wdim W = nr A * length (component_dofs W) -> componentwise W A b x -> componentwise W A b y -> x = y.
Proof.
  intros P D [L1 X] [L2 Y]. apply vec_ext; [congruence|]. intros k Hk. rewrite L1 in Hk. destruct (covered W (nr A) k P D Hk) as [j [i [Hj [Hi ->]]]]. rewrite X, Y by assumption. reflexivity.
Qed.
Lemma matvec_spec op W A ix work b : vectorize op W = Ok (A, ix) -> partitioned W (nr A) -> length work = wdim W -> length b = wdim W -> exists x, vectorized_matvec W (A, ix) work b = Ok (x, x) /\ componentwise W A b x.
Proof.
  intros H P Lw Lb. apply vectorize_ok in H. destruct H as [A' [-> [R [_ [_ [E D]]]]]]. injection R as <- ->. destruct P as [P1 [P2 P3]]. unfold vectorized_matvec. cbn [fst snd].
  destruct (components_spec A b (component_dofs W) work) as [w [W1 [W2 [W3 _]]]]; [exact P1|exact E|exact P2|intros k K; rewrite Lw, Lb; split; apply P3, K|].
  rewrite W1. cbn [bind]. rewrite W2, Lw, Nat.eqb_refl. exists w. split; [reflexivity|]. split; [congruence|]. exact W3.
Qed.
Lemma products_spec op W A ix : vectorize op W = Ok (A, ix) -> partitioned W (nr A) -> forall bs work, length work = wdim W -> (forall b, In b bs -> length b = wdim W) -> exists xs, products W (A, ix) work bs = Ok xs /\ Forall2 (componentwise W A) bs xs.
Proof.
  intros H P. induction bs as [|b bs IH]; intros work Lw Lb; [exists []; split; [reflexivity|constructor]|]. cbn [products].
  destruct (matvec_spec op W A ix work b H P Lw) as [x [X C]]; [apply Lb; left; reflexivity|]. rewrite X. cbn [bind fst snd]. destruct (IH x) as [xs [Xs F]]; [exact (proj1 C)|intros b' B; apply Lb; right; exact B|]. rewrite Xs. exists (x :: xs). split; [reflexivity|]. constructor; assumption.
Qed.
(** *** block_diag_mat *)
Lemma set_diagonal_spec {X} (D : list X) : forall i0 (B : list (list (option X))), (forall i, i0 <= i < i0 + length D -> i < length B /\ i < length (nth i B [])) ->
  length (set_diagonal i0 D B) = length B /\ (forall i, length (nth i (set_diagonal i0 D B) []) = length (nth i B [])) /\
  forall i j, nth j (nth i (set_diagonal i0 D B) []) None = if (i =? j) && (i0 <=? i) && (i <? i0 + length D) then nth_error D (i - i0) else nth j (nth i B []) None.
Proof.
  induction D as [|A D IH]; intros i0 B R; cbn [set_diagonal length].
  - split; [reflexivity|split; [reflexivity|]]. intros i j. destruct (Nat.leb_spec i0 i), (Nat.ltb_spec i (i0 + 0)); rewrite ?andb_false_r; try reflexivity. lia.
  - set (B' := set_nth B i0 _). destruct (R i0) as [R1 R2]; [cbn; lia|].
    assert (N : forall i, nth i B' [] = if i =? i0 then set_nth (nth i0 B []) i0 (Some A) else nth i B []). { intros i. unfold B'. rewrite nth_set_nth. apply Nat.ltb_lt in R1. rewrite R1, andb_true_r. reflexivity. }
    destruct (IH (i0 + 1) B') as [S1 [S2 S3]].
    { intros i Hi. destruct (R i) as [Ra Rb]; [cbn; lia|]. split; [unfold B'; rewrite set_nth_length; exact Ra|]. rewrite N. destruct (Nat.eqb_spec i i0) as [->|]; [rewrite set_nth_length; exact R2|exact Rb]. }
    split; [rewrite S1; apply set_nth_length|]. split; [intros i; rewrite S2, N; destruct (Nat.eqb_spec i i0) as [->|]; [apply set_nth_length|reflexivity]|].
    intros i j. rewrite S3. destruct (Nat.eqb_spec i j) as [->|Nij]; cbn [andb].
    + destruct (Nat.leb_spec (i0 + 1) j) as [H|H]; cbn [andb].
      * replace (i0 <=? j) with true by (symmetry; apply Nat.leb_le; lia). cbn [andb]. replace (i0 + S (length D)) with (i0 + 1 + length D) by lia. destruct (Nat.ltb_spec j (i0 + 1 + length D)); [|rewrite N; destruct (Nat.eqb_spec j i0); [lia|reflexivity]].
        replace (j - i0) with (S (j - (i0 + 1))) by lia. reflexivity.
      * rewrite N. destruct (Nat.eqb_spec j i0) as [->|Nj].
        -- rewrite Nat.leb_refl. cbn [andb]. replace (i0 <? i0 + S (length D)) with true by (symmetry; apply Nat.ltb_lt; lia). rewrite Nat.sub_diag. cbn [nth_error]. rewrite nth_set_nth, Nat.eqb_refl. apply Nat.ltb_lt in R2. rewrite R2. reflexivity.
        -- destruct (Nat.leb_spec i0 j); [lia|]. reflexivity.
    + rewrite N. destruct (Nat.eqb_spec i i0) as [->|]; [|reflexivity]. rewrite nth_set_nth. destruct (Nat.eqb_spec j i0); [congruence|reflexivity].
Qed.
Lemma block_diag_spec {X} (D : list X) : length (block_diag_mat D) = length D /\ (forall i, i < length D -> length (nth i (block_diag_mat D) []) = length D) /\
  forall i j, i < length D -> j < length D -> nth j (nth i (block_diag_mat D) []) None = if i =? j then nth_error D i else None.
Proof.
  unfold block_diag_mat. set (n := length D). assert (Z : forall i, i < n -> nth i (repeat (repeat (@None X) n) n) [] = repeat None n). { intros i Hi. apply (repeat_spec n (repeat None n)), nth_In. rewrite repeat_length. exact Hi. }
  destruct (set_diagonal_spec D 0 (repeat (repeat None n) n)) as [S1 [S2 S3]]; [intros i Hi; rewrite repeat_length, Z, repeat_length by (unfold n; lia); unfold n; lia|].
  split; [rewrite S1; apply repeat_length|]. split; [intros i Hi; rewrite S2, Z, repeat_length by exact Hi; reflexivity|].
  intros i j Hi Hj. rewrite S3. cbn [Nat.leb]. rewrite andb_true_r. replace (i <? 0 + length D) with true by (symmetry; apply Nat.ltb_lt; exact Hi). rewrite andb_true_r, Nat.sub_0_r. destruct (i =? j); [reflexivity|]. rewrite Z by exact Hi. apply (repeat_spec n), nth_In. rewrite repeat_length. exact Hj.
Qed.
Lemma block_diag_product (D : list mat) xs i r : i < length D -> row_product (nth i (block_diag_mat D) []) xs (length D) r = vnth (mv (nth i D (mzero 0 0)) (nth i xs [])) r.
Proof.
  intros Hi. destruct (block_diag_spec D) as [_ [_ B]]. unfold row_product. rewrite (sumn_single _ i); [|exact Hi|].
  - rewrite (B i i Hi Hi), Nat.eqb_refl. rewrite (nth_error_nth' D (mzero 0 0) Hi). reflexivity.
  - intros j Hj N. rewrite (B i j Hi Hj). destruct (Nat.eqb_spec i j); [congruence|reflexivity].
Qed.
