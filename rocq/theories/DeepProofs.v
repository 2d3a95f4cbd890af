(** What a nested block matrix means, and the lemmas for C99. *)
From Coq Require Import Sorting.Sorted.
From Verif Require Import Base BaseProofs Mat MatProofs ConvertModel ConvertProofs BlockUtilsModel BlockUtilsProofs DeepModel.

(** ** Spec *)

Definition dblk (rows : list (list deep)) (i j : nat) : deep := nth j (nth i rows []) (DNum q0).
Definition is_num (d : deep) : Prop := exists a, d = DNum a.

(** [spread d m n G]: as an [m] by [n] matrix [d] has the entries [G]: a matrix
    has its own, the number 0 has zeros of any size, and the block in row [i]
    and column [j] of a block matrix starts after the rows of the blocks above
    and the columns of the blocks to the left. *)
Inductive spread : deep -> nat -> nat -> (nat -> nat -> Qc) -> Prop :=
| spread_num m n G : (forall r c, r < m -> c < n -> G r c = q0) -> spread (DNum q0) m n G
| spread_mat M G : (forall r c, r < nr M -> c < nc M -> G r c = ent M r c) -> spread (DMat M) (nr M) (nc M) G
| spread_block rows rs cs F G :
    length rows = length rs -> (forall row, In row rows -> length row = length cs) ->
    rs <> [] ->
    (forall i j, i < length rs -> j < length cs -> spread (dblk rows i j) (nth i rs 0) (nth j cs 0) (F i j)) ->
    (forall i j r c, i < length rs -> j < length cs -> r < nth i rs 0 -> c < nth j cs 0 ->
       G (off rs i + r) (off cs j + c) = F i j r c) ->
    spread (DBlock rows) (list_sum rs) (list_sum cs) G.

(** Every row and every column of every block matrix inside has a block that
    is not a number, so that sizes are known. *)
Inductive known : deep -> Prop :=
| known_num a : known (DNum a)
| known_mat M : known (DMat M)
| known_block rows :
    (forall i, i < length rows -> exists j, j < length (nth i rows []) /\ ~ is_num (dblk rows i j)) ->
    (forall j, j < length (hd [] rows) -> exists i, i < length rows /\ ~ is_num (dblk rows i j)) ->
    (forall i j, i < length rows -> j < length (nth i rows []) -> known (dblk rows i j)) ->
    known (DBlock rows).

(** The lists of spaces are not empty; their dimensions. *)
Inductive filled : spaces -> Prop :=
| filled_space n : filled (Space n)
| filled_size n : filled (Size n)
| filled_list l : l <> [] -> (forall V, In V l -> filled V) -> filled (Spaces l).
Fixpoint total (V : spaces) : nat :=
  match V with Space n => n | Size n => n | Spaces l => list_sum (map total l) end.

(** ** Lists *)

Lemma put_length l k n : k < length l -> length (put l k n) = length l.
Proof.
  intros H. unfold put. rewrite app_length, firstn_length. cbn [length]. rewrite skipn_length. lia.
Qed.

Lemma put_nth l k n i : k < length l -> nth i (put l k n) 0 = if i =? k then n else nth i l 0.
Proof.
  unfold put. revert k i. induction l as [|x l IH]; intros k i H; [cbn in H; lia|].
  destruct k as [|k]; destruct i as [|i]; cbn; try reflexivity.
  cbn [length] in H. apply (IH k i). lia.
Qed.

Lemma mapM_each {X Y} (f : X -> res Y) l :
  (forall x, In x l -> exists y, f x = Ok y) -> exists ys, mapM f l = Ok ys /\ Forall2 (fun x y => f x = Ok y) l ys.
Proof.
  induction l as [|x l IH]; intros H; [exists []; split; [reflexivity|constructor]|].
  destruct (H x (or_introl eq_refl)) as [y E]. destruct IH as [ys [E1 E2]]; [intros z Hz; apply H; right; exact Hz|].
  exists (y :: ys). split; [rewrite mapM_cons, E; cbn [bind]; rewrite E1; reflexivity|constructor; assumption].
Qed.

Lemma Forall2_at {X Y} (P : X -> Y -> Prop) l l' i d d' : Forall2 P l l' -> i < length l -> P (nth i l d) (nth i l' d').
Proof.
  intros H. revert i. induction H as [|x y l l' Hxy H IH]; intros i Hi; [cbn in Hi; lia|].
  destruct i as [|i]; [exact Hxy|]. apply IH. cbn in Hi. lia.
Qed.

(** ** The scan of scipy's bmat *)

Definition part (l rs : list nat) : Prop := length l = length rs /\ forall i, i < length rs -> nth i l 0 = 0 \/ nth i l 0 = nth i rs 0.

Lemma fix_len_part l rs k : part l rs -> k < length rs ->
  exists l', fix_len l k (nth k rs 0) = Ok l' /\ part l' rs /\ nth k l' 0 = nth k rs 0 /\
  (forall i, i < length rs -> nth i l 0 = nth i rs 0 -> nth i l' 0 = nth i rs 0).
Proof.
  intros [L P] K. unfold fix_len. destruct (Nat.eqb_spec (nth k l 0) 0) as [E|E].
  - exists (put l k (nth k rs 0)). split; [reflexivity|]. split; [|split].
    + split; [rewrite put_length; lia|]. intros i Hi. rewrite put_nth by lia.
      destruct (Nat.eqb_spec i k); [subst; right; reflexivity|apply P; exact Hi].
    + rewrite put_nth, Nat.eqb_refl by lia. reflexivity.
    + intros i Hi A. rewrite put_nth by lia. destruct (Nat.eqb_spec i k); [subst; reflexivity|exact A].
  - destruct (P k K) as [Z | Z]; [contradiction|]. rewrite Z, Nat.eqb_refl.
    exists l. repeat split; auto.
Qed.

Lemma scan_part rs cs cells : forall br bc, part br rs -> part bc cs ->
  (forall i j A, In (i, j, Some A) cells -> i < length rs /\ j < length cs /\ nr A = nth i rs 0 /\ nc A = nth j cs 0) ->
  exists br' bc', scan cells br bc = Ok (br', bc') /\ part br' rs /\ part bc' cs /\
  (forall i, i < length rs -> nth i br 0 = nth i rs 0 -> nth i br' 0 = nth i rs 0) /\
  (forall j, j < length cs -> nth j bc 0 = nth j cs 0 -> nth j bc' 0 = nth j cs 0) /\
  (forall i j A, In (i, j, Some A) cells -> nth i br' 0 = nth i rs 0 /\ nth j bc' 0 = nth j cs 0).
Proof.
  induction cells as [|[[i j] [A|]] cells IH]; intros br bc Pr Pc H.
  - exists br, bc. repeat split; auto; try apply Pr; try apply Pc; contradiction.
  - destruct (H i j A (or_introl eq_refl)) as (Hi & Hj & Er & Ec).
    cbn [scan]. rewrite Er, Ec.
    destruct (fix_len_part br rs i Pr Hi) as (br1 & E1 & P1 & V1 & K1). rewrite E1. cbn [bind].
    destruct (fix_len_part bc cs j Pc Hj) as (bc1 & E2 & P2 & V2 & K2). rewrite E2. cbn [bind].
    destruct (IH br1 bc1 P1 P2) as (br' & bc' & E & Q1 & Q2 & R1 & R2 & R3); [intros; apply H; right; assumption|].
    exists br', bc'. split; [exact E|]. split; [exact Q1|]. split; [exact Q2|]. split; [auto|]. split; [auto|].
    intros i0 j0 A0 [E0|I0]; [injection E0 as <- <- <-; auto|eauto].
  - cbn [scan]. destruct (IH br bc Pr Pc) as (br' & bc' & E & Q1 & Q2 & R1 & R2 & R3); [intros; apply H; right; assumption|].
    exists br', bc'. split; [exact E|]. repeat (split; [assumption|]).
    intros i0 j0 A0 [E0|I0]; [discriminate|eauto].
Qed.

Lemma part_repeat rs : part (repeat 0 (length rs)) rs.
Proof. split; [apply repeat_length|]. intros i _. left. clear. generalize (length rs). intros n. revert i. induction n; intros [|i]; cbn; auto. Qed.

Lemma cells_in bs m n i j o :
  In (i, j, o) (flat_map (fun i => map (fun j => (i, j, oblk bs i j)) (seq 0 n)) (seq 0 m)) <->
  i < m /\ j < n /\ o = oblk bs i j.
Proof.
  rewrite in_flat_map. split.
  - intros (i' & I1 & I2). apply in_seq in I1. apply in_map_iff in I2. destruct I2 as (j' & E & I2).
    apply in_seq in I2. injection E as <- <- <-. repeat split; lia.
  - intros (Hi & Hj & ->). exists i. split; [apply in_seq; lia|]. apply in_map_iff. exists j.
    split; [reflexivity|apply in_seq; lia].
Qed.

(** What bmat gives when every block fits and every row and column has one. *)
Lemma scipy_bmat_ok rs cs bs :
  (forall i j A, i < length rs -> j < length cs -> oblk bs i j = Some A -> nr A = nth i rs 0 /\ nc A = nth j cs 0) ->
  (forall i, i < length rs -> exists j A, j < length cs /\ oblk bs i j = Some A) ->
  (forall j, j < length cs -> exists i A, i < length rs /\ oblk bs i j = Some A) ->
  exists M, scipy_bmat (length rs) (length cs) bs = Ok M /\ nr M = list_sum rs /\ nc M = list_sum cs /\
  forall i j r c, i < length rs -> j < length cs -> r < nth i rs 0 -> c < nth j cs 0 ->
    ent M (off rs i + r) (off cs j + c) = match oblk bs i j with Some A => ent A r c | None => q0 end.
Proof.
  intros S R C. unfold scipy_bmat.
  destruct (scan_part rs cs (flat_map (fun i => map (fun j => (i, j, oblk bs i j)) (seq 0 (length cs))) (seq 0 (length rs)))
    _ _ (part_repeat rs) (part_repeat cs))
    as (br & bc & E & [L1 _] & [L2 _] & _ & _ & K).
  { intros i j A I. apply cells_in in I. destruct I as (Hi & Hj & O). symmetry in O.
    destruct (S i j A Hi Hj O). auto. }
  rewrite E. cbn [bind].
  assert (B1 : br = rs).
  { apply (nth_ext _ _ 0 0 L1). intros i Hi. rewrite L1 in Hi. destruct (R i Hi) as (j & A & Hj & O).
    apply (K i j A). apply cells_in. auto. }
  assert (B2 : bc = cs).
  { apply (nth_ext _ _ 0 0 L2). intros j Hj. rewrite L2 in Hj. destruct (C j Hj) as (i & A & Hi & O).
    apply (K i j A). apply cells_in. auto. }
  subst br bc. eexists. split; [reflexivity|]. split; [reflexivity|]. split; [reflexivity|].
  intros i j r c Hi Hj Hr Hc. cbn [ent]. rewrite (locate_off rs i r), (locate_off cs j c) by assumption.
  destruct (oblk bs i j) as [A|] eqn:O; [|reflexivity].
  destruct (S i j A Hi Hj O) as [-> ->].
  destruct (Nat.ltb_spec r (nth i rs 0)); [|lia]. destruct (Nat.ltb_spec c (nth j cs 0)); [|lia]. reflexivity.
Qed.

(** ** block_mat_to_numpy *)

Lemma numpy_num d : is_num d -> block_mat_to_numpy d = Ok None.
Proof. intros [a ->]. reflexivity. Qed.

Lemma is_num_dec d : is_num d \/ ~ is_num d.
Proof. destruct d as [a|M|rows]; [left; exists a; reflexivity|right; intros [a E]; discriminate|right; intros [a E]; discriminate]. Qed.

Lemma numpy_spread d m n G : spread d m n G -> known d -> ~ is_num d ->
  exists M, block_mat_to_numpy d = Ok (Some M) /\ nr M = m /\ nc M = n /\ forall r c, r < m -> c < n -> ent M r c = G r c.
Proof.
  induction 1 as [m n G Z | M G Z | rows rs cs F G Lr Lc Ne Sp IH Gd]; intros Kn Nn.
  - destruct Nn. exists q0. reflexivity.
  - exists M. repeat split; try reflexivity. intros r c Hr Hc. symmetry. apply Z; assumption.
  - inversion Kn as [ | |rows' Kr Kc Kd E']. subst rows'.
    assert (Hlen : forall i, i < length rs -> length (nth i rows []) = length cs).
    { intros i Hi. apply Lc. apply nth_In. lia. }
    assert (Each : forall row, In row rows -> exists o, mapM block_mat_to_numpy row = Ok o).
    { intros row I. destruct (In_nth rows row [] I) as (i & Hi & <-).
      destruct (mapM_each block_mat_to_numpy (nth i rows [])) as (ys & E & _); [|eauto].
      intros x J. destruct (In_nth _ x (DNum q0) J) as (j & Hj & <-).
      change (nth j (nth i rows []) (DNum q0)) with (dblk rows i j).
      destruct (is_num_dec (dblk rows i j)) as [N|N]; [exists None; apply numpy_num, N|].
      rewrite Hlen in Hj by lia.
      destruct (IH i j) as (M & E & _); [lia|lia|apply Kd; [lia|rewrite Hlen; lia]|exact N|eauto]. }
    destruct (mapM_each _ rows Each) as (bs & Eb & Fb).
    assert (At : forall i j, i < length rs -> j < length cs -> block_mat_to_numpy (dblk rows i j) = Ok (oblk bs i j)).
    { intros i j Hi Hj. assert (Fi := Forall2_at _ _ _ i [] [] Fb ltac:(lia)). cbv beta in Fi.
      destruct (mapM_each block_mat_to_numpy (nth i rows [])) as (ys & E & F2).
      - intros x J. destruct (In_nth _ x (DNum q0) J) as (k & Hk & <-).
        change (nth k (nth i rows []) (DNum q0)) with (dblk rows i k).
        destruct (is_num_dec (dblk rows i k)) as [N|N]; [exists None; apply numpy_num, N|].
        rewrite Hlen in Hk by lia.
        destruct (IH i k) as (M & E & _); [lia|lia|apply Kd; [lia|rewrite Hlen; lia]|exact N|eauto].
      - rewrite E in Fi. injection Fi as Fi. unfold oblk. rewrite <- Fi.
        apply (Forall2_at _ _ _ j (DNum q0) None F2). rewrite Hlen; lia. }
    assert (Val : forall i j, i < length rs -> j < length cs ->
      (is_num (dblk rows i j) -> oblk bs i j = None) /\
      (~ is_num (dblk rows i j) -> exists A, oblk bs i j = Some A /\ nr A = nth i rs 0 /\ nc A = nth j cs 0 /\
         forall r c, r < nth i rs 0 -> c < nth j cs 0 -> ent A r c = F i j r c)).
    { intros i j Hi Hj. specialize (At i j Hi Hj). split; intros N.
      - rewrite (numpy_num _ N) in At. injection At as <-. reflexivity.
      - destruct (IH i j Hi Hj) as (A & E & A1 & A2 & A3); [apply Kd; [lia|rewrite Hlen; lia]|exact N|].
        rewrite E in At. injection At as <-. exists A. auto. }
    destruct (scipy_bmat_ok rs cs bs) as (M & EM & M1 & M2 & M3).
    + intros i j A Hi Hj O. destruct (Val i j Hi Hj) as [V1 V2].
      destruct (is_num_dec (dblk rows i j)) as [N|N]; [rewrite (V1 N) in O; discriminate|].
      destruct (V2 N) as (A' & O' & B1 & B2 & _). rewrite O in O'. injection O' as <-. auto.
    + intros i Hi. destruct (Kr i) as (j & Hj & N); [lia|]. rewrite Hlen in Hj by lia.
      destruct (proj2 (Val i j Hi Hj) N) as (A & O & _). eauto.
    + intros j Hj. destruct (Kc j) as (i & Hi & N).
      { destruct rows as [|row rows]; [destruct rs; [congruence|discriminate]|]. cbn [hd]. rewrite (Lc row (or_introl eq_refl)). exact Hj. }
      rewrite Lr in Hi. destruct (proj2 (Val i j Hi Hj) N) as (A & O & _). eauto.
    + exists M. cbn [block_mat_to_numpy]. rewrite Eb. cbn [bind].
      destruct rows as [|row rows0]; [destruct rs; [congruence|discriminate]|].
      rewrite Lr, (Lc row (or_introl eq_refl)), EM. cbn [bind]. split; [reflexivity|].
      split; [exact M1|]. split; [exact M2|].
      intros I J HI HJ. destruct (locate_inv rs I HI) as (i & r & Hi & Hr & ->).
      destruct (locate_inv cs J HJ) as (j & c & Hj & Hc & ->).
      rewrite M3, Gd by assumption. destruct (Val i j Hi Hj) as [V1 V2].
      destruct (is_num_dec (dblk (row :: rows0) i j)) as [N|N].
      * rewrite (V1 N). specialize (Sp i j Hi Hj). destruct N as [a E]. rewrite E in Sp.
        inversion Sp as [m n G' Z E1 E2 E3 E4| |]. symmetry. apply Z; assumption.
      * destruct (V2 N) as (A & -> & _ & _ & B3). apply B3; assumption.
Qed.

(** ** The identity *)

Section SpacesInd.
  Variable P : spaces -> Prop.
  Hypothesis Psp : forall n, P (Space n).
  Hypothesis Psz : forall n, P (Size n).
  Hypothesis Pl : forall l, (forall V, In V l -> P V) -> P (Spaces l).
  Fixpoint spaces_deep (V : spaces) : P V :=
    match V with
    | Space n => Psp n
    | Size n => Psz n
    | Spaces l => Pl l ((fix go (l : list spaces) : forall V, In V l -> P V :=
        match l with
        | [] => fun V H => match H with end
        | x :: l' => fun V H => match H with
                                | or_introl E => match E in _ = y return P y with eq_refl => spaces_deep x end
                                | or_intror H' => go l' V H'
                                end
        end) l)
    end.
End SpacesInd.

Definition delta (i j : nat) : Qc := if i =? j then q1 else q0.

Lemma identity_not_num V : ~ is_num (identity_matrix V).
Proof. destruct V; intros [a E]; discriminate. Qed.

Lemma identity_blk l i j : i < length l -> j < length l ->
  dblk (map (fun i => map (fun j => if i =? j then nth i (map identity_matrix l) (DNum q0) else DNum q0)
                              (seq 0 (length l))) (seq 0 (length l))) i j =
  if i =? j then identity_matrix (nth i l (Space 0)) else DNum q0.
Proof.
  intros Hi Hj. unfold dblk. rewrite (nth_map_seq _ (length l) i []) by exact Hi.
  rewrite (nth_map_seq _ (length l) j) by exact Hj. destruct (i =? j); [|reflexivity].
  rewrite (nth_indep _ (DNum q0) (identity_matrix (Space 0))) by (rewrite map_length; exact Hi). apply map_nth.
Qed.

Lemma off_le rs i k : i <= k -> off rs i <= off rs k.
Proof.
  unfold off. revert i k. induction rs as [|x rs IH]; intros i k H.
  - rewrite !firstn_nil. reflexivity.
  - destruct i as [|i]; [cbn; lia|]. destruct k as [|k]; [lia|]. cbn [firstn].
    change (list_sum (x :: firstn i rs)) with (x + list_sum (firstn i rs)).
    change (list_sum (x :: firstn k rs)) with (x + list_sum (firstn k rs)).
    specialize (IH i k ltac:(lia)). lia.
Qed.

Lemma identity_spread V : filled V -> spread (identity_matrix V) (total V) (total V) delta /\ known (identity_matrix V).
Proof.
  induction V as [n|n|l IH] using spaces_deep; intros Fi.
  - split; [|constructor]. cbn [identity_matrix total]. change (spread (DMat (diagonal_matrix n q1)) (nr (diagonal_matrix n q1)) (nc (diagonal_matrix n q1)) delta).
    constructor. reflexivity.
  - split; [|constructor]. cbn [identity_matrix total]. change (spread (DMat (diagonal_matrix n q1)) (nr (diagonal_matrix n q1)) (nc (diagonal_matrix n q1)) delta).
    constructor. reflexivity.
  - inversion Fi as [ | |l' Ne Fl E']. subst l'. cbn [identity_matrix total].
    assert (Row : forall i, i < length l -> length (nth i (map (fun i => map (fun j => if i =? j then nth i (map identity_matrix l) (DNum q0) else DNum q0)
                              (seq 0 (length l))) (seq 0 (length l))) []) = length l).
    { intros i Hi. rewrite (nth_map_seq _ (length l) i []) by exact Hi. rewrite map_length, seq_length. reflexivity. }
    split.
    + apply spread_block with (F := fun i j r c => if i =? j then delta r c else q0).
      * rewrite !map_length, seq_length. reflexivity.
      * intros row I. apply in_map_iff in I. destruct I as (i & <- & _). rewrite !map_length, seq_length. reflexivity.
      * destruct l; [congruence|discriminate].
      * intros i j Hi Hj. rewrite map_length in Hi, Hj. rewrite identity_blk by assumption.
        destruct (Nat.eqb_spec i j) as [<-|N].
        -- rewrite (nth_indep _ 0 (total (Space 0))) by (rewrite map_length; exact Hi). rewrite map_nth.
           apply IH; [apply nth_In; exact Hi|apply Fl, nth_In; exact Hi].
        -- constructor. reflexivity.
      * intros i j r c Hi Hj Hr Hc. unfold delta. destruct (Nat.eqb_spec i j) as [<-|N].
        -- destruct (Nat.eqb_spec (off (map total l) i + r) (off (map total l) i + c)), (Nat.eqb_spec r c); (reflexivity || lia).
        -- destruct (Nat.eqb_spec (off (map total l) i + r) (off (map total l) j + c)) as [E|E]; [exfalso|reflexivity].
           destruct (Nat.lt_ge_cases i j) as [L|L].
           ++ assert (H := off_le (map total l) (S i) j L). rewrite off_S in H by exact Hi. lia.
           ++ assert (H := off_le (map total l) (S j) i ltac:(lia)). rewrite off_S in H by exact Hj. lia.
    + apply known_block.
      * intros i Hi. rewrite map_length, seq_length in Hi. exists i. rewrite Row by exact Hi. split; [exact Hi|].
        rewrite identity_blk, Nat.eqb_refl by assumption. apply identity_not_num.
      * intros j Hj. assert (Hj' : j < length l).
        { destruct l as [|x l]; [congruence|]. cbn [length seq map hd] in Hj. rewrite ?map_length, ?seq_length in Hj. cbn in Hj |- *. rewrite ?map_length, ?seq_length in Hj. exact Hj. }
        exists j. rewrite map_length, seq_length. split; [exact Hj'|].
        rewrite identity_blk, Nat.eqb_refl by assumption. apply identity_not_num.
      * intros i j Hi Hj. rewrite map_length, seq_length in Hi. rewrite Row in Hj by exact Hi.
        rewrite identity_blk by assumption. destruct (i =? j); [|constructor].
        apply IH; [apply nth_In; exact Hi|apply Fl, nth_In; exact Hi].
Qed.

(** ** Grouping blocks *)

Lemma spread_ext d m n G H : spread d m n G -> (forall r c, r < m -> c < n -> H r c = G r c) -> spread d m n H.
Proof.
  intros S E. destruct S as [m n G Z | M G Z | rows rs cs F G Lr Lc Ne Sp Gd].
  - constructor. intros r c Hr Hc. rewrite E by assumption. apply Z; assumption.
  - constructor. intros r c Hr Hc. rewrite E by assumption. apply Z; assumption.
  - apply spread_block with (F := F); auto. intros i j r c Hi Hj Hr Hc.
    rewrite E; [apply Gd; assumption|apply off_bound; assumption|apply off_bound; assumption].
Qed.

Definition slice {A} (l : list A) (a b : nat) : list A := firstn (b - a) (skipn a l).

Lemma slice_length {A} (l : list A) a b : b <= length l -> length (slice l a b) = b - a.
Proof. intros H. unfold slice. rewrite firstn_length, skipn_length. lia. Qed.

Lemma slice_nth (l : list nat) a b k : k < b - a -> nth k (slice l a b) 0 = nth (a + k) l 0.
Proof.
  unfold slice. generalize (b - a) as m. intros m. revert l m k. induction a as [|a IH]; intros l m k H.
  - cbn [skipn Nat.add]. revert m k H. induction l as [|x l IHl]; intros m k H; [rewrite firstn_nil; reflexivity|].
    destruct m as [|m]; [lia|]. destruct k as [|k]; [reflexivity|]. cbn [firstn nth]. apply IHl. lia.
  - destruct l as [|x l]; [rewrite skipn_nil, firstn_nil; destruct k; reflexivity|].
    cbn [skipn Nat.add nth]. apply IH. exact H.
Qed.

Lemma off_slice rs a b i : b <= length rs -> i <= b - a -> off rs a + off (slice rs a b) i = off rs (a + i).
Proof.
  intros B. induction i as [|i IH]; intros H.
  - change (off (slice rs a b) 0) with 0. rewrite !Nat.add_0_r. reflexivity.
  - assert (LS := slice_length rs a b B). rewrite off_S by lia. rewrite slice_nth by lia.
    replace (a + S i) with (S (a + i)) by lia. rewrite off_S by lia. specialize (IH ltac:(lia)). lia.
Qed.

Lemma off_all rs : off rs (length rs) = list_sum rs.
Proof. unfold off. rewrite firstn_all. reflexivity. Qed.

Lemma sum_slice rs a b : a <= b -> b <= length rs -> off rs a + list_sum (slice rs a b) = off rs b.
Proof.
  intros A B. rewrite <- off_all, slice_length by exact B. rewrite off_slice by lia. f_equal. lia.
Qed.

(** Ends of the groups as natural numbers. *)
Definition gl (o : list Z) (I : nat) : nat := Z.to_nat (low o I).
Definition gh (o : list Z) (I : nat) : nat := Z.to_nat (nth I o 0%Z).

Lemma sorted_nth_lt (l : list Z) i j : StronglySorted Z.lt l -> i < j -> j < length l -> (nth i l 0 < nth j l 0)%Z.
Proof.
  intros S. revert i j. induction S as [|x l S IH F]; intros i j H L; [cbn in L; lia|].
  destruct j as [|j]; [lia|]. cbn [length] in L. destruct i as [|i].
  - cbn [nth]. rewrite Forall_forall in F. apply F. apply nth_In. lia.
  - cbn [nth]. apply IH; lia.
Qed.

Lemma last_nth_Z (l : list Z) : l <> [] -> last l 0%Z = nth (length l - 1) l 0%Z.
Proof.
  induction l as [|x l IH]; intros N; [congruence|]. destruct l as [|y l]; [reflexivity|].
  change (last (x :: y :: l) 0%Z) with (last (y :: l) 0%Z). rewrite IH by discriminate.
  cbn [length]. rewrite !Nat.sub_succ, !Nat.sub_0_r. reflexivity.
Qed.

Lemma groups_facts o k : valid_offsets o k -> (0 < hd 0 o)%Z ->
  gl o 0 = 0 /\ gl o (length o) = k /\ (forall I, gl o (S I) = gh o I) /\
  (forall I, I < length o -> gl o I < gh o I /\ gh o I <= k).
Proof.
  intros V H0. assert (S := valid_sorted0 o k V H0). destruct V as (N & S' & L).
  rewrite last_nth_Z in L by exact N. assert (NZ : 0 < length o) by (destruct o; [congruence|cbn; lia]).
  assert (Nn : forall I, I < length (0%Z :: o) -> (0 <= nth I (0%Z :: o) 0)%Z).
  { intros [|I] HI; [cbn; lia|]. assert (T := sorted_nth_lt _ 0 (Datatypes.S I) S ltac:(lia) HI).
    change (nth 0 (0%Z :: o) 0%Z) with 0%Z in T. lia. }
  unfold gl, gh, low. split; [reflexivity|]. split; [|split].
  - destruct (length o) as [|q] eqn:Q; [lia|]. cbn [nth]. rewrite Nat.sub_succ, Nat.sub_0_r in L. rewrite L. lia.
  - reflexivity.
  - intros I HI. assert (T := sorted_nth_lt _ I (Datatypes.S I) S ltac:(lia) ltac:(cbn [length]; lia)).
    assert (T0 := Nn I ltac:(cbn [length]; lia)).
    change (nth (Datatypes.S I) (0%Z :: o) 0%Z) with (nth I o 0%Z) in T. split; [lia|].
    destruct (Nat.eq_dec I (length o - 1)) as [->|NE]; [rewrite L; lia|].
    assert (T1 := sorted_nth_lt o I (length o - 1) S' ltac:(lia) ltac:(lia)). lia.
Qed.

Definition gsizes (o : list Z) (rs : list nat) : list nat := map (fun I => list_sum (slice rs (gl o I) (gh o I))) (seq 0 (length o)).

Lemma gsizes_off o k rs I : valid_offsets o k -> (0 < hd 0 o)%Z -> length rs = k -> I <= length o ->
  off (gsizes o rs) I = off rs (gl o I).
Proof.
  intros V H0 L. destruct (groups_facts o k V H0) as (G0 & _ & GS & GB).
  induction I as [|I IH]; intros HI.
  - rewrite G0. reflexivity.
  - rewrite off_S by (unfold gsizes; rewrite map_length, seq_length; lia). rewrite IH by lia.
    unfold gsizes. rewrite nth_map_seq by lia. rewrite GS. destruct (GB I HI). apply sum_slice; lia.
Qed.

Lemma reshaped_spread AA o k m n G :
  valid_offsets o k -> (0 < hd 0 o)%Z -> length AA = k -> (forall row, In row AA -> length row = k) ->
  spread (DBlock AA) m n G -> exists d, reshaped AA o = Ok d /\ spread d m n G /\ ~ is_num d.
Proof.
  intros V H0 LA LR S. destruct (block_reshape_correct AA o k V H0 LA LR) as (R & E & L & At).
  unfold reshaped. rewrite E. cbn [bind]. eexists. split; [reflexivity|]. split; [|intros [a X]; discriminate].
  inversion S as [ | |rows rs cs F G' Lr Lc Ne Sp Gd E1 E2 E3 E4]. subst rows m n G'.
  assert (Lrs : length rs = k) by congruence.
  assert (Lcs : length cs = k).
  { destruct AA as [|row AA]; [destruct rs; [congruence|discriminate]|]. rewrite <- (Lc row (or_introl eq_refl)). apply LR. left. reflexivity. }
  destruct (groups_facts o k V H0) as (G0 & Gk & GS & GB).
  assert (Len : forall l : list nat, length (gsizes o l) = length o) by (intros l; unfold gsizes; rewrite map_length, seq_length; reflexivity).
  assert (Sum : forall l, length l = k -> list_sum l = list_sum (gsizes o l)).
  { intros l Ll. rewrite <- (off_all (gsizes o l)), Len, (gsizes_off o k l (length o) V H0 Ll (le_n _)), Gk, <- Ll. symmetry. apply off_all. }
  rewrite (Sum rs Lrs), (Sum cs Lcs).
  apply spread_block with (F := fun I J r c => G (off rs (gl o I) + r) (off cs (gl o J) + c)).
  - rewrite map_length, Len. exact L.
  - intros row I. apply in_map_iff in I. destruct I as (row' & <- & I). rewrite map_length, Len.
    destruct (In_nth_error _ _ I) as (q & Q). assert (Hq : q < length o) by (rewrite <- L; apply nth_error_Some; congruence).
    destruct (At q q Hq Hq) as (row & g & A1 & A2 & _). congruence.
  - intros X. assert (Y := Len rs). rewrite X in Y. destruct V as (N & _). destruct o; [congruence|discriminate].
  - intros I J HI HJ. rewrite Len in HI, HJ. destruct (At I J HI HJ) as (row & g & A1 & A2 & A3 & A4 & A5).
    assert (D : dblk (map (map of_group) R) I J = of_group g).
    { unfold dblk. apply nth_error_nth. rewrite (nth_error_nth (map (map of_group) R) I [] (x := map of_group row)).
      - rewrite nth_error_map, A3. reflexivity.
      - rewrite nth_error_map, A1. reflexivity. }
    rewrite D. fold (gh o I) (gl o I) (gh o J) (gl o J) in A4.
    destruct (GB I HI) as [I1 I2]. destruct (GB J HJ) as [J1 J2].
    assert (A6 : forall i j, i < gh o I - gl o I -> j < gh o J - gl o J -> gentry g i j = Some (dblk AA (gl o I + i) (gl o J + j))).
    { intros i j Hi Hj. assert (B := A5 (gl o I + i) (gl o J + j)). fold (gh o I) (gl o I) (gh o J) (gl o J) in B.
      specialize (B ltac:(lia) ltac:(lia)).
      replace (gl o I + i - gl o I) with i in B by lia. replace (gl o J + j - gl o J) with j in B by lia. rewrite B.
      rewrite (nth_error_nth' AA []) by lia. unfold dblk. apply nth_error_nth'. rewrite (LR (nth (gl o I + i) AA [])) by (apply nth_In; lia). lia. }
    unfold gsizes. rewrite !nth_map_seq by lia.
    destruct g as [x|l]; cbn [gshape of_group] in *.
    + destruct A4 as [P Q]. specialize (A6 0 0 ltac:(lia) ltac:(lia)). cbn [gentry] in A6. injection A6 as A6. rewrite !Nat.add_0_r in A6.
      assert (One : forall l a b, b <= length l -> b - a = 1 -> list_sum (slice l a b) = nth a l 0).
      { intros l a b Hb Hd. assert (T := sum_slice l a b ltac:(lia) Hb). replace b with (Datatypes.S a) in T at 2 by lia. rewrite off_S in T by lia. lia. }
      rewrite (One rs), (One cs) by lia. rewrite A6. apply spread_ext with (G := F (gl o I) (gl o J)); [apply Sp; lia|].
      intros r c Hr Hc. apply Gd; lia.
    + destruct A4 as (P1 & P2 & P3).
      apply spread_block with (F := fun i j => F (gl o I + i) (gl o J + j)).
      * rewrite slice_length by lia. exact P1.
      * intros row' I'. rewrite slice_length by lia. apply P2, I'.
      * intros X. assert (Y := slice_length rs (gl o I) (gh o I) ltac:(lia)). rewrite X in Y. cbn in Y. lia.
      * intros i j Hi Hj. rewrite slice_length in Hi, Hj by lia. rewrite !slice_nth by lia.
        specialize (A6 i j Hi Hj). cbn [gentry] in A6. destruct (nth_error l i) as [row'|] eqn:Q; [|discriminate].
        unfold dblk at 1. rewrite (nth_error_nth l i [] Q), (nth_error_nth row' j (DNum q0) A6). apply Sp; lia.
      * intros i j r c Hi Hj Hr Hc. rewrite slice_length in Hi, Hj by lia. rewrite slice_nth in Hr, Hc by lia.
        rewrite !Nat.add_assoc, !off_slice by lia. apply Gd; lia.
  - intros I J r c HI HJ Hr Hc. rewrite Len in HI, HJ. rewrite !(gsizes_off o k) by (assumption || lia). reflexivity.
Qed.
