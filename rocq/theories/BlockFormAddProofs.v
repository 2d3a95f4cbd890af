(** Proofs about block_form.add, make_selfadjoint and __add__. *)
From Verif Require Import Base BaseProofs UflModel UflProofs BlockFormModel BlockFormProofs.
From Coq Require Import QArith Qcanon Qabs Permutation.
Local Open Scope nat_scope.
Local Close Scope Q_scope.
Local Close Scope Qc_scope.

(** ** Arguments of forms *)

Lemma dedup_In l x : In x (dedup l) <-> In x l.
Proof.
  induction l as [|y l IH]; cbn [dedup]; [tauto|]. destruct (existsb (Nat.eqb y) l) eqn:E.
  - rewrite IH. split; [right; assumption|]. intros [<-|H]; [|assumption].
    apply existsb_exists in E. destruct E as (z & Hz & E). apply Nat.eqb_eq in E. subst. assumption.
  - cbn. rewrite IH. tauto.
Qed.
Lemma dedup_NoDup l : NoDup (dedup l).
Proof.
  induction l as [|y l IH]; cbn [dedup]; [constructor|]. destruct (existsb (Nat.eqb y) l) eqn:E; [assumption|].
  constructor; [|assumption]. rewrite dedup_In. intros H. assert (existsb (Nat.eqb y) l = true).
  { apply existsb_exists. exists y. split; [assumption|apply Nat.eqb_refl]. } congruence.
Qed.
Lemma dedup_single l v : dedup l = [v] <-> In v l /\ forall w, In w l -> w = v.
Proof.
  split.
  - intros E. split; [apply dedup_In; rewrite E; left; reflexivity|]. intros w Hw. apply dedup_In in Hw. rewrite E in Hw. destruct Hw as [<-|[]]. reflexivity.
  - intros [H1 H2]. pose proof (dedup_NoDup l) as ND. apply dedup_In in H1.
    assert (H3 : forall w, In w (dedup l) -> w = v) by (intros w Hw; apply H2, dedup_In, Hw).
    destruct (dedup l) as [|a [|b m]]; [contradiction|rewrite (H3 a) by (left; reflexivity); reflexivity|].
    exfalso. inversion ND; subst. apply H4. left. rewrite (H3 a), (H3 b); [reflexivity|right; left; reflexivity|left; reflexivity].
Qed.
Lemma dedup_nil l : dedup l = [] <-> l = [].
Proof.
  split; [|intros ->; reflexivity]. intros E. destruct l as [|x l]; [reflexivity|]. exfalso.
  assert (In x (dedup (x :: l))) by (apply dedup_In; left; reflexivity). rewrite E in H. contradiction.
Qed.

Lemma arg_spaces_In n e v : In v (arg_spaces n e) <-> exists t, occurs t e /\ tkind t = KArg n v.
Proof.
  unfold arg_spaces. rewrite in_flat_map. split.
  - intros (t & Ht & H). apply terminals_occurs in Ht. exists t. split; [assumption|].
    destruct (tkind t) as [m w|]; [|contradiction]. destruct (m =? n) eqn:E; [|contradiction].
    apply Nat.eqb_eq in E. destruct H as [->|[]]. congruence.
  - intros (t & Ht & K). exists t. split; [apply terminals_occurs; assumption|]. rewrite K, Nat.eqb_refl. left. reflexivity.
Qed.

Lemma form_spaces_single n f v : f <> [] -> (forall x, In x f -> has_space n (snd x) v) -> form_spaces n f = [v].
Proof.
  intros NE H. unfold form_spaces. apply dedup_single. split.
  - destruct f as [|x f]; [contradiction|]. apply in_flat_map. exists x. split; [left; reflexivity|].
    apply arg_spaces_In. apply (H x). left. reflexivity.
  - intros w Hw. apply in_flat_map in Hw. destruct Hw as (x & Hx & Hw). apply arg_spaces_In in Hw. destruct Hw as (t & Ht & K).
    destruct (H x Hx) as [_ U]. eapply U; eassumption.
Qed.
Lemma form_spaces_one n x v : form_spaces n [x] = [v] -> has_space n (snd x) v.
Proof.
  unfold form_spaces. cbn [flat_map]. rewrite app_nil_r. rewrite dedup_single. intros [H1 H2]. apply arg_spaces_In in H1.
  split; [assumption|]. intros t w Ht K. apply H2. apply arg_spaces_In. eauto.
Qed.
Lemma form_spaces_none n f : (forall x, In x f -> no_space n (snd x)) -> form_spaces n f = [].
Proof.
  intros H. unfold form_spaces. apply dedup_nil. destruct (flat_map _ f) as [|v l] eqn:E; [reflexivity|]. exfalso.
  assert (In v (flat_map (fun i => arg_spaces n (snd i)) f)) by (rewrite E; left; reflexivity).
  apply in_flat_map in H0. destruct H0 as (x & Hx & Hv). apply arg_spaces_In in Hv. destruct Hv as (t & Ht & K).
  apply (H x Hx t v Ht K).
Qed.

(** ** Lists *)

Lemma set_nth_spec {A} (l : list A) i x : i < length l ->
  exists l', set_nth l i x = Ok l' /\ length l' = length l /\ forall k, nth_error l' k = if k =? i then Some x else nth_error l k.
Proof.
  revert i. induction l as [|y l IH]; intros i Hi; cbn in Hi; [lia|]. destruct i as [|i]; cbn [set_nth].
  - exists (x :: l). split; [reflexivity|]. split; [reflexivity|]. intros [|k]; reflexivity.
  - destruct (IH i) as (l' & E & L & N); [lia|]. rewrite E. cbn [bind]. exists (y :: l'). split; [reflexivity|].
    split; [cbn; lia|]. intros [|k]; [reflexivity|]. cbn [nth_error Nat.eqb]. apply N.
Qed.

Lemma get_nth_some {A} (l : list A) i x : nth_error l i = Some x -> get_nth l i = Ok x.
Proof. intros H. unfold get_nth. rewrite H. reflexivity. Qed.

Lemma get_bil_some rows i j b : blk rows i j = Some b -> get_bil rows i j = Ok b.
Proof.
  unfold blk, get_bil, get_nth. destruct (nth_error rows i) as [r|]; [|discriminate]. intros H. cbn [bind]. rewrite H. reflexivity.
Qed.

Lemma shaped_blk n rows i j : shaped n rows -> i < n -> j < n -> exists b, blk rows i j = Some b.
Proof.
  intros [L R] Hi Hj. unfold blk. destruct (nth_error rows i) as [r|] eqn:E; [|apply nth_error_None in E; lia].
  specialize (R r (nth_error_In rows i E)). destruct (nth_error r j) as [b|] eqn:F; [eauto|apply nth_error_None in F; lia].
Qed.

Lemma nat_list_eqb_refl l : nat_list_eqb l l = true.
Proof. unfold nat_list_eqb. destruct (list_eq_dec Nat.eq_dec l l); [reflexivity|contradiction]. Qed.

Lemma nth_error_lt {A} (l : list A) i x : nth_error l i = Some x -> i < length l.
Proof. intros H. apply nth_error_Some. congruence. Qed.

(** Assigning a block whose arguments are in the right spaces. *)
Definition admissible (V0 : list nat) (i j : nat) (b : block) : Prop :=
  match b with
  | BForm f => exists v u, nth_error V0 i = Some v /\ nth_error V0 j = Some u /\ test_function f = [v] /\ trial_function f = [u]
  | _ => True
  end.

Lemma set_bil_spec V0 rows i j value : shaped (length V0) rows -> i < length V0 -> j < length V0 -> admissible V0 i j value ->
  exists rows', set_bil V0 rows i j value = Ok rows' /\ shaped (length V0) rows' /\
    forall k l, blk rows' k l = if (k =? i) && (l =? j) then Some value else blk rows k l.
Proof.
  intros [L R] Hi Hj AD. unfold set_bil.
  destruct (nth_error rows i) as [row|] eqn:ER; [|apply nth_error_None in ER; lia].
  destruct (nth_error V0 i) as [v|] eqn:EV; [|apply nth_error_None in EV; lia].
  rewrite (get_nth_some _ _ _ ER), (get_nth_some _ _ _ EV). cbn [bind].
  assert (Lr : length row = length V0) by (apply R; eapply nth_error_In; eassumption).
  destruct (set_nth_spec row j value) as (row' & E1 & L1 & N1); [lia|].
  assert (E2 : set_row V0 v row j value = Ok row').
  { unfold set_row. destruct value as [q|q|f]; cbn [bind]; try assumption. destruct AD as (v' & u & A1 & A2 & A3 & A4).
    assert (v' = v) by congruence. subst v'. rewrite A3, nat_list_eqb_refl, (get_nth_some _ _ _ A2). cbn [bind].
    rewrite A4, nat_list_eqb_refl. cbn [bind]. assumption. }
  rewrite E2. cbn [bind]. destruct (set_nth_spec rows i row') as (rows' & E3 & L3 & N3); [lia|].
  exists rows'. split; [assumption|]. split.
  - split; [lia|]. intros r Hr. apply In_nth_error in Hr. destruct Hr as (k & Hk). rewrite N3 in Hk.
    destruct (k =? i); [inversion Hk; subst; lia|]. apply R. eapply nth_error_In; eassumption.
  - intros k l. unfold blk. rewrite N3. destruct (k =? i) eqn:E; cbn [andb].
    + apply Nat.eqb_eq in E. subst k. rewrite N1, ER. reflexivity.
    + reflexivity.
Qed.

(** ** add *)

Lemma first_index_spec V0 v i : at_pos V0 v i -> first_index v V0 = Ok i.
Proof.
  revert i. induction V0 as [|w V IH]; intros i [H1 H2]; [destruct i; discriminate|]. cbn [first_index].
  destruct i as [|i].
  - inversion H1. rewrite Nat.eqb_refl. reflexivity.
  - destruct (v =? w) eqn:E.
    + apply Nat.eqb_eq in E. subst. exfalso. apply (H2 0); [lia|reflexivity].
    + rewrite (IH i); [reflexivity|]. split; [exact H1|]. intros k Hk. apply (H2 (S k)). lia.
Qed.
Lemma first_index_absent V0 v : ~ In v V0 -> first_index v V0 = Err StopIteration.
Proof.
  induction V0 as [|w V IH]; intros H; [reflexivity|]. cbn [first_index]. destruct (v =? w) eqn:E.
  - apply Nat.eqb_eq in E. subst. exfalso. apply H. left. reflexivity.
  - rewrite IH by (intros G; apply H; right; assumption). reflexivity.
Qed.
Lemma first_index_Ok V0 v i : first_index v V0 = Ok i -> at_pos V0 v i.
Proof.
  revert i. induction V0 as [|w V IH]; intros i; cbn [first_index]; [discriminate|]. destruct (v =? w) eqn:E.
  - intros H. inversion H; subst. apply Nat.eqb_eq in E. subst. split; [reflexivity|]. intros k Hk. lia.
  - destruct (first_index v V) as [k|]; cbn [bind]; [|discriminate]. intros H. inversion H; subst.
    destruct (IH k eq_refl) as [H1 H2]. split; [assumption|]. intros [|m] Hm; [cbn; apply Nat.eqb_neq in E; congruence|].
    cbn. apply H2. lia.
Qed.

Definition addressed2 (V0 : list nat) (e : expr) (i j : nat) : Prop :=
  exists v u, has_space 0 e v /\ has_space 1 e u /\ at_pos V0 v i /\ at_pos V0 u j.
Definition addressed1 (V0 : list nat) (e : expr) (i : nat) : Prop :=
  exists v, has_space 0 e v /\ no_space 1 e /\ at_pos V0 v i.

Definition upd2 (c : nat -> nat -> form) (i j : nat) (x : integral) : nat -> nat -> form :=
  fun k l => if (k =? i) && (l =? j) then c k l ++ [x] else c k l.
Definition upd1 (c : nat -> form) (i : nat) (x : integral) : nat -> form :=
  fun k => if k =? i then c k ++ [x] else c k.

Lemma gathered_plus b f x : gathered b f -> block_plus b [x] = Ok (BForm (f ++ [x])).
Proof. intros [[-> ->]|[-> NE]]; reflexivity. Qed.

Lemma app_single_neq {A} (l : list A) x : l ++ [x] <> [].
Proof. destruct l; discriminate. Qed.

Lemma add1_bil V0 rows c x i j : state2 V0 rows c -> addressed2 V0 (snd x) i j ->
  exists rows', add1 (Bil V0 rows) [x] = Ok (Bil V0 rows') /\ state2 V0 rows' (upd2 c i j x).
Proof.
  intros [S1 S2] (v & u & Hv & Hu & Pv & Pu). cbn [add1].
  assert (Ht : test_function [x] = [v]) by (apply form_spaces_single; [discriminate|intros y [<-|[]]; assumption]).
  assert (Hr : trial_function [x] = [u]) by (apply form_spaces_single; [discriminate|intros y [<-|[]]; assumption]).
  rewrite Ht, Hr. cbn [only bind]. rewrite (first_index_spec V0 u j Pu), (first_index_spec V0 v i Pv). cbn [bind].
  destruct Pv as [Pv _]. destruct Pu as [Pu _]. pose proof (nth_error_lt _ _ _ Pv) as Hi. pose proof (nth_error_lt _ _ _ Pu) as Hj.
  destruct (S2 i j Hi Hj) as [(b & Hb & Gb) RS]. rewrite (get_bil_some _ _ _ _ Hb). cbn [bind].
  rewrite (gathered_plus _ _ x Gb). cbn [bind].
  assert (RS' : right_spaces V0 i j (c i j ++ [x])).
  { intros y Hy. apply in_app_or in Hy. destruct Hy as [Hy|[<-|[]]]; [apply RS; assumption|]. exists v, u. auto. }
  destruct (set_bil_spec V0 rows i j (BForm (c i j ++ [x]))) as (rows' & E & SH & N); [assumption|assumption|assumption|..].
  { exists v, u. split; [assumption|]. split; [assumption|]. split; apply form_spaces_single; try apply app_single_neq;
      intros y Hy; destruct (RS' y Hy) as (v' & u' & A & B & C & D); [replace v with v' by congruence|replace u with u' by congruence]; assumption. }
  rewrite E. cbn [bind]. exists rows'. split; [reflexivity|]. split; [assumption|].
  intros k l Hk Hl. unfold holds2, upd2. rewrite N. destruct ((k =? i) && (l =? j)) eqn:EQ.
  - apply andb_true_iff in EQ. destruct EQ as [A B]. apply Nat.eqb_eq in A, B. subst k l.
    split; [|assumption]. eexists. split; [reflexivity|]. right. split; [reflexivity|apply app_single_neq].
  - apply S2; assumption.
Qed.

Lemma add1_lin V0 bs c x i : state1 V0 bs c -> addressed1 V0 (snd x) i ->
  exists bs', add1 (Lin V0 bs) [x] = Ok (Lin V0 bs') /\ state1 V0 bs' (upd1 c i x).
Proof.
  intros [S1 S2] (v & Hv & Hu & Pv). cbn [add1].
  assert (Ht : test_function [x] = [v]) by (apply form_spaces_single; [discriminate|intros y [<-|[]]; assumption]).
  assert (Hr : trial_function [x] = []) by (apply form_spaces_none; intros y [<-|[]]; assumption).
  rewrite Ht, Hr. cbn [only bind]. rewrite (first_index_spec V0 v i Pv). cbn [bind].
  destruct Pv as [Pv _]. pose proof (nth_error_lt _ _ _ Pv) as Hi.
  destruct (S2 i Hi) as [(b & Hb & Gb) RS]. rewrite (get_nth_some _ _ _ Hb). cbn [bind].
  rewrite (gathered_plus _ _ x Gb). cbn [bind].
  assert (RS' : forall y, In y (c i ++ [x]) -> exists v, has_space 0 (snd y) v /\ no_space 1 (snd y) /\ nth_error V0 i = Some v).
  { intros y Hy. apply in_app_or in Hy. destruct Hy as [Hy|[<-|[]]]; [apply RS; assumption|]. exists v. auto. }
  destruct (set_nth_spec bs i (BForm (c i ++ [x]))) as (bs' & E & L & N); [lia|].
  assert (E' : set_lin V0 bs i (BForm (c i ++ [x])) = Ok bs').
  { unfold set_lin. rewrite (get_nth_some _ _ _ Pv). cbn [bind].
    assert (T : test_function (c i ++ [x]) = [v]); [|rewrite T, nat_list_eqb_refl; exact E].
    apply form_spaces_single; [apply app_single_neq|].
    intros y Hy. destruct (RS' y Hy) as (v' & A & _ & B). replace v with v' by congruence. assumption. }
  rewrite E'. cbn [bind]. exists bs'. split; [reflexivity|]. split; [lia|].
  intros k Hk. unfold upd1. rewrite N. destruct (k =? i) eqn:EQ.
  - apply Nat.eqb_eq in EQ. subst k. split; [|assumption]. eexists. split; [reflexivity|]. right. split; [reflexivity|apply app_single_neq].
  - apply S2; assumption.
Qed.

(** What add reaches, block by block. *)
Definition at2 (i j : nat) (a : nat * nat) : bool := (fst a =? i) && (snd a =? j).

Lemma add_map_bil V0 addr f : (forall x, In x f -> addressed2 V0 (snd x) (fst (addr x)) (snd (addr x))) ->
  forall rows c, state2 V0 rows c ->
  exists rows', add_map (Bil V0 rows) f = Ok (Bil V0 rows') /\
    state2 V0 rows' (fun i j => c i j ++ filter (fun x => at2 i j (addr x)) f).
Proof.
  induction f as [|x f IH]; intros H rows c ST; cbn [add_map].
  - exists rows. split; [reflexivity|]. destruct ST as [S1 S2]. split; [assumption|]. intros i j Hi Hj. cbn [filter]. rewrite app_nil_r. apply S2; assumption.
  - destruct (add1_bil V0 rows c x _ _ ST (H x (or_introl eq_refl))) as (rows1 & E & ST1). rewrite E.
    destruct (IH (fun y Hy => H y (or_intror Hy)) rows1 _ ST1) as (rows2 & E2 & [T1 T2]). exists rows2. split; [assumption|].
    split; [assumption|]. intros i j Hi Hj. specialize (T2 i j Hi Hj).
    replace (c i j ++ filter (fun x => at2 i j (addr x)) (x :: f))
      with (upd2 c (fst (addr x)) (snd (addr x)) x i j ++ filter (fun x => at2 i j (addr x)) f); [exact T2|].
    unfold upd2. cbn [filter]. unfold at2 at 2. rewrite (Nat.eqb_sym i), (Nat.eqb_sym j).
    destruct ((fst (addr x) =? i) && (snd (addr x) =? j)); [rewrite <- app_assoc|]; reflexivity.
Qed.

Lemma add_map_lin V0 addr f : (forall x, In x f -> addressed1 V0 (snd x) (addr x)) ->
  forall bs c, state1 V0 bs c ->
  exists bs', add_map (Lin V0 bs) f = Ok (Lin V0 bs') /\
    state1 V0 bs' (fun i => c i ++ filter (fun x => addr x =? i) f).
Proof.
  induction f as [|x f IH]; intros H bs c ST; cbn [add_map].
  - exists bs. split; [reflexivity|]. destruct ST as [S1 S2]. split; [assumption|]. intros i Hi. cbn [filter]. rewrite app_nil_r. apply S2; assumption.
  - destruct (add1_lin V0 bs c x _ ST (H x (or_introl eq_refl))) as (bs1 & E & ST1). rewrite E.
    destruct (IH (fun y Hy => H y (or_intror Hy)) bs1 _ ST1) as (bs2 & E2 & [T1 T2]). exists bs2. split; [assumption|].
    split; [assumption|]. intros i Hi. specialize (T2 i Hi).
    replace (c i ++ filter (fun x => addr x =? i) (x :: f))
      with (upd1 c (addr x) x i ++ filter (fun x => addr x =? i) f); [exact T2|].
    unfold upd1. cbn [filter]. rewrite (Nat.eqb_sym i).
    destruct (addr x =? i); [rewrite <- app_assoc|]; reflexivity.
Qed.

Lemma add_as_map b f : f <> [] -> (length f = 1 -> forall e, add1 b f = Err e -> e <> StopIteration) -> add b f = add_map b f.
Proof.
  intros NE H. unfold add. destruct f as [|x [|y f]]; [contradiction| |reflexivity].
  cbn [length Nat.ltb Nat.leb add_map]. specialize (H eq_refl). destruct (add1 b [x]) as [b'|e]; [reflexivity|].
  specialize (H e eq_refl). destruct e; reflexivity || contradiction.
Qed.

Lemma add_bil V0 addr f rows c : f <> [] -> (forall x, In x f -> addressed2 V0 (snd x) (fst (addr x)) (snd (addr x))) ->
  state2 V0 rows c ->
  exists rows', add (Bil V0 rows) f = Ok (Bil V0 rows') /\
    state2 V0 rows' (fun i j => c i j ++ filter (fun x => at2 i j (addr x)) f).
Proof.
  intros NE H ST. rewrite add_as_map; [apply add_map_bil; assumption|assumption|].
  intros L e. destruct f as [|x [|y f]]; cbn in L; try lia.
  destruct (add1_bil V0 rows c x _ _ ST (H x (or_introl eq_refl))) as (rows1 & E & _). rewrite E. discriminate.
Qed.

Lemma add_lin V0 addr f bs c : f <> [] -> (forall x, In x f -> addressed1 V0 (snd x) (addr x)) ->
  state1 V0 bs c ->
  exists bs', add (Lin V0 bs) f = Ok (Lin V0 bs') /\
    state1 V0 bs' (fun i => c i ++ filter (fun x => addr x =? i) f).
Proof.
  intros NE H ST. rewrite add_as_map; [apply add_map_lin; assumption|assumption|].
  intros L e. destruct f as [|x [|y f]]; cbn in L; try lia.
  destruct (add1_lin V0 bs c x _ ST (H x (or_introl eq_refl))) as (bs1 & E & _). rewrite E. discriminate.
Qed.

Lemma adds_bil V0 addr fs : (forall f, In f fs -> f <> [] /\ forall x, In x f -> addressed2 V0 (snd x) (fst (addr x)) (snd (addr x))) ->
  forall rows c, state2 V0 rows c ->
  exists rows', adds (Bil V0 rows) fs = Ok (Bil V0 rows') /\
    state2 V0 rows' (fun i j => c i j ++ filter (fun x => at2 i j (addr x)) (concat fs)).
Proof.
  induction fs as [|f fs IH]; intros H rows c ST; cbn [adds concat].
  - exists rows. split; [reflexivity|]. destruct ST as [S1 S2]. split; [assumption|]. intros i j Hi Hj. cbn [filter]. rewrite app_nil_r. apply S2; assumption.
  - destruct (H f (or_introl eq_refl)) as [NE HA]. destruct (add_bil V0 addr f rows c NE HA ST) as (rows1 & E & ST1). rewrite E. cbn [bind].
    destruct (IH (fun y Hy => H y (or_intror Hy)) rows1 _ ST1) as (rows2 & E2 & [T1 T2]). exists rows2. split; [assumption|].
    split; [assumption|]. intros i j Hi Hj. specialize (T2 i j Hi Hj). rewrite filter_app, app_assoc. exact T2.
Qed.

Lemma Permutation_filter {A} (p : A -> bool) l m : Permutation l m -> Permutation (filter p l) (filter p m).
Proof.
  intros H. induction H; cbn [filter].
  - constructor.
  - destruct (p x); [constructor|]; assumption.
  - destruct (p x), (p y); try apply Permutation_refl. apply perm_swap.
  - eapply Permutation_trans; eassumption.
Qed.

(** A single-integral form in a space that is not in the list, and what is
    left of a form in which such an integral occurs. *)
Lemma add1_foreign V0 rows x : (exists v u, has_space 0 (snd x) v /\ has_space 1 (snd x) u /\ (~ In v V0 \/ ~ In u V0)) ->
  add1 (Bil V0 rows) [x] = Err StopIteration.
Proof.
  intros (v & u & Hv & Hu & H). cbn [add1].
  assert (Ht : test_function [x] = [v]) by (apply form_spaces_single; [discriminate|intros y [<-|[]]; assumption]).
  assert (Hr : trial_function [x] = [u]) by (apply form_spaces_single; [discriminate|intros y [<-|[]]; assumption]).
  rewrite Ht, Hr. cbn [only bind]. destruct (first_index u V0) as [col|e] eqn:E.
  - cbn [bind]. destruct H as [H|H]; [rewrite first_index_absent by assumption; reflexivity|].
    rewrite first_index_absent in E by assumption. discriminate.
  - cbn [bind]. clear -E. revert e E. induction V0 as [|w V IH]; cbn [first_index]; intros e E; [congruence|].
    destruct (u =? w); [discriminate|]. destruct (first_index u V) as [k|e']; cbn [bind] in E; [discriminate|].
    inversion E; subst. apply IH. reflexivity.
Qed.

Lemma add_map_foreign V0 addr f x g rows c :
  (forall y, In y f -> addressed2 V0 (snd y) (fst (addr y)) (snd (addr y))) -> state2 V0 rows c ->
  (exists v u, has_space 0 (snd x) v /\ has_space 1 (snd x) u /\ (~ In v V0 \/ ~ In u V0)) ->
  add_map (Bil V0 rows) (f ++ x :: g) = add_map (Bil V0 rows) f.
Proof.
  revert rows c. induction f as [|y f IH]; intros rows c H ST HX; cbn [app add_map].
  - rewrite (add1_foreign V0 rows x HX). reflexivity.
  - destruct (add1_bil V0 rows c y _ _ ST (H y (or_introl eq_refl))) as (rows1 & E & ST1). rewrite E.
    eapply IH; [intros; apply H; right; assumption|exact ST1|assumption].
Qed.

(** ** make_selfadjoint *)

Lemma below_In n i j : In (i, j) (below n) <-> j < i /\ i < n.
Proof.
  unfold below. rewrite in_flat_map. split.
  - intros (k & Hk & H). apply in_map_iff in H. destruct H as (l & E & Hl). inversion E; subst. apply in_seq in Hk, Hl. lia.
  - intros [H1 H2]. exists i. split; [apply in_seq; lia|]. apply in_map_iff. exists j. split; [reflexivity|apply in_seq; lia].
Qed.
Lemma below_NoDup n : NoDup (below n).
Proof.
  unfold below. assert (G : forall l, NoDup l -> NoDup (flat_map (fun i => map (fun j => (i, j)) (seq 0 i)) l)).
  { induction l as [|i l IH]; intros H; [constructor|]. inversion H; subst. cbn [flat_map].
    assert (D : forall p, In p (map (fun j => (i, j)) (seq 0 i)) -> ~ In p (flat_map (fun i => map (fun j => (i, j)) (seq 0 i)) l)).
    { intros p Hp Hq. apply in_map_iff in Hp. destruct Hp as (j & <- & _). apply in_flat_map in Hq. destruct Hq as (k & Hk & Hq).
      apply in_map_iff in Hq. destruct Hq as (m & E & _). inversion E; subst. contradiction. }
    assert (N1 : NoDup (map (fun j => (i, j)) (seq 0 i))) by (apply FinFun.Injective_map_NoDup; [intros a b E; congruence|apply seq_NoDup]).
    revert N1 D. generalize (map (fun j => (i, j)) (seq 0 i)) as m. induction m as [|p m IHm]; intros N1 D; cbn [app]; [apply IH; assumption|].
    inversion N1; subst. constructor.
    - rewrite in_app_iff. intros [A|A]; [contradiction|]. apply (D p); [left; reflexivity|assumption].
    - apply IHm; [assumption|]. intros q Hq. apply D. right. assumption. }
  apply G, seq_NoDup.
Qed.

Lemma allM_spec {A} (g : A -> res bool) (h : A -> bool) l : (forall x, In x l -> g x = Ok (h x)) -> allM (map g l) = Ok (forallb h l).
Proof.
  induction l as [|x l IH]; intros H; [reflexivity|]. cbn [map allM forallb]. rewrite (H x) by (left; reflexivity). cbn [bind].
  destruct (h x); [|reflexivity]. apply IH. intros; apply H; right; assumption.
Qed.

Definition null_at (rows : list (list block)) (i j : nat) : bool :=
  match blk rows i j with Some b => is_null b | None => false end.

Lemma upper_spec V0 rows : shaped (length V0) rows ->
  is_upper_triangular (Bil V0 rows) = Ok (forallb (fun ij => null_at rows (fst ij) (snd ij)) (below (length V0))).
Proof.
  intros SH. cbn [is_upper_triangular]. apply allM_spec. intros [i j] H. apply below_In in H. cbn [fst snd].
  destruct (shaped_blk _ rows i j SH) as (b & Hb); [lia|lia|]. rewrite (get_bil_some _ _ _ _ Hb). unfold null_at. rewrite Hb. reflexivity.
Qed.
Lemma lower_spec V0 rows : shaped (length V0) rows ->
  is_lower_triangular (Bil V0 rows) = Ok (forallb (fun ij => null_at rows (snd ij) (fst ij)) (below (length V0))).
Proof.
  intros SH. cbn [is_lower_triangular]. apply allM_spec. intros [i j] H. apply below_In in H. cbn [fst snd].
  destruct (shaped_blk _ rows j i SH) as (b & Hb); [lia|lia|]. rewrite (get_bil_some _ _ _ _ Hb). unfold null_at. rewrite Hb. reflexivity.
Qed.

(** Source and target of one filling step. *)
Definition tgt (upper : bool) (ij : nat * nat) : nat * nat := if upper then ij else (snd ij, fst ij).

Lemma fill_spec ord upper V0 l : (forall i j, In (i, j) l -> j < i /\ i < length V0) -> NoDup l ->
  forall rows (adj : nat -> nat -> block), shaped (length V0) rows ->
  (forall i j p q, In (i, j) l -> (p, q) = tgt upper (i, j) ->
     exists b, blk rows q p = Some b /\ form_adjoint ord b = Ok (adj p q) /\ admissible V0 p q (adj p q)) ->
  exists rows', fill ord upper V0 rows l = Ok rows' /\ shaped (length V0) rows' /\
    (forall i j p q, In (i, j) l -> (p, q) = tgt upper (i, j) -> blk rows' p q = Some (adj p q)) /\
    (forall p q, ~ (exists i j, In (i, j) l /\ (p, q) = tgt upper (i, j)) -> blk rows' p q = blk rows p q).
Proof.
  induction l as [|[i j] l IH]; intros HB ND rows adj SH H.
  - exists rows. cbn [fill]. split; [reflexivity|]. split; [assumption|]. split; [intros ? ? ? ? []|reflexivity].
  - cbn [fill]. inversion ND as [|? ? NI ND']; subst.
    destruct (HB i j (or_introl eq_refl)) as [Hji Hi].
    destruct (if upper then (i, j) else (j, i)) as [p q] eqn:EPQ.
    assert (T : (p, q) = tgt upper (i, j)) by (unfold tgt; destruct upper; cbn [fst snd]; congruence).
    assert (HP : p < length V0 /\ q < length V0 /\ p <> q) by (destruct upper; inversion EPQ; subst; lia).
    destruct (H i j p q (or_introl eq_refl) T) as (b & Hb & Ab & AD).
    rewrite (get_bil_some _ _ _ _ Hb). cbn [bind]. rewrite Ab. cbn [bind].
    destruct (set_bil_spec V0 rows p q (adj p q) SH) as (rows1 & E1 & SH1 & N1); [lia|lia|assumption|]. rewrite E1. cbn [bind].
    assert (SRC : forall i' j' p' q', In (i', j') l -> (p', q') = tgt upper (i', j') ->
       (q', p') <> (p, q) /\ (p', q') <> (p, q)).
    { intros i' j' p' q' Hin T'. destruct (HB i' j' (or_intror Hin)) as [A B]. unfold tgt in T, T'. cbn [fst snd] in *.
      split; intros X; destruct upper; inversion T; inversion T'; inversion X; subst; try lia; contradiction. }
    destruct (IH (fun a b Hab => HB a b (or_intror Hab)) ND' rows1 adj SH1) as (rows2 & E2 & SH2 & R1 & R2).
    { intros i' j' p' q' Hin T'. destruct (H i' j' p' q' (or_intror Hin) T') as (b' & Hb' & Ab' & AD').
      exists b'. split; [|auto]. rewrite N1. destruct (SRC i' j' p' q' Hin T') as [X _].
      destruct ((q' =? p) && (p' =? q)) eqn:E; [|assumption]. exfalso. apply X.
      apply andb_true_iff in E. destruct E as [Ea Eb]. apply Nat.eqb_eq in Ea, Eb. congruence. }
    exists rows2. split; [assumption|]. split; [assumption|]. split.
    + intros i' j' p' q' [E|Hin] T'.
      * inversion E; subst i' j'. rewrite <- T in T'. inversion T'; subst p' q'. rewrite R2.
        -- rewrite N1, !Nat.eqb_refl. reflexivity.
        -- intros (i' & j' & Hin & T2). destruct (SRC i' j' p q Hin T2) as [_ X]. apply X. reflexivity.
      * eapply R1; eassumption.
    + intros p' q' HN. rewrite R2.
      * rewrite N1. destruct ((p' =? p) && (q' =? q)) eqn:E; [|reflexivity]. exfalso. apply HN. exists i, j. split; [left; reflexivity|].
        apply andb_true_iff in E. destruct E as [Ea Eb]. apply Nat.eqb_eq in Ea, Eb. congruence.
      * intros (i' & j' & Hin & T'). apply HN. exists i', j'. split; [right; assumption|assumption].
Qed.
