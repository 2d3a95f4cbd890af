(** Vocabulary and lemmas for HistoryProps.v *)
From Coq Require Import Reals Lra Lia.
From Verif Require Import Base BaseProofs HistoryModel.
Local Open Scope R_scope.

(** A study: one solution after another, until something is raised *)
Fixpoint study (s : approx) (us : list sample) : approx * option exn :=
  match us with
  | [] => (s, None)
  | u :: us' => match append_approx s u with
                | (s', None) => study s' us'
                | (s', Some e) => (s', Some e)
                end
  end.

(** The logarithmic slopes between neighbours *)
Fixpoint slopes (p : sample) (us : list sample) : list (option R) :=
  match us with
  | [] => []
  | u :: us' => Some (ln (s_error u / s_error p) / ln (s_h u / s_h p)) :: slopes u us'
  end.
Definition increments (us : list sample) : list (option R) :=
  match us with [] => [] | u :: us' => None :: slopes u us' end.

(** positive errors and mesh sizes, neighbours on different meshes *)
Definition positive (u : sample) : Prop := 0 < s_error u /\ 0 < s_h u.
Fixpoint distinct (p : sample) (us : list sample) : Prop :=
  match us with [] => True | u :: us' => s_h u <> s_h p /\ distinct u us' end.
Definition regular (us : list sample) : Prop :=
  Forall positive us /\ match us with [] => True | u :: us' => distinct u us' end.

Lemma rate_regular u p : positive u -> positive p -> s_h u <> s_h p ->
  rate_of (s_error u) (s_error p) (s_h u) (s_h p) = Ok (ln (s_error u / s_error p) / ln (s_h u / s_h p)).
Proof.
  intros [Eu Hu] [Ep Hp] D. unfold rate_of, py_div, py_ln.
  destruct (Req_EM_T (s_error p) 0) as [Z | _]; [lra |]. cbn [bind].
  assert (P1 : 0 < s_error u / s_error p) by (apply Rdiv_lt_0_compat; assumption).
  destruct (Rlt_dec 0 (s_error u / s_error p)) as [_ | N]; [| contradiction]. cbn [bind].
  destruct (Req_EM_T (s_h p) 0) as [Z | _]; [lra |]. cbn [bind].
  assert (P2 : 0 < s_h u / s_h p) by (apply Rdiv_lt_0_compat; assumption).
  destruct (Rlt_dec 0 (s_h u / s_h p)) as [_ | N]; [| contradiction]. cbn [bind].
  destruct (Req_EM_T (ln (s_h u / s_h p)) 0) as [Z | _]; [| reflexivity].
  exfalso. apply D. rewrite <- ln_1 in Z. apply ln_inv in Z; [| assumption | lra].
  apply (Rmult_eq_compat_r (s_h p)) in Z. unfold Rdiv in Z. rewrite Rmult_assoc, Rinv_l in Z by lra. lra.
Qed.

Lemma last2_snoc {A} (l : list A) x y : last2 ((l ++ [y]) ++ [x]) = Some (x, y).
Proof. unfold last2. rewrite !rev_app_distr. reflexivity. Qed.

Definition of_samples (us : list sample) (r : list (option R)) : approx :=
  Approx (map s_error us) (map s_h us) (map s_dim us) r.

Lemma append_snoc us p u r : positive u -> positive p -> s_h u <> s_h p ->
  append_approx (of_samples (us ++ [p]) r) u =
  (of_samples ((us ++ [p]) ++ [u]) (r ++ [Some (ln (s_error u / s_error p) / ln (s_h u / s_h p))]), None).
Proof.
  intros Pu Pp D. unfold append_approx, of_samples. cbn [errors hs Vdims rates].
  assert (L : (1 <? length (map s_error (us ++ [p]) ++ [s_error u]))%nat = true).
  { apply Nat.ltb_lt. rewrite app_length, map_length, app_length. cbn. lia. }
  rewrite L. rewrite !map_app. cbn [map]. rewrite !last2_snoc, (rate_regular u p Pu Pp D). reflexivity.
Qed.

Lemma study_from us : forall us0 p r, positive p -> Forall positive us -> distinct p us ->
  study (of_samples (us0 ++ [p]) r) us = (of_samples ((us0 ++ [p]) ++ us) (r ++ slopes p us), None).
Proof.
  induction us as [| u us IH]; intros us0 p r Pp F D; [cbn; rewrite !app_nil_r; reflexivity |].
  inversion F as [| u' us' Pu F']; subst. destruct D as [D D']. cbn [study slopes].
  rewrite (append_snoc us0 p u r Pu Pp D), (IH (us0 ++ [p]) u _ Pu F' D').
  rewrite <- !app_assoc. reflexivity.
Qed.

Lemma study_regular us : regular us -> study approx0 us = (of_samples us (increments us), None).
Proof.
  intros [F D]. destruct us as [| u us]; [reflexivity |]. inversion F as [| u' us' Pu F']; subst.
  cbn [study increments]. change (append_approx approx0 u) with (of_samples ([] ++ [u]) [None], @None exn).
  cbv beta iota. rewrite (study_from us [] u [None] Pu F' D). reflexivity.
Qed.

(** Errors of order p: C h^p *)
Definition of_order (C p : R) (u : sample) : Prop := s_error u = C * Rpower (s_h u) p.

Lemma slope_of_order C p u v : 0 < C -> positive u -> positive v -> s_h u <> s_h v -> of_order C p u -> of_order C p v ->
  ln (s_error u / s_error v) / ln (s_h u / s_h v) = p.
Proof.
  intros HC [_ Hu] [_ Hv] D Ou Ov. unfold of_order in *. rewrite Ou, Ov.
  assert (N : ln (s_h u / s_h v) <> 0).
  { intros Z. apply D. rewrite <- ln_1 in Z. apply ln_inv in Z; [| apply Rdiv_lt_0_compat; assumption | lra].
    apply (Rmult_eq_compat_r (s_h v)) in Z. unfold Rdiv in Z. rewrite Rmult_assoc, Rinv_l in Z by lra. lra. }
  assert (X : forall h, 0 < Rpower h p) by (intros h; apply exp_pos).
  replace (C * Rpower (s_h u) p / (C * Rpower (s_h v) p)) with (Rpower (s_h u) p / Rpower (s_h v) p).
  2: { field. split; [| lra]. specialize (X (s_h v)). lra. }
  assert (LD : forall a b, 0 < a -> 0 < b -> ln (a / b) = ln a - ln b).
  { intros a b Ha Hb. unfold Rdiv. rewrite ln_mult by (try assumption; apply Rinv_0_lt_compat; assumption). rewrite ln_Rinv by assumption. reflexivity. }
  rewrite LD by apply X. rewrite (LD (s_h u)) in N |- * by assumption. unfold Rpower. rewrite !ln_exp. field. assumption.
Qed.

Lemma slopes_of_order C p us : 0 < C -> forall v, positive v -> Forall positive us -> distinct v us ->
  of_order C p v -> Forall (of_order C p) us -> slopes v us = map (fun _ => Some p) us.
Proof.
  intros HC. induction us as [| u us IH]; intros v Pv F D Ov Os; [reflexivity |]. cbn [slopes map].
  inversion F as [| u' us' Pu F']; subst. inversion Os as [| u' us' Ou Os']; subst. destruct D as [D D'].
  rewrite (slope_of_order C p u v HC Pu Pv D Ou Ov), (IH u Pu F' D' Ou Os'). reflexivity.
Qed.

(** Least squares: a line a x + b for the points, none with a smaller sum of squares *)
Fixpoint squares (a b : R) (xs ys : list R) : R :=
  match xs, ys with
  | x :: xs', y :: ys' => (a * x + b - y) * (a * x + b - y) + squares a b xs' ys'
  | _, _ => 0
  end.
Definition least_squares (polyfit : list R -> list R -> R * R) (xs ys : list R) : Prop :=
  forall a b, squares (fst (polyfit xs ys)) (snd (polyfit xs ys)) xs ys <= squares a b xs ys.

Lemma squares_nonneg a b xs : forall ys, 0 <= squares a b xs ys.
Proof.
  induction xs as [| x xs IH]; intros [| y ys]; cbn [squares]; try lra. specialize (IH ys).
  pose proof (Rle_0_sqr (a * x + b - y)) as Q. unfold Rsqr in Q. lra.
Qed.
Lemma squares_zero a b p c xs : squares a b xs (map (fun x => p * x + c) xs) = 0 -> Forall (fun x => a * x + b = p * x + c) xs.
Proof.
  induction xs as [| x xs IH]; intros H; [constructor |]. cbn [squares map] in H.
  pose proof (squares_nonneg a b xs (map (fun x => p * x + c) xs)) as N. pose proof (Rle_0_sqr (a * x + b - (p * x + c))) as Q. unfold Rsqr in Q.
  constructor; [| apply IH; lra]. assert (Z : (a * x + b - (p * x + c)) * (a * x + b - (p * x + c)) = 0) by lra.
  apply Rmult_integral in Z. lra.
Qed.
Lemma squares_exact p c xs : squares p c xs (map (fun x => p * x + c) xs) = 0.
Proof. induction xs as [| x xs IH]; [reflexivity |]. cbn [squares map]. rewrite IH. ring. Qed.

Lemma fit_line polyfit p c xs x1 x2 : least_squares polyfit xs (map (fun x => p * x + c) xs) -> In x1 xs -> In x2 xs -> x1 <> x2 ->
  fst (polyfit xs (map (fun x => p * x + c) xs)) = p.
Proof.
  intros LS I1 I2 D. set (ys := map _ xs) in *. pose proof (LS p c) as H. unfold ys in H at 4. rewrite squares_exact in H.
  destruct (polyfit xs ys) as [a b]. cbn [fst snd] in *. pose proof (squares_nonneg a b xs ys) as N.
  assert (Z : squares a b xs ys = 0) by lra. apply (squares_zero a b p c) in Z. rewrite Forall_forall in Z.
  pose proof (Z x1 I1) as Z1. pose proof (Z x2 I2) as Z2.
  assert (M : (a - p) * (x1 - x2) = 0) by lra. apply Rmult_integral in M. lra.
Qed.

(** * The log *)
Lemma get_put {A} k j (a : A) d : get k (put j a d) = if Nat.eqb k j then match get k d with Some _ => Some a | None => None end else get k d.
Proof.
  induction d as [| [i b] d IH]; cbn [put get]; [destruct (Nat.eqb k j); reflexivity |].
  destruct (Nat.eqb j i) eqn:Eji; cbn [get].
  - apply Nat.eqb_eq in Eji. subst i. destruct (Nat.eqb k j) eqn:Ekj; reflexivity.
  - destruct (Nat.eqb k i) eqn:Eki; [| exact IH]. apply Nat.eqb_eq in Eki. subst i. rewrite Nat.eqb_sym, Eji. reflexivity.
Qed.

Lemma get_combine {A} ks : forall (vs : list A) i k v, NoDup ks -> nth_error ks i = Some k -> nth_error vs i = Some v -> get k (combine ks vs) = Some v.
Proof.
  induction ks as [| k0 ks IH]; intros vs i k v ND Hk Hv; [destruct i; discriminate |].
  inversion ND as [| k0' ks' NI ND']; subst. destruct vs as [| v0 vs]; [destruct i; discriminate |]. cbn [combine get].
  destruct i as [| i]; cbn [nth_error] in Hk, Hv.
  - injection Hk as ->. injection Hv as ->. rewrite Nat.eqb_refl. reflexivity.
  - destruct (Nat.eqb k k0) eqn:E; [| exact (IH vs i k v ND' Hk Hv)].
    apply Nat.eqb_eq in E. subst. exfalso. apply NI. exact (nth_error_In _ _ Hk).
Qed.
Lemma get_None {A} k (d : list (nat * A)) : get k d = None <-> ~ In k (map fst d).
Proof.
  induction d as [| [i b] d IH]; cbn [get map fst In]; [tauto |]. destruct (Nat.eqb k i) eqn:E.
  - apply Nat.eqb_eq in E. subst. split; [discriminate | tauto].
  - apply Nat.eqb_neq in E. rewrite IH. split; intros H; [intros [X | X]; [congruence | tauto] | tauto].
Qed.

(** Adding: all keys have something to add and it can be added *)
Lemma add_keys_all ks : forall new log, NoDup ks ->
  (forall k, In k ks -> exists t x t', get k log = Some t /\ get k new = Some x /\ append_item t x = (t', None)) ->
  exists log', add_keys ks new log = (log', None) /\
    (forall k, In k ks -> forall t x t', get k log = Some t -> get k new = Some x -> append_item t x = (t', None) -> get k log' = Some t') /\
    (forall k, ~ In k ks -> get k log' = get k log).
Proof.
  induction ks as [| k0 ks IH]; intros new log ND H.
  - exists log. split; [reflexivity |]. split; [intros k [] | reflexivity].
  - inversion ND as [| k0' ks' NI ND']; subst. destruct (H k0 (or_introl eq_refl)) as [t [x [t' [Ht [Hx Ha]]]]].
    cbn [add_keys]. rewrite Ht, Hx, Ha.
    destruct (IH new (put k0 t' log) ND') as [log' [E [G F]]].
    + intros k Hk. destruct (H k (or_intror Hk)) as [t1 [x1 [t1' [H1 [H2 H3]]]]]. exists t1, x1, t1'. split; [| tauto].
      rewrite get_put. destruct (Nat.eqb k k0) eqn:Ek; [apply Nat.eqb_eq in Ek; subst; contradiction | exact H1].
    + exists log'. split; [exact E |]. split.
      * intros k Hk t1 x1 t1' H1 H2 H3. destruct (Nat.eq_dec k k0) as [-> | Nk].
        -- rewrite F by assumption. rewrite get_put, Nat.eqb_refl, H1. congruence.
        -- apply (G k) with (t := t1) (x := x1); [destruct Hk; [congruence | assumption] | | assumption | assumption].
           rewrite get_put. destruct (Nat.eqb k k0) eqn:Ek; [apply Nat.eqb_eq in Ek; contradiction | exact H1].
      * intros k Hk. rewrite F by (intros X; apply Hk; right; exact X). rewrite get_put.
        destruct (Nat.eqb k k0) eqn:Ek; [apply Nat.eqb_eq in Ek; exfalso; apply Hk; left; congruence | reflexivity].
Qed.

Lemma keys_In variables k : In k (keys variables) <-> In k (map fst variables).
Proof.
  unfold keys. rewrite in_app_iff. split.
  - intros [H | H]; apply in_map_iff in H; destruct H as [v [<- Hv]]; apply filter_In in Hv; apply in_map; tauto.
  - intros H. apply in_map_iff in H. destruct H as [v [<- Hv]]. destruct (snd v) eqn:E; [right | left]; apply in_map; apply filter_In; rewrite E; tauto.
Qed.
Lemma keys_NoDup variables : NoDup (map fst variables) -> NoDup (keys variables).
Proof.
  intros ND. unfold keys. induction variables as [| [n b] vs IH]; [constructor |].
  cbn [map fst] in ND. inversion ND as [| n' l NI ND']; subst. specialize (IH ND').
  assert (NK : ~ In n (keys vs)) by (rewrite keys_In; exact NI). unfold keys in NK.
  cbn [filter snd negb]. destruct b; cbn [negb map fst].
  - apply NoDup_Add with (a := n) (l := map fst (filter (fun v : nat * bool => negb (snd v)) vs) ++ map fst (filter (fun v : nat * bool => snd v) vs)); [apply Add_app | split; assumption].
  - constructor; assumption.
Qed.

(** What a column of a name shows: the latest of the list it stands for *)
Definition latest {A} (l : list A) (x : A) : Prop := exists before, l = before ++ [x].
Definition shows (log : list (nat * tracked)) (c : nat * column) (e : entry) : Prop :=
  match snd c with
  | CValue => exists l x, get (fst c) log = Some (Values l) /\ latest l x /\ e = EReal x
  | CMeshSize => exists a x, get (fst c) log = Some (Approximations a) /\ latest (hs a) x /\ e = EReal x
  | CError => exists a x, get (fst c) log = Some (Approximations a) /\ latest (errors a) x /\ e = EReal x
  | CRate => exists a x, get (fst c) log = Some (Approximations a) /\ latest (rates a) x /\ e = ERate x
  | CDim => exists a x, get (fst c) log = Some (Approximations a) /\ latest (Vdims a) x /\ e = EDim x
  end.
Lemma py_last_latest {A} (l : list A) x : py_last l = Ok x -> latest l x.
Proof.
  unfold py_last. destruct (rev l) as [| y r] eqn:E; [discriminate |]. intros H. assert (Y : y = x) by congruence. subst y.
  exists (rev r). rewrite <- (rev_involutive l), E. reflexivity.
Qed.
Lemma bind_Ok {A B} (x : res A) (f : A -> res B) y : bind x f = Ok y -> exists a, x = Ok a /\ f a = Ok y.
Proof. destruct x as [a | e]; cbn [bind]; [eauto | discriminate]. Qed.
Lemma last_of_shows log k t es : get k log = Some t -> last_of t = Ok es ->
  Forall2 (shows log) (map (pair k) (columns_of t)) es.
Proof.
  intros G H. destruct t as [l | a]; cbn [last_of columns_of map] in *.
  - apply bind_Ok in H. destruct H as [x [Hx H]]. assert (es = [EReal x]) as -> by congruence.
    constructor; [| constructor]. exists l, x. auto using py_last_latest.
  - apply bind_Ok in H. destruct H as [x1 [H1 H]]. apply bind_Ok in H. destruct H as [x2 [H2 H]].
    apply bind_Ok in H. destruct H as [x3 [H3 H]]. apply bind_Ok in H. destruct H as [x4 [H4 H]].
    assert (es = [EReal x1; EReal x2; ERate x3; EDim x4]) as -> by congruence.
    repeat constructor; cbn [shows snd fst]; [exists a, x1 | exists a, x2 | exists a, x3 | exists a, x4]; auto using py_last_latest.
Qed.
