(** Specification and proofs for ImmersedModel.v *)
From Verif Require Import Base BaseProofs ImmersedModel.
From Coq Require Import Reals Lra.
Local Open Scope nat_scope.

(** The triangles of the mesh of the unit square *)
Definition lower (a b : nat) : list vertex := [(a, b); (a + 1, b); (a + 1, b + 1)].
Definition upper (a b : nat) : list vertex := [(a, b); (a, b + 1); (a + 1, b + 1)].
Definition triangle (n : nat) (c : list vertex) : Prop := exists a b, a < n /\ b < n /\ (c = lower a b \/ c = upper a b).
(** The facets of a triangle: two of its vertices, in their order *)
Definition facet_of (e c : list vertex) : Prop := match c with [u; v; w] => e = [u; v] \/ e = [u; w] \/ e = [v; w] | _ => False end.
(** A facet on the boundary has one cell *)
Definition on_boundary (cs : list (list vertex)) (e : list vertex) : Prop :=
  exists c, In c cs /\ facet_of e c /\ forall c', In c' cs -> facet_of e c' -> c' = c.
(** The sides of the picture (demo/utils.py:19-29) *)
Definition side (t : nat) (p : R * R) : Prop :=
  match t with
  | 1 => fst p = 1 / 4 /\ 1 / 4 <= snd p <= 3 / 4
  | 2 => fst p = 3 / 4 /\ 1 / 4 <= snd p <= 3 / 4
  | 3 => snd p = 1 / 4 /\ 1 / 4 <= fst p <= 3 / 4
  | 4 => snd p = 3 / 4 /\ 1 / 4 <= fst p <= 3 / 4
  | 5 => fst p = 0 | 6 => fst p = 1 | 7 => snd p = 0 | 8 => snd p = 1
  | _ => False
  end%R.
Definition in_inner (p : R * R) : Prop := (1 / 4 <= fst p <= 3 / 4 /\ 1 / 4 <= snd p <= 3 / 4)%R.
Definition place (n : nat) (v : nat * nat) : R * R := (INR (fst v) / INR n, INR (snd v) / INR n)%R.

Lemma bool_iff (a b : bool) : (a = true <-> b = true) -> a = b.
Proof. destruct a, b; intuition congruence. Qed.
Lemma lt_iff x y : lt x y = true <-> (x < y)%R. Proof. unfold lt. destruct (Rlt_dec x y); split; intros; try discriminate; auto; contradiction. Qed.
Lemma near_iff x y : near x y = true <-> (y - EPS <= x <= y + EPS)%R.
Proof. unfold near. destruct (Rle_dec (y - EPS) x), (Rle_dec x (y + EPS)); split; intros; try discriminate; try reflexivity; lra. Qed.

(** Conditions that hold at the midpoint if they hold at two or three points *)
Definition convex (p : point -> bool) : Prop := forall ps, length ps = 2 \/ length ps = 3 -> forallb p ps = true -> p (midpoint ps) = true.
Lemma convex_and p q : convex p -> convex q -> convex (fun x => p x && q x).
Proof.
  intros P Q ps L H. apply andb_true_iff. rewrite forallb_forall in H. split; [apply P | apply Q]; try exact L; apply forallb_forall; intros x Hx; apply H, andb_true_iff in Hx; tauto.
Qed.
Lemma two_or_three (ps : list point) : length ps = 2 \/ length ps = 3 -> (exists a b, ps = [a; b]) \/ exists a b c, ps = [a; b; c].
Proof.
  destruct ps as [| a [| b [| c [| d ps]]]]; cbn [length]; intros [H | H]; try discriminate; [left; exists a, b; reflexivity | right; exists a, b, c; reflexivity].
Qed.
Lemma INR2 : INR 2 = 2%R. Proof. cbn. ring. Qed.
Lemma INR3 : INR 3 = 3%R. Proof. cbn. ring. Qed.
Lemma convex_by (k : point -> R) (P : R -> Prop) (p : point -> bool) : (forall x, p x = true <-> P (k x)) ->
  (forall ps, k (midpoint ps) = (fold_right Rplus 0 (map k ps) / INR (length ps))%R) ->
  (forall x y, P x -> P y -> P ((x + (y + 0)) / 2)%R) -> (forall x y z, P x -> P y -> P z -> P ((x + (y + (z + 0))) / 3)%R) -> convex p.
Proof.
  intros H M P2 P3 ps L F. apply H. rewrite M. rewrite forallb_forall in F. destruct (two_or_three ps L) as [(a & b & ->) | (a & b & c & ->)]; cbn [map fold_right length].
  - rewrite INR2. apply P2; apply H, F; cbn; tauto.
  - rewrite INR3. apply P3; apply H, F; cbn; tauto.
Qed.
Lemma convex_lt_fst c : convex (fun p => lt (fst p) c). Proof. apply (convex_by fst (fun x => (x < c)%R)); [intros; apply lt_iff | reflexivity | intros; lra..]. Qed.
Lemma convex_lt_snd c : convex (fun p => lt (snd p) c). Proof. apply (convex_by snd (fun x => (x < c)%R)); [intros; apply lt_iff | reflexivity | intros; lra..]. Qed.
Lemma convex_gt_fst c : convex (fun p => lt c (fst p)). Proof. apply (convex_by fst (fun x => (c < x)%R)); [intros; apply lt_iff | reflexivity | intros; lra..]. Qed.
Lemma convex_gt_snd c : convex (fun p => lt c (snd p)). Proof. apply (convex_by snd (fun x => (c < x)%R)); [intros; apply lt_iff | reflexivity | intros; lra..]. Qed.
Lemma convex_near_fst c : convex (fun p => near (fst p) c). Proof. apply (convex_by fst (fun x => (c - EPS <= x <= c + EPS)%R)); [intros; apply near_iff | reflexivity | intros; lra..]. Qed.
Lemma convex_near_snd c : convex (fun p => near (snd p) c). Proof. apply (convex_by snd (fun x => (c - EPS <= x <= c + EPS)%R)); [intros; apply near_iff | reflexivity | intros; lra..]. Qed.
Lemma mark_convex n p tag e old : convex p -> length e = 2 \/ length e = 3 -> mark n p tag e old = if forallb (fun v => p (coord n v)) e then tag else old.
Proof.
  intros C L. unfold mark. assert (E : forallb p (map (coord n) e) = forallb (fun v => p (coord n v)) e) by (clear; induction e as [| v e IH]; [reflexivity | cbn [map forallb]; rewrite IH; reflexivity]).
  rewrite E. destruct (forallb (fun v => p (coord n v)) e) eqn:F; [| reflexivity]. rewrite C; [reflexivity | rewrite map_length; exact L | exact E].
Qed.

Section Grid.
Variable m : nat.
Hypothesis Hm : 1 <= m.
Hypothesis Hn : (INR (4 * m) * EPS < 1)%R.
Notation n := (4 * m).

Lemma n_pos : (0 < INR n)%R. Proof. apply lt_0_INR. lia. Qed.
Lemma eps_pos : (0 < EPS)%R. Proof. unfold EPS. apply Rdiv_lt_0_compat; [lra | apply pow_lt; lra]. Qed.
(** Neighbouring numbers are further apart than the tolerance *)
Lemma frac_lt a k : (INR a / INR n < INR k / INR n + EPS)%R <-> a <= k.
Proof.
  pose proof n_pos as P. pose proof eps_pos as E. split.
  - intros H. destruct (le_lt_dec a k) as [L | L]; [exact L | exfalso]. assert (G : (INR k + 1 <= INR a)%R) by (rewrite <- S_INR; apply le_INR; lia).
    apply (Rmult_lt_compat_r (INR n)) in H; [| exact P]. replace (INR a / INR n * INR n)%R with (INR a) in H by (field; lra). replace ((INR k / INR n + EPS) * INR n)%R with (INR k + INR n * EPS)%R in H by (field; lra). lra.
  - intros L. apply le_INR in L. apply Rle_lt_trans with (INR k / INR n)%R; [| lra]. unfold Rdiv. apply Rmult_le_compat_r; [left; apply Rinv_0_lt_compat; exact P | exact L].
Qed.
Lemma frac_gt a k : (INR k / INR n - EPS < INR a / INR n)%R <-> k <= a.
Proof. rewrite <- frac_lt. split; intros; lra. Qed.
Lemma frac_near a k : (INR k / INR n - EPS <= INR a / INR n <= INR k / INR n + EPS)%R <-> a = k.
Proof.
  pose proof n_pos as P. pose proof eps_pos as E. split; [| intros ->; lra]. intros [H1 H2].
  apply (Rmult_le_compat_r (INR n)) in H1, H2; [| lra..]. replace (INR a / INR n * INR n)%R with (INR a) in H1, H2 by (field; lra).
  replace ((INR k / INR n + EPS) * INR n)%R with (INR k + INR n * EPS)%R in H2 by (field; lra). replace ((INR k / INR n - EPS) * INR n)%R with (INR k - INR n * EPS)%R in H1 by (field; lra).
  destruct (lt_eq_lt_dec a k) as [[L | L] | L]; [exfalso | exact L | exfalso].
  - assert (G : (INR a + 1 <= INR k)%R) by (rewrite <- S_INR; apply le_INR; lia). lra.
  - assert (G : (INR k + 1 <= INR a)%R) by (rewrite <- S_INR; apply le_INR; lia). lra.
Qed.
Lemma frac_le a k : (INR a / INR n <= INR k / INR n)%R <-> a <= k.
Proof.
  pose proof n_pos as P. split.
  - intros H. apply INR_le. apply (Rmult_le_compat_r (INR n)) in H; [| lra]. replace (INR a / INR n * INR n)%R with (INR a) in H by (field; lra). replace (INR k / INR n * INR n)%R with (INR k) in H by (field; lra). exact H.
  - intros L. apply le_INR in L. unfold Rdiv. apply Rmult_le_compat_r; [left; apply Rinv_0_lt_compat; exact P | exact L].
Qed.
Lemma frac_eq a k : (INR a / INR n = INR k / INR n)%R <-> a = k.
Proof. split; [intros H; apply frac_near; rewrite H; pose proof eps_pos; lra | intros ->; reflexivity]. Qed.
Lemma quarter : (INR m / INR n = 1 / 4)%R. Proof. pose proof n_pos as P. rewrite mult_INR in P |- *. replace (INR 4) with 4%R in P |- * by (cbn; ring). field. intros Z. rewrite Z in P. lra. Qed.
Lemma quarters : (INR (3 * m) / INR n = 3 / 4)%R. Proof. rewrite mult_INR. replace (INR 3) with 3%R by (cbn; ring). replace (3 * INR m / INR n)%R with (3 * (INR m / INR n))%R by (unfold Rdiv; ring). rewrite quarter. field. Qed.
Lemma none : (INR 0 / INR n = 0)%R. Proof. cbn [INR]. unfold Rdiv. ring. Qed.
Lemma whole : (INR n / INR n = 1)%R. Proof. pose proof n_pos. field. lra. Qed.

Lemma lt_hi a : lt (INR a / INR n) (75 / 100 + EPS) = (a <=? 3 * m).
Proof. apply bool_iff. rewrite lt_iff, Nat.leb_le. replace (75 / 100)%R with (INR (3 * m) / INR n)%R by (rewrite quarters; lra). apply frac_lt. Qed.
Lemma lt_lo a : lt (25 / 100 - EPS) (INR a / INR n) = (m <=? a).
Proof. apply bool_iff. rewrite lt_iff, Nat.leb_le. replace (25 / 100)%R with (INR m / INR n)%R by (rewrite quarter; lra). apply frac_gt. Qed.
Lemma near_eq a k c : (INR k / INR n = c)%R -> near (INR a / INR n) c = (a =? k).
Proof. intros <-. apply bool_iff. rewrite near_iff, Nat.eqb_eq. apply frac_near. Qed.
Lemma near_q a : near (INR a / INR n) (25 / 100) = (a =? m). Proof. apply near_eq. rewrite quarter. lra. Qed.
Lemma near_3q a : near (INR a / INR n) (75 / 100) = (a =? 3 * m). Proof. apply near_eq. rewrite quarters. lra. Qed.
Lemma near_0 a : near (INR a / INR n) 0 = (a =? 0). Proof. apply near_eq. apply none. Qed.
Lemma near_1 a : near (INR a / INR n) 1 = (a =? n). Proof. apply near_eq. apply whole. Qed.

(** The conditions in numbers *)
Definition rng (a : nat) : bool := (m <=? a) && (a <=? 3 * m).
Definition sideb (t : nat) (v : vertex) : bool :=
  match t with
  | 1 => (fst v =? m) && rng (snd v) | 2 => (fst v =? 3 * m) && rng (snd v) | 3 => (snd v =? m) && rng (fst v) | 4 => (snd v =? 3 * m) && rng (fst v)
  | 5 => fst v =? 0 | 6 => fst v =? n | 7 => snd v =? 0 | 8 => snd v =? n | _ => false
  end.
Lemma side_iff t v : side t (place n v) <-> sideb t v = true.
Proof.
  unfold side, place, sideb, rng. rewrite <- quarter, <- quarters. destruct t as [| [| [| [| [| [| [| [| [| t]]]]]]]]]; cbn [fst snd]; try (split; [contradiction | discriminate]);
    try (rewrite !andb_true_iff, Nat.eqb_eq, !Nat.leb_le, frac_eq, !frac_le; tauto); rewrite Nat.eqb_eq, <- frac_eq, ?none, ?whole; reflexivity.
Qed.
Lemma facet_outer e : length e = 2 -> facet_f n outer_boundaries e = fold_left (fun old t => if forallb (sideb t) e then t else old) [1; 2; 3; 4; 5; 6; 7; 8] 0.
Proof.
  intros L. unfold facet_f, outer_boundaries, inner_boundaries. cbn [app fold_left fst snd].
  assert (E : forall p t old, convex p -> (forall v, p (coord n v) = sideb t v) -> mark n p t e old = if forallb (sideb t) e then t else old).
  { intros p t old C H. rewrite mark_convex by (first [exact C | left; exact L]). replace (forallb (fun v => p (coord n v)) e) with (forallb (sideb t) e); [reflexivity |]. clear - H. induction e as [| v e IH]; [reflexivity |]. cbn [forallb]. rewrite IH, H. reflexivity. }
  rewrite !E; try reflexivity; try (intros v; unfold coord, in_range, sideb, rng; cbn [fst snd]; rewrite ?near_q, ?near_3q, ?near_0, ?near_1, ?lt_hi, ?lt_lo; reflexivity);
    unfold in_range; repeat apply convex_and; auto using convex_lt_fst, convex_lt_snd, convex_gt_fst, convex_gt_snd, convex_near_fst, convex_near_snd.
Qed.
Lemma facet_inner e : length e = 2 -> facet_f n inner_boundaries e = fold_left (fun old t => if forallb (sideb t) e then t else old) [1; 2; 3; 4] 0.
Proof.
  intros L. unfold facet_f, inner_boundaries. cbn [app fold_left fst snd].
  assert (E : forall p t old, convex p -> (forall v, p (coord n v) = sideb t v) -> mark n p t e old = if forallb (sideb t) e then t else old).
  { intros p t old C H. rewrite mark_convex by (first [exact C | left; exact L]). replace (forallb (fun v => p (coord n v)) e) with (forallb (sideb t) e); [reflexivity |]. clear - H. induction e as [| v e IH]; [reflexivity |]. cbn [forallb]. rewrite IH, H. reflexivity. }
  rewrite !E; try reflexivity; try (intros v; unfold coord, in_range, sideb, rng; cbn [fst snd]; rewrite ?near_q, ?near_3q, ?near_0, ?near_1, ?lt_hi, ?lt_lo; reflexivity);
    unfold in_range; repeat apply convex_and; auto using convex_lt_fst, convex_lt_snd, convex_gt_fst, convex_gt_snd, convex_near_fst, convex_near_snd.
Qed.
(** The inner squares *)
Definition inn (a b : nat) : bool := (m <=? a) && (a + 1 <=? 3 * m) && (m <=? b) && (b + 1 <=? 3 * m).
Lemma cell_f_inn a b c : c = lower a b \/ c = upper a b -> cell_f n c = if inn a b then 2 else 1.
Proof.
  intros H. unfold cell_f. rewrite mark_convex.
  - replace (forallb (fun v => inner (coord n v)) c) with (inn a b); [reflexivity |].
    assert (I : forall v, inner (coord n v) = rng (fst v) && rng (snd v)). { intros v. unfold inner, coord, rng. cbn [fst snd]. rewrite !lt_hi, !lt_lo. destruct (m <=? fst v), (m <=? snd v), (fst v <=? 3 * m), (snd v <=? 3 * m); reflexivity. }
    apply bool_iff. unfold inn. rewrite !andb_true_iff, !Nat.leb_le. destruct H as [-> | ->]; cbn [lower upper forallb]; rewrite !I; unfold rng; cbn [fst snd]; rewrite !andb_true_iff, !Nat.leb_le; lia.
  - unfold inner. repeat apply convex_and; auto using convex_lt_fst, convex_lt_snd, convex_gt_fst, convex_gt_snd.
  - right. destruct H as [-> | ->]; reflexivity.
Qed.
Lemma in_cells c : In c (cells n) <-> triangle n c.
Proof.
  unfold cells, triangle. rewrite in_flat_map. split.
  - intros (b & Hb & H). apply in_flat_map in H. destruct H as (a & Ha & H). apply in_seq in Ha, Hb. exists a, b. split; [lia |]. split; [lia |]. destruct H as [<- | [<- | []]]; [left | right]; reflexivity.
  - intros (a & b & Ha & Hb & H). exists b. split; [apply in_seq; lia |]. apply in_flat_map. exists a. split; [apply in_seq; lia |]. destruct H as [-> | ->]; cbn; auto.
Qed.
Lemma in_embedded tag c : In c (embedded n tag) <-> exists a b, a < n /\ b < n /\ (c = lower a b \/ c = upper a b) /\ (if inn a b then 2 else 1) = tag.
Proof.
  unfold embedded. rewrite filter_In, in_cells, Nat.eqb_eq. unfold triangle. split.
  - intros [(a & b & Ha & Hb & H) T]. exists a, b. rewrite <- (cell_f_inn a b c H). auto.
  - intros (a & b & Ha & Hb & H & T). split; [exists a, b; auto |]. rewrite (cell_f_inn a b c H). exact T.
Qed.
Lemma inn_iff a b c : c = lower a b \/ c = upper a b -> (inn a b = true <-> forall v, In v c -> in_inner (place n v)).
Proof.
  intros H. unfold inn, in_inner, place. rewrite !andb_true_iff, !Nat.leb_le. cbn [fst snd]. rewrite <- quarter, <- quarters. split.
  - intros K v Hv. rewrite !frac_le. destruct H as [-> | ->]; cbn in Hv; destruct Hv as [<- | [<- | [<- | []]]]; cbn [fst snd]; lia.
  - intros K. assert (A : In (a, b) c) by (destruct H as [-> | ->]; cbn; auto). assert (B : In (a + 1, b + 1) c) by (destruct H as [-> | ->]; cbn; auto). apply K in A, B. rewrite !frac_le in A, B. cbn [fst snd] in A, B. lia.
Qed.

(** Facets: horizontal, vertical, diagonal *)
Definition hor (a b : nat) : list vertex := [(a, b); (a + 1, b)].
Definition ver (a b : nat) : list vertex := [(a, b); (a, b + 1)].
Definition dia (a b : nat) : list vertex := [(a, b); (a + 1, b + 1)].
Lemma facet_lower e a b : facet_of e (lower a b) <-> e = hor a b \/ e = dia a b \/ e = ver (a + 1) b. Proof. reflexivity. Qed.
Lemma facet_upper e a b : facet_of e (upper a b) <-> e = ver a b \/ e = dia a b \/ e = hor a (b + 1). Proof. reflexivity. Qed.
Lemma edges_facet e c : In e (edges c) <-> facet_of e c.
Proof. unfold edges, facet_of. destruct c as [| u [| v [| w [| x c]]]]; cbn; try tauto. intuition. Qed.

Lemma two_cells cs e c1 c2 (Q1 Q2 : Prop) : c1 <> c2 -> (Q1 \/ ~ Q1) -> (Q2 \/ ~ Q2) -> (forall c, In c cs /\ facet_of e c <-> (c = c1 /\ Q1) \/ (c = c2 /\ Q2)) -> (on_boundary cs e <-> (Q1 /\ ~ Q2) \/ (Q2 /\ ~ Q1)).
Proof.
  intros N D1 D2 H. split.
  - intros (c & I & F & U). destruct (proj1 (H c) (conj I F)) as [[-> K] | [-> K]].
    + left. split; [exact K |]. intros K2. destruct (proj2 (H c2)) as [I2 F2]; [right; auto |]. apply N. symmetry. apply U; assumption.
    + right. split; [exact K |]. intros K1. destruct (proj2 (H c1)) as [I1 F1]; [left; auto |]. apply N. apply U; assumption.
  - intros [[K NK] | [K NK]].
    + exists c1. destruct (proj2 (H c1)) as [I F]; [left; auto |]. split; [exact I |]. split; [exact F |]. intros c' I' F'. destruct (proj1 (H c') (conj I' F')) as [[-> _] | [_ K2]]; [reflexivity | contradiction].
    + exists c2. destruct (proj2 (H c2)) as [I F]; [right; auto |]. split; [exact I |]. split; [exact F |]. intros c' I' F'. destruct (proj1 (H c') (conj I' F')) as [[_ K1] | [-> _]]; [contradiction | reflexivity].
Qed.
Definition domain (tag a b : nat) : Prop := a < n /\ b < n /\ (if inn a b then 2 else 1) = tag.
Lemma domain_dec tag a b : domain tag a b \/ ~ domain tag a b.
Proof. unfold domain. generalize (lt_dec a n) (lt_dec b n) (Nat.eq_dec (if inn a b then 2 else 1) tag). intros [U | U] [V | V] [W | W]; tauto. Qed.
Lemma cells_hor tag a b c : In c (embedded n tag) /\ facet_of (hor a b) c <-> (c = lower a b /\ domain tag a b) \/ (c = upper a (b - 1) /\ 1 <= b /\ domain tag a (b - 1)).
Proof.
  rewrite in_embedded. unfold domain. split.
  - intros [(x & y & Hx & Hy & [-> | ->] & T) F].
    + apply facet_lower in F. destruct F as [F | [F | F]]; injection F; intros; try lia. subst. left. auto.
    + apply facet_upper in F. destruct F as [F | [F | F]]; injection F; intros; try lia. right. subst. replace (y + 1 - 1) with y by lia. split; [reflexivity |]. split; [lia | auto].
  - intros [(-> & Hx & Hy & T) | (-> & Hb & Hx & Hy & T)].
    + split; [exists a, b; auto |]. apply facet_lower. auto.
    + split; [exists a, (b - 1); auto |]. apply facet_upper. right. right. unfold hor. replace (b - 1 + 1) with b by lia. reflexivity.
Qed.
Lemma cells_ver tag a b c : In c (embedded n tag) /\ facet_of (ver a b) c <-> (c = upper a b /\ domain tag a b) \/ (c = lower (a - 1) b /\ 1 <= a /\ domain tag (a - 1) b).
Proof.
  rewrite in_embedded. unfold domain. split.
  - intros [(x & y & Hx & Hy & [-> | ->] & T) F].
    + apply facet_lower in F. destruct F as [F | [F | F]]; injection F; intros; try lia. right. subst. replace (x + 1 - 1) with x by lia. split; [reflexivity |]. split; [lia | auto].
    + apply facet_upper in F. destruct F as [F | [F | F]]; injection F; intros; try lia. subst. left. auto.
  - intros [(-> & Hx & Hy & T) | (-> & Hb & Hx & Hy & T)].
    + split; [exists a, b; auto |]. apply facet_upper. auto.
    + split; [exists (a - 1), b; auto |]. apply facet_lower. right. right. unfold ver. replace (a - 1 + 1) with a by lia. reflexivity.
Qed.
Lemma cells_dia tag a b c : In c (embedded n tag) /\ facet_of (dia a b) c <-> (c = lower a b /\ domain tag a b) \/ (c = upper a b /\ domain tag a b).
Proof.
  rewrite in_embedded. unfold domain. split.
  - intros [(x & y & Hx & Hy & [-> | ->] & T) F].
    + apply facet_lower in F. destruct F as [F | [F | F]]; injection F; intros; try lia. subst. left. auto.
    + apply facet_upper in F. destruct F as [F | [F | F]]; injection F; intros; try lia. subst. right. auto.
  - intros [(-> & Hx & Hy & T) | (-> & Hx & Hy & T)]; (split; [exists a, b; auto |]); [apply facet_lower | apply facet_upper]; auto.
Qed.
Lemma boundary_hor tag a b : on_boundary (embedded n tag) (hor a b) <-> (domain tag a b /\ ~ (1 <= b /\ domain tag a (b - 1))) \/ ((1 <= b /\ domain tag a (b - 1)) /\ ~ domain tag a b).
Proof.
  apply two_cells with (c1 := lower a b) (c2 := upper a (b - 1)); [intros E; injection E; intros; lia | apply domain_dec | destruct (le_dec 1 b), (domain_dec tag a (b - 1)); tauto | apply cells_hor].
Qed.
Lemma boundary_ver tag a b : on_boundary (embedded n tag) (ver a b) <-> (domain tag a b /\ ~ (1 <= a /\ domain tag (a - 1) b)) \/ ((1 <= a /\ domain tag (a - 1) b) /\ ~ domain tag a b).
Proof.
  apply two_cells with (c1 := upper a b) (c2 := lower (a - 1) b); [intros E; injection E; intros; lia | apply domain_dec | destruct (le_dec 1 a), (domain_dec tag (a - 1) b); tauto | apply cells_ver].
Qed.
Lemma boundary_dia tag a b : ~ on_boundary (embedded n tag) (dia a b).
Proof.
  rewrite (two_cells _ _ (lower a b) (upper a b) (domain tag a b) (domain tag a b)); [tauto | intros E; injection E; intros; lia | apply domain_dec | apply domain_dec | apply cells_dia].
Qed.
Lemma facet_kinds tag e c : In c (embedded n tag) -> facet_of e c -> exists a b, (e = hor a b \/ e = ver a b \/ e = dia a b) /\ a <= n /\ b <= n.
Proof.
  intros I F. apply in_embedded in I. destruct I as (a & b & Ha & Hb & [-> | ->] & _).
  - apply facet_lower in F. destruct F as [-> | [-> | ->]]; [exists a, b | exists a, b | exists (a + 1), b]; (split; [auto | lia]).
  - apply facet_upper in F. destruct F as [-> | [-> | ->]]; [exists a, b | exists a, b | exists a, (b + 1)]; (split; [auto | lia]).
Qed.
(** Tags of facets that are on one side at most *)
Lemma fold_tag (p : nat -> bool) l t old : In t l -> p t = true -> (forall s, In s l -> p s = true -> s = t) -> fold_left (fun o s => if p s then s else o) l old = t.
Proof.
  revert old. assert (G : forall l old, (forall s, In s l -> p s = true -> s = t) -> fold_left (fun o s => if p s then s else o) l old = old \/ fold_left (fun o s => if p s then s else o) l old = t).
  { clear. induction l as [| s l IH]; intros old U; [left; reflexivity |]. cbn [fold_left]. destruct (p s) eqn:E.
    - rewrite (U s (or_introl eq_refl) E). right. destruct (IH t) as [K | K]; try exact K. intros; apply U; [right |]; assumption.
    - apply IH. intros; apply U; [right |]; assumption. }
  induction l as [| s l IH]; intros old I P U; [contradiction I |]. cbn [fold_left]. destruct I as [-> | I].
  - rewrite P. destruct (G l t) as [K | K]; try exact K. intros; apply U; [right |]; assumption.
  - apply IH; try assumption. intros; apply U; [right |]; assumption.
Qed.
Lemma fold_zero (p : nat -> bool) l old : (forall s, In s l -> p s = false) -> fold_left (fun o s => if p s then s else o) l old = old.
Proof. revert old. induction l as [| s l IH]; intros old H; [reflexivity |]. cbn [fold_left]. rewrite (H s (or_introl eq_refl)). apply IH. intros; apply H; right; assumption. Qed.
Lemma one_side a b e s t : e = hor a b \/ e = ver a b \/ e = dia a b -> forallb (sideb s) e = true -> forallb (sideb t) e = true -> s = t.
Proof.
  intros K S T.
  assert (B : forall u, forallb (sideb u) e = true -> 1 <= u <= 8). { intros u U. assert (G : sideb u (a, b) = true) by (rewrite forallb_forall in U; apply U; destruct K as [-> | [-> | ->]]; left; reflexivity). do 9 (destruct u as [| u]; [first [discriminate G | lia] |]). discriminate G. }
  pose proof (B s S) as Bs. pose proof (B t T) as Bt. clear B.
  assert (Cs : s = 1 \/ s = 2 \/ s = 3 \/ s = 4 \/ s = 5 \/ s = 6 \/ s = 7 \/ s = 8) by lia. assert (Ct : t = 1 \/ t = 2 \/ t = 3 \/ t = 4 \/ t = 5 \/ t = 6 \/ t = 7 \/ t = 8) by lia. clear Bs Bt.
  unfold rng in *. destruct K as [-> | [-> | ->]]; cbn [hor ver dia forallb] in S, T; rewrite !andb_true_iff in S, T;
    destruct Cs as [-> | [-> | [-> | [-> | [-> | [-> | [-> | ->]]]]]]]; cbn [sideb fst snd] in S; unfold rng in S; rewrite ?andb_true_iff, ?Nat.eqb_eq, ?Nat.leb_le in S; try (exfalso; lia);
    destruct Ct as [-> | [-> | [-> | [-> | [-> | [-> | [-> | ->]]]]]]]; try reflexivity; cbn [sideb fst snd] in T; unfold rng in T; rewrite ?andb_true_iff, ?Nat.eqb_eq, ?Nat.leb_le in T; exfalso; lia.
Qed.
Lemma sides_dec l e : (exists t, In t l /\ forallb (sideb t) e = true) \/ (forall t, In t l -> forallb (sideb t) e = false).
Proof.
  induction l as [| s l [(t & I & H) | H]]; [right; contradiction | left; exists t; split; [right |]; assumption |]. destruct (forallb (sideb s) e) eqn:E; [left; exists s; split; [left; reflexivity | exact E] | right; intros t [<- | I]; auto].
Qed.
Lemma fold_sides a b e l : e = hor a b \/ e = ver a b \/ e = dia a b -> ~ In 0 l ->
  let f := fold_left (fun old t => if forallb (sideb t) e then t else old) l 0 in
  (forall t, In t l -> (f = t <-> forallb (sideb t) e = true)) /\ (f = 0 <-> forall t, In t l -> forallb (sideb t) e = false).
Proof.
  intros K N f. destruct (sides_dec l e) as [(s & I & H) | H].
  - assert (F : f = s) by (apply (fold_tag (fun t => forallb (sideb t) e)); [exact I | exact H | intros; eapply one_side; eassumption]). rewrite F. split.
    + intros t It. split; [intros <-; exact H | intros Ht; eapply one_side; eassumption].
    + split; [intros ->; contradiction | intros G; rewrite (G s I) in H; discriminate].
  - assert (F : f = 0) by (apply (fold_zero (fun t => forallb (sideb t) e)); exact H). rewrite F. split.
    + intros t It. rewrite (H t It). split; [intros <-; contradiction | discriminate].
    + split; [intros _; exact H | reflexivity].
Qed.
Lemma side_all t e : (forall v, In v e -> side t (place n v)) <-> forallb (sideb t) e = true.
Proof. rewrite forallb_forall. split; intros H v Hv; apply side_iff; apply H; exact Hv. Qed.

Lemma domain1 a b : domain 1 a b <-> a < n /\ b < n /\ ~ (m <= a /\ a + 1 <= 3 * m /\ m <= b /\ b + 1 <= 3 * m).
Proof.
  unfold domain. assert (E : (if inn a b then 2 else 1) = 1 <-> ~ (m <= a /\ a + 1 <= 3 * m /\ m <= b /\ b + 1 <= 3 * m)); [| rewrite E; reflexivity].
  destruct (inn a b) eqn:I; unfold inn in I.
  - rewrite !andb_true_iff, !Nat.leb_le in I. split; [discriminate | lia].
  - split; [| reflexivity]. intros _ G. assert (X : inn a b = true) by (unfold inn; rewrite !andb_true_iff, !Nat.leb_le; lia). unfold inn in X. congruence.
Qed.
Lemma domain2 a b : domain 2 a b <-> m <= a /\ a + 1 <= 3 * m /\ m <= b /\ b + 1 <= 3 * m.
Proof.
  unfold domain. assert (E : (if inn a b then 2 else 1) = 2 <-> (m <= a /\ a + 1 <= 3 * m /\ m <= b /\ b + 1 <= 3 * m)); [| rewrite E; lia].
  destruct (inn a b) eqn:I; unfold inn in I.
  - rewrite !andb_true_iff, !Nat.leb_le in I. split; [lia | reflexivity].
  - split; [discriminate |]. intros G. assert (X : inn a b = true) by (unfold inn; rewrite !andb_true_iff, !Nat.leb_le; lia). unfold inn in X. congruence.
Qed.
Lemma notall (l : list nat) e : (forall t, In t l -> forallb (sideb t) e = false) <-> ~ exists t, In t l /\ forallb (sideb t) e = true.
Proof. split; [intros H (t & I & T); rewrite (H t I) in T; discriminate | intros H t I; destruct (forallb (sideb t) e) eqn:E; [exfalso; apply H; exists t; auto | reflexivity]]. Qed.
Ltac sides := cbn [hor ver dia forallb sideb fst snd]; unfold rng; rewrite ?andb_true_iff, ?Nat.eqb_eq, ?Nat.leb_le.
Ltac pick t := exists t; split; [cbn; tauto |]; sides; lia.
Lemma outer_boundary e c : In c (embedded n 1) -> facet_of e c -> (on_boundary (embedded n 1) e <-> exists t, In t [1; 2; 3; 4; 5; 6; 7; 8] /\ forallb (sideb t) e = true).
Proof.
  intros I F. destruct (facet_kinds 1 e c I F) as (a & b & [-> | [-> | ->]] & Ha & Hb).
  - apply (conj I) in F. apply cells_hor in F. rewrite boundary_hor. rewrite !domain1 in *. split.
    + intros H. destruct (Nat.eq_dec b m) as [-> | N1]; [pick 3 |]. destruct (Nat.eq_dec b (3 * m)) as [-> | N2]; [pick 4 |]. destruct (Nat.eq_dec b 0) as [-> | N3]; [pick 7 |]. destruct (Nat.eq_dec b n) as [-> | N4]; [pick 8 |]. exfalso. lia.
    + intros (t & Ht & T). revert T. cbn [In] in Ht. destruct Ht as [<- | [<- | [<- | [<- | [<- | [<- | [<- | [<- | []]]]]]]]]; sides; lia.
  - apply (conj I) in F. apply cells_ver in F. rewrite boundary_ver. rewrite !domain1 in *. split.
    + intros H. destruct (Nat.eq_dec a m) as [-> | N5]; [pick 1 |]. destruct (Nat.eq_dec a (3 * m)) as [-> | N6]; [pick 2 |]. destruct (Nat.eq_dec a 0) as [-> | N7]; [pick 5 |]. destruct (Nat.eq_dec a n) as [-> | N8]; [pick 6 |]. exfalso. lia.
    + intros (t & Ht & T). revert T. cbn [In] in Ht. destruct Ht as [<- | [<- | [<- | [<- | [<- | [<- | [<- | [<- | []]]]]]]]]; sides; lia.
  - split; [intros H; contradiction (boundary_dia 1 a b) |]. intros (t & Ht & T). revert T. cbn [In] in Ht. destruct Ht as [<- | [<- | [<- | [<- | [<- | [<- | [<- | [<- | []]]]]]]]]; sides; lia.
Qed.
Lemma inner_boundary e c : In c (embedded n 2) -> facet_of e c -> (on_boundary (embedded n 2) e <-> exists t, In t [1; 2; 3; 4] /\ forallb (sideb t) e = true).
Proof.
  intros I F. destruct (facet_kinds 2 e c I F) as (a & b & [-> | [-> | ->]] & Ha & Hb).
  - apply (conj I) in F. apply cells_hor in F. rewrite boundary_hor. rewrite !domain2 in *. split.
    + intros H. destruct (Nat.eq_dec b m) as [-> | N9]; [pick 3 |]. destruct (Nat.eq_dec b (3 * m)) as [-> | N10]; [pick 4 |]. exfalso. lia.
    + intros (t & Ht & T). revert T. cbn [In] in Ht. destruct Ht as [<- | [<- | [<- | [<- | []]]]]; sides; lia.
  - apply (conj I) in F. apply cells_ver in F. rewrite boundary_ver. rewrite !domain2 in *. split.
    + intros H. destruct (Nat.eq_dec a m) as [-> | N11]; [pick 1 |]. destruct (Nat.eq_dec a (3 * m)) as [-> | N12]; [pick 2 |]. exfalso. lia.
    + intros (t & Ht & T). revert T. cbn [In] in Ht. destruct Ht as [<- | [<- | [<- | [<- | []]]]]; sides; lia.
  - split; [intros H; contradiction (boundary_dia 2 a b) |]. intros (t & Ht & T). revert T. cbn [In] in Ht. destruct Ht as [<- | [<- | [<- | [<- | []]]]]; sides; lia.
Qed.
(** A facet of the inner domain on its boundary has a cell of the outer domain on the other side, and the converse *)
Lemma inner_meets_outer e : ((exists t, In t [1; 2; 3; 4] /\ forallb (sideb t) e = true) /\ (exists c, In c (embedded n 2) /\ facet_of e c)) <-> (exists c, In c (embedded n 2) /\ facet_of e c) /\ (exists c, In c (embedded n 1) /\ facet_of e c).
Proof.
  split.
  - intros ((t & Ht & T) & (c & I & F)). split; [exists c; auto |]. destruct (facet_kinds 2 e c I F) as (a & b & [-> | [-> | ->]] & Ha & Hb); revert T; cbn [In] in Ht.
    + destruct Ht as [<- | [<- | [<- | [<- | []]]]]; sides; intros T; try (exfalso; lia).
      * exists (upper a (b - 1)). apply cells_hor. right. split; [reflexivity |]. rewrite domain1. lia.
      * exists (lower a b). apply cells_hor. left. split; [reflexivity |]. rewrite domain1. lia.
    + destruct Ht as [<- | [<- | [<- | [<- | []]]]]; sides; intros T; try (exfalso; lia).
      * exists (lower (a - 1) b). apply cells_ver. right. split; [reflexivity |]. rewrite domain1. lia.
      * exists (upper a b). apply cells_ver. left. split; [reflexivity |]. rewrite domain1. lia.
    + destruct Ht as [<- | [<- | [<- | [<- | []]]]]; sides; intros T; exfalso; lia.
  - intros [(c & I & F) (c' & I' & F')]. split; [| exists c; auto]. destruct (facet_kinds 2 e c I F) as (a & b & [-> | [-> | ->]] & Ha & Hb); apply (conj I) in F; apply (conj I') in F'.
    + apply cells_hor in F, F'. rewrite !domain1, !domain2 in *. destruct (Nat.eq_dec b m) as [-> | N13]; [pick 3 |]. destruct (Nat.eq_dec b (3 * m)) as [-> | N14]; [pick 4 |]. exfalso. lia.
    + apply cells_ver in F, F'. rewrite !domain1, !domain2 in *. destruct (Nat.eq_dec a m) as [-> | N15]; [pick 1 |]. destruct (Nat.eq_dec a (3 * m)) as [-> | N16]; [pick 2 |]. exfalso. lia.
    + apply cells_dia in F, F'. rewrite !domain1, !domain2 in *. exfalso. lia.
Qed.
End Grid.

(** The resolutions of the demos are coarse enough for the tolerance *)
Lemma coarse i : i <= 49 -> (INR (4 * 2 ^ i) * EPS < 1)%R.
Proof.
  intros H. rewrite mult_INR, pow_INR. replace (INR 4) with 4%R by (cbn; ring). replace (INR 2) with 2%R by (cbn; ring).
  assert (G : (2 ^ i <= 2 ^ 49)%R) by (apply Rle_pow; [lra | exact H]). replace (2 ^ 49)%R with 562949953421312%R in G by (rewrite pow_IZR; reflexivity).
  pose proof eps_pos as E. unfold EPS in *. replace (10 ^ 16)%R with 10000000000000000%R in * by (rewrite pow_IZR; reflexivity). lra.
Qed.
Lemma pow2_pos i : 1 <= 2 ^ i. Proof. induction i as [| i IH]; cbn; lia. Qed.
