From Coq Require Import Reals Lra Lia.
From Verif Require Import BaseProofs ImmersedProofs.
From Verif Require Export BrokenModel.
Local Open Scope nat_scope.

(** ** Words of the statements *)
Definition centre (c : list point) : point :=
  (fold_right (fun p s => (fst p + s)%R) 0%R c / INR (length c), fold_right (fun p s => (snd p + s)%R) 0%R c / INR (length c))%R.
(** All of the cell's vertices and its centre *)
Definition Within (inside : point -> bool) (c : list point) : Prop := (forall p, In p c -> inside p = true) /\ inside (centre c) = true.
Fixpoint total {A} (f : A -> R) (l : list A) : R := match l with [] => 0%R | a :: r => (f a + total f r)%R end.
(** The norm of the function with local squares [loc] *)
Definition norm_of (loc : nat -> list point -> R) (norm_f : nat -> list (list point) -> R) : Prop :=
  (forall t c, (0 <= loc t c)%R) /\ forall t cs, norm_f t cs = sqrt (total (loc t) cs).
Definition dict (subdomains : list (nat * (point -> bool))) : Prop := NoDup (map fst subdomains).
Definition at_grid (n : nat) (L : list (list vertex)) : list (list point) := map (map (place n)) L.

(** ** Sums *)
Lemma total_ext {A} (f g : A -> R) l : (forall a, In a l -> f a = g a) -> total f l = total g l.
Proof. induction l as [| a l IH]; intros H; [reflexivity |]. cbn. rewrite H by (left; reflexivity). rewrite IH; [reflexivity |]. intros b Hb. apply H. right. exact Hb. Qed.
Lemma total_0 {A} (l : list A) : total (fun _ => 0%R) l = 0%R.
Proof. induction l as [| a l IH]; [reflexivity |]. cbn. rewrite IH. lra. Qed.
Lemma total_add {A} (f g : A -> R) l : total (fun a => (f a + g a)%R) l = (total f l + total g l)%R.
Proof. induction l as [| a l IH]; [cbn; lra |]. cbn. rewrite IH. lra. Qed.
Lemma total_nonneg {A} (f : A -> R) l : (forall a, In a l -> (0 <= f a)%R) -> (0 <= total f l)%R.
Proof. induction l as [| a l IH]; intros H; [cbn; lra |]. cbn. pose proof (H a (or_introl eq_refl)). assert (0 <= total f l)%R by (apply IH; intros b Hb; apply H; right; exact Hb). lra. Qed.
Lemma total_zero {A} (f : A -> R) l : (forall a, In a l -> (0 <= f a)%R) -> (total f l = 0%R <-> forall a, In a l -> f a = 0%R).
Proof.
  induction l as [| a l IH]; intros H; [split; [intros _ b [] | reflexivity] |]. cbn.
  pose proof (H a (or_introl eq_refl)) as P. assert (Q : forall b, In b l -> (0 <= f b)%R) by (intros b Hb; apply H; right; exact Hb). pose proof (total_nonneg f l Q) as T. specialize (IH Q). split.
  - intros E b [<- | Hb]; [lra |]. apply IH; [lra | exact Hb].
  - intros E. rewrite E by (left; reflexivity). assert (total f l = 0%R) by (apply IH; intros b Hb; apply E; right; exact Hb). lra.
Qed.
Lemma total_swap {A B} (f : A -> B -> R) l k : total (fun a => total (f a) k) l = total (fun b => total (fun a => f a b) l) k.
Proof. induction l as [| a l IH]; [cbn; rewrite total_0; reflexivity |]. cbn. rewrite IH, <- total_add. reflexivity. Qed.
Lemma total_filter {A} (f : A -> R) p l : total f (filter p l) = total (fun a => if p a then f a else 0%R) l.
Proof. induction l as [| a l IH]; [reflexivity |]. cbn. destruct (p a); cbn; rewrite IH; lra. Qed.
Lemma total_one (f : nat -> R) l t : NoDup l -> In t l -> total (fun s => if Nat.eq_dec t s then f s else 0%R) l = f t.
Proof.
  induction l as [| a l IH]; intros N I; [destruct I |]. inversion N as [| ? ? Na Nl]; subst. cbn. destruct I as [-> | I].
  - destruct (Nat.eq_dec t t) as [_ | n]; [| contradiction]. rewrite (total_ext _ (fun _ => 0%R)); [rewrite total_0; lra |]. intros s Hs. destruct (Nat.eq_dec t s) as [<- | _]; [contradiction | reflexivity].
  - destruct (Nat.eq_dec t a) as [-> | _]; [contradiction |]. rewrite IH by assumption. lra.
Qed.

(** ** The norm *)
Lemma centre_midpoint c : midpoint c = centre c.
Proof. unfold midpoint, centre. f_equal; f_equal; induction c as [| p c IH]; cbn; congruence. Qed.
Lemma marks_iff s c : marks s c = true <-> Within s c.
Proof. unfold marks, Within. rewrite andb_true_iff, forallb_forall, centre_midpoint. reflexivity. Qed.
Lemma lookup_iff S t s : dict S -> (lookup S t = Some s <-> In (t, s) S).
Proof.
  unfold dict. induction S as [| [k x] S IH]; intros N; cbn in *; [split; [discriminate | intros []] |]. inversion N as [| ? ? Nk NS]; subst. specialize (IH NS). destruct (Nat.eqb_spec k t) as [-> | D].
  - split; [intros [= ->]; left; reflexivity |]. intros [[= ->] | I]; [reflexivity |]. exfalso. apply Nk. apply (in_map fst) in I. exact I.
  - rewrite IH. split; [right; assumption |]. intros [[= -> ->] | I]; [contradiction | exact I].
Qed.
Lemma lookup_none S t : lookup S t = None <-> ~ In t (map fst S).
Proof. induction S as [| [k x] S IH]; cbn; [tauto |]. destruct (Nat.eqb_spec k t) as [-> | D]; [split; [discriminate | tauto] | rewrite IH; tauto]. Qed.

Lemma sub_mesh_filter s t mesh : t <> 0 -> sub_mesh s t mesh = filter (marks s) mesh.
Proof. intros H. unfold sub_mesh. apply filter_ext. intros c. destruct (marks s c); [apply Nat.eqb_refl |]. apply Nat.eqb_neq. auto. Qed.

Lemma errors_sum S norm_f loc mesh (w : nat -> list point -> bool) : norm_of loc norm_f -> dict S -> forall u, ~ In 0 u -> (forall t, In t u -> In t (map fst S)) ->
  (forall t s c, In (t, s) S -> In c mesh -> (w t c = true <-> Within s c)) ->
  exists es, errors S norm_f mesh u = Ok es /\ fold_right Rplus 0%R (map (fun e => (e * e)%R) es) = total (fun t => total (fun c => if w t c then loc t c else 0%R) mesh) u.
Proof.
  intros [P N] D. induction u as [| t u IH]; intros Z K W; [exists []; split; reflexivity |].
  destruct IH as (es & E & T); [intros H; apply Z; right; exact H | intros s Hs; apply K; right; exact Hs | exact W |].
  cbn [errors]. destruct (lookup S t) as [s |] eqn:L; [| apply lookup_none in L; exfalso; apply L, K; left; reflexivity]. cbn [opt_res bind].
  assert (F : total (loc t) (sub_mesh s t mesh) = total (fun c => if w t c then loc t c else 0%R) mesh).
  { rewrite sub_mesh_filter by (intros ->; apply Z; left; reflexivity). rewrite total_filter. apply total_ext. intros c Hc. apply lookup_iff in L; [| exact D]. pose proof (W t s c L Hc) as I. rewrite <- marks_iff in I. destruct (w t c), (marks s c); try reflexivity; [discriminate (proj1 I eq_refl) | discriminate (proj2 I eq_refl)]. }
  destruct (sub_mesh s t mesh) as [| c cs] eqn:M.
  - exists es. split; [exact E |]. cbn [total]. rewrite <- F, T. cbn. lra.
  - exists (norm_f t (c :: cs) :: es). rewrite E. split; [reflexivity |]. cbn [map fold_right]. rewrite T, N, sqrt_sqrt by (apply total_nonneg; intros; apply P). rewrite F. reflexivity.
Qed.

Lemma broken_formula S norm_f loc mesh u w : norm_of loc norm_f -> dict S -> ~ In 0 u -> (forall t, In t u -> In t (map fst S)) ->
  (forall t s c, In (t, s) S -> In c mesh -> (w t c = true <-> Within s c)) ->
  broken_norm S norm_f mesh u = Ok (sqrt (total (fun c => total (fun t => if w t c then loc t c else 0%R) u) mesh)).
Proof. intros N D Z K W. destruct (errors_sum S norm_f loc mesh w N D u Z K W) as (es & E & T). unfold broken_norm. rewrite E. cbn [bind]. rewrite T, total_swap. reflexivity. Qed.

Lemma errors_err S norm_f mesh u : (exists t, In t u /\ ~ In t (map fst S)) -> errors S norm_f mesh u = Err KeyError.
Proof.
  induction u as [| t u IH]; intros (x & I & N); [destruct I |]. cbn [errors]. destruct I as [-> | I].
  - rewrite (proj2 (lookup_none S x) N). reflexivity.
  - destruct (lookup S t) as [s |]; [| reflexivity]. cbn [opt_res bind]. rewrite IH by (exists x; auto). destruct (sub_mesh s t mesh); reflexivity.
Qed.

(** ** On the grid *)
Lemma grid_within n (s : point -> bool) e : convex s -> length e = 2 \/ length e = 3 -> (Within s (map (place n) e) <-> forall v, In v e -> s (place n v) = true).
Proof.
  intros C L. unfold Within. split.
  - intros [H _] v Hv. apply H. apply in_map. exact Hv.
  - intros H. assert (A : forall p, In p (map (place n) e) -> s p = true) by (intros p Hp; apply in_map_iff in Hp; destruct Hp as (v & <- & Hv); apply H; exact Hv).
    split; [exact A |]. rewrite <- centre_midpoint. apply C; [rewrite map_length; exact L | apply forallb_forall; exact A].
Qed.

Section G.
Variable m : nat.
Hypothesis Hm : 1 <= m.
Hypothesis Hn : (INR (4 * m) * EPS < 1)%R.
Notation n := (4 * m).
Lemma half : (INR (2 * m) / INR n = 1 / 2)%R.
Proof. pose proof (quarter m Hm) as Q. rewrite mult_INR. replace (INR 2) with 2%R by (cbn; ring). replace (2 * INR m / INR n)%R with (2 * (INR m / INR n))%R by (unfold Rdiv; ring). rewrite Q. field. Qed.
Lemma left_iff a : lt (INR a / INR n) (5 / 10 + EPS) = true <-> a <= 2 * m.
Proof. rewrite lt_iff. replace (5 / 10)%R with (INR (2 * m) / INR n)%R by (rewrite half; lra). apply frac_lt; assumption. Qed.
Lemma right_iff a : lt (5 / 10 - EPS) (INR a / INR n) = true <-> 2 * m <= a.
Proof. rewrite lt_iff. replace (5 / 10)%R with (INR (2 * m) / INR n)%R by (rewrite half; lra). apply frac_gt; assumption. Qed.
Lemma tri_left a b c : c = lower a b \/ c = upper a b -> (Within (fun p => lt (fst p) (5 / 10 + EPS)) (map (place n) c) <-> a + 1 <= 2 * m).
Proof.
  intros H. rewrite grid_within; [| apply convex_lt_fst | right; destruct H as [-> | ->]; reflexivity]. split.
  - intros K. apply (left_iff (a + 1)). apply (K (a + 1, b + 1)). destruct H as [-> | ->]; cbn; auto.
  - intros K v Hv. apply (left_iff (fst v)). destruct H as [-> | ->]; cbn in Hv; destruct Hv as [<- | [<- | [<- | []]]]; cbn [fst]; lia.
Qed.
Lemma tri_right a b c : c = lower a b \/ c = upper a b -> (Within (fun p => lt (5 / 10 - EPS) (fst p)) (map (place n) c) <-> 2 * m <= a).
Proof.
  intros H. rewrite grid_within; [| apply convex_gt_fst | right; destruct H as [-> | ->]; reflexivity]. split.
  - intros K. apply (right_iff a). apply (K (a, b)). destruct H as [-> | ->]; cbn; auto.
  - intros K v Hv. apply (right_iff (fst v)). destruct H as [-> | ->]; cbn in Hv; destruct Hv as [<- | [<- | [<- | []]]]; cbn [fst]; lia.
Qed.
Lemma half_f_val a b c : c = lower a b \/ c = upper a b -> half_f n c = if 2 * m <=? a then 2 else 1.
Proof.
  intros H. unfold half_f, mark. change (map (coord n) c) with (map (place n) c). fold (marks (fun p => lt (5 / 10 - EPS) (fst p)) (map (place n) c)).
  pose proof (tri_right a b c H) as T. rewrite <- marks_iff in T. destruct (marks _ _), (Nat.leb_spec (2 * m) a) as [L | L]; try reflexivity; [exfalso; apply proj1 in T; specialize (T eq_refl); lia | discriminate (proj2 T L)].
Qed.
(** The edges on the sides of the inner square *)
Lemma inner_within t s e : length e = 2 -> In (t, s) inner_boundaries -> (Within s (map (place n) e) <-> forallb (sideb m t) e = true).
Proof.
  intros L I. assert (C : convex s /\ forall v, s (place n v) = sideb m t v).
  { unfold inner_boundaries in I. cbn in I. destruct I as [[= <- <-] | [[= <- <-] | [[= <- <-] | [[= <- <-] | []]]]]; (split; [unfold in_range; repeat apply convex_and; auto using convex_lt_fst, convex_lt_snd, convex_gt_fst, convex_gt_snd, convex_near_fst, convex_near_snd |]);
      intros v; unfold place, in_range, sideb, rng; cbn [fst snd]; rewrite ?near_q, ?near_3q, ?lt_hi, ?lt_lo by assumption; reflexivity. }
  destruct C as [C V]. rewrite grid_within by auto. rewrite forallb_forall. split; intros H v Hv; [rewrite <- V | rewrite V]; auto.
Qed.
Definition sqb (t : nat) (v : vertex) : bool := match t with 1 => fst v =? 0 | 2 => fst v =? n | 3 => snd v =? 0 | 4 => snd v =? n | _ => false end.
Lemma square_val t s v : In (t, s) square_sides -> convex s /\ s (place n v) = sqb t v.
Proof.
  intros I. unfold square_sides in I. cbn in I. destruct I as [[= <- <-] | [[= <- <-] | [[= <- <-] | [[= <- <-] | []]]]]; (split; [auto using convex_near_fst, convex_near_snd |]); unfold place, sqb; cbn [fst snd]; rewrite ?near_0, ?near_1 by assumption; reflexivity.
Qed.
Lemma square_within t s e : length e = 2 -> In (t, s) square_sides -> (Within s (map (place n) e) <-> forallb (sqb t) e = true).
Proof.
  intros L I. rewrite grid_within by (first [apply (square_val t s (0, 0) I) | auto]). rewrite forallb_forall. split; intros H v Hv; [rewrite <- (proj2 (square_val t s v I)) | rewrite (proj2 (square_val t s v I))]; auto.
Qed.
Lemma facet_square e : length e = 2 -> facet_f n square_sides e = fold_left (fun old t => if forallb (sqb t) e then t else old) [1; 2; 3; 4] 0.
Proof.
  intros L. unfold facet_f, square_sides. cbn [fold_left fst snd].
  assert (E : forall p t old, In (t, p) square_sides -> mark n p t e old = if forallb (sqb t) e then t else old).
  { intros p t old H. pose proof (square_within t p e L H) as W. rewrite <- marks_iff in W. unfold mark. change (map (coord n) e) with (map (place n) e). fold (marks p (map (place n) e)). destruct (marks _ _), (forallb _ _); try reflexivity; [discriminate (proj1 W eq_refl) | discriminate (proj2 W eq_refl)]. }
  rewrite !E by (unfold square_sides; cbn; auto). reflexivity.
Qed.
Lemma sq_one a b e s t : e = hor a b \/ e = ver a b \/ e = dia a b -> forallb (sqb s) e = true -> forallb (sqb t) e = true -> s = t.
Proof.
  intros K A B. unfold sqb in *. destruct s as [| [| [| [| [| s]]]]], t as [| [| [| [| [| t]]]]]; try reflexivity; destruct K as [-> | [-> | ->]]; unfold hor, ver, dia in A, B; cbn [forallb fst snd] in A, B; rewrite ?andb_true_r, ?andb_true_iff, ?Nat.eqb_eq in A, B; try discriminate; try (destruct A; discriminate); try (destruct B; discriminate); repeat rewrite Nat.eqb_eq in A; repeat rewrite Nat.eqb_eq in B; lia.
Qed.
Lemma square_facet_iff a b e t : e = hor a b \/ e = ver a b \/ e = dia a b -> In t [1; 2; 3; 4] -> (facet_f n square_sides e = t <-> forallb (sqb t) e = true).
Proof.
  intros K I. rewrite facet_square by (destruct K as [-> | [-> | ->]]; reflexivity). split.
  - intros H. destruct (forallb (sqb t) e) eqn:F; [reflexivity | exfalso].
    assert (Z : t <> 0) by (intros ->; cbn in I; intuition discriminate).
    revert H. destruct (existsb (fun s => forallb (sqb s) e) [1; 2; 3; 4]) eqn:X.
    + apply existsb_exists in X. destruct X as (s & Hs & Fs). rewrite (fold_tag (fun s => forallb (sqb s) e) [1; 2; 3; 4] s 0 Hs Fs) by (intros r _ Hr; apply (sq_one a b e); assumption). intros <-. congruence.
    + rewrite (fold_zero (fun s => forallb (sqb s) e)); [auto |]. intros s Hs. destruct (forallb (sqb s) e) eqn:Q; [| reflexivity]. rewrite <- X. symmetry. apply existsb_exists. exists s. auto.
  - intros F. apply (fold_tag (fun s => forallb (sqb s) e)); [exact I | exact F |]. intros s _ Hs. apply (sq_one a b e); assumption.
Qed.
Lemma inner_facet_iff a b e t : e = hor a b \/ e = ver a b \/ e = dia a b -> In t [1; 2; 3; 4] -> (facet_f n inner_boundaries e = t <-> forallb (sideb m t) e = true).
Proof.
  intros K I. rewrite facet_inner by (first [assumption | destruct K as [-> | [-> | ->]]; reflexivity]). split.
  - intros H. destruct (forallb (sideb m t) e) eqn:F; [reflexivity | exfalso].
    assert (Z : t <> 0) by (intros ->; cbn in I; intuition discriminate).
    revert H. destruct (existsb (fun s => forallb (sideb m s) e) [1; 2; 3; 4]) eqn:X.
    + apply existsb_exists in X. destruct X as (s & Hs & Fs). rewrite (fold_tag (fun s => forallb (sideb m s) e) [1; 2; 3; 4] s 0 Hs Fs) by (intros r _ Hr; apply (one_side m Hm a b e); assumption). intros <-. congruence.
    + rewrite (fold_zero (fun s => forallb (sideb m s) e)); [auto |]. intros s Hs. destruct (forallb (sideb m s) e) eqn:Q; [| reflexivity]. rewrite <- X. symmetry. apply existsb_exists. exists s. auto.
  - intros F. apply (fold_tag (fun s => forallb (sideb m s) e)); [exact I | exact F |]. intros s _ Hs. apply (one_side m Hm a b e); assumption.
Qed.
End G.

Lemma total_map {A B} (g : A -> B) (f : B -> R) l : total f (map g l) = total (fun a => f (g a)) l.
Proof. induction l as [| a l IH]; [reflexivity |]. cbn. rewrite IH. reflexivity. Qed.
Lemma marks_lookup S t s c : dict S -> In (t, s) S -> (match lookup S t with Some s => marks s c | None => false end = true <-> Within s c).
Proof. intros D I. apply lookup_iff in I; [| exact D]. rewrite I. apply marks_iff. Qed.
Lemma part {A} S norm_f loc u (g : A -> list point) L (owner : A -> nat) : norm_of loc norm_f -> dict S -> NoDup u -> ~ In 0 u -> (forall t, In t u -> In t (map fst S)) ->
  (forall e, In e L -> In (owner e) u) -> (forall t s e, In (t, s) S -> In t u -> In e L -> (Within s (g e) <-> owner e = t)) ->
  broken_norm S norm_f (map g L) u = Ok (sqrt (total (fun e => loc (owner e) (g e)) L)).
Proof.
  intros N D U Z K O W. rewrite (broken_formula S norm_f loc (map g L) u (fun t c => match lookup S t with Some s => marks s c | None => false end) N D Z K) by (intros; apply marks_lookup; assumption).
  rewrite total_map. f_equal. f_equal. apply total_ext. intros e He. rewrite <- (total_one (fun t => loc t (g e)) u (owner e) U (O e He)). apply total_ext. intros t Ht.
  specialize (K t Ht). apply in_map_iff in K. destruct K as ([t' s] & E & I). cbn in E. subst t'. pose proof (marks_lookup S t s (g e) D I) as M. rewrite (W t s e I Ht He) in M.
  destruct (Nat.eq_dec (owner e) t) as [E | E]; [rewrite (proj2 M E); reflexivity |]. destruct (match lookup S t with Some s => marks s (g e) | None => false end); [exfalso; apply E, M; reflexivity | reflexivity].
Qed.

(** Where the cells of the demos are *)
Definition in_half (t : nat) (p : R * R) : Prop := match t with 1 => (fst p <= 1 / 2)%R | 2 => (1 / 2 <= fst p)%R | _ => False end.
Definition on_square (t : nat) (p : R * R) : Prop := match t with 1 => (fst p = 0)%R | 2 => (fst p = 1)%R | 3 => (snd p = 0)%R | 4 => (snd p = 1)%R | _ => False end.

Section G2.
Variable m : nat.
Hypothesis Hm : 1 <= m.
Hypothesis Hn : (INR (4 * m) * EPS < 1)%R.
Notation n := (4 * m).
Lemma in_half_left a : (INR a / INR n <= 1 / 2)%R <-> a <= 2 * m. Proof. rewrite <- (half m Hm). apply frac_le; assumption. Qed.
Lemma in_half_right a : (1 / 2 <= INR a / INR n)%R <-> 2 * m <= a. Proof. rewrite <- (half m Hm). apply frac_le; assumption. Qed.
Lemma halves_part norm_f loc : norm_of loc norm_f ->
  (forall c, In c (cells n) -> In (half_f n c) [1; 2] /\ forall v, In v c -> in_half (half_f n c) (place n v)) /\
  broken_norm halves norm_f (at_grid n (cells n)) [1; 2] = Ok (sqrt (total (fun c => loc (half_f n c) (map (place n) c)) (cells n))).
Proof.
  intros N. split.
  - intros c Hc. apply (in_cells m Hm) in Hc. destruct Hc as (a & b & Ha & Hb & H). rewrite (half_f_val m Hm Hn a b c H). split; [destruct (2 * m <=? a); cbn; auto |].
    intros v Hv. destruct (Nat.leb_spec (2 * m) a) as [L | L]; cbn [in_half place fst]; [apply in_half_right | apply in_half_left]; destruct H as [-> | ->]; cbn in Hv; destruct Hv as [<- | [<- | [<- | []]]]; cbn [fst]; lia.
  - unfold at_grid. apply part; [exact N | repeat constructor; cbn; intuition discriminate | repeat constructor; cbn; intuition discriminate | cbn; intuition discriminate | cbn; intuition | |].
    + intros c Hc. apply (in_cells m Hm) in Hc. destruct Hc as (a & b & Ha & Hb & H). rewrite (half_f_val m Hm Hn a b c H). destruct (2 * m <=? a); cbn; auto.
    + intros t s c I _ Hc. apply (in_cells m Hm) in Hc. destruct Hc as (a & b & Ha & Hb & H). rewrite (half_f_val m Hm Hn a b c H). unfold halves in I. cbn in I. destruct I as [[= <- <-] | [[= <- <-] | []]].
      * rewrite (tri_left m Hm Hn a b c H). destruct (Nat.leb_spec (2 * m) a); split; intros; try reflexivity; try discriminate; lia.
      * rewrite (tri_right m Hm Hn a b c H). destruct (Nat.leb_spec (2 * m) a); split; intros; try reflexivity; try discriminate; lia.
Qed.

Lemma edge_kind e : In e (nodup (list_eq_dec vertex_eq) (flat_map edges (cells n))) -> exists a b, e = hor a b \/ e = ver a b \/ e = dia a b.
Proof.
  intros H. apply nodup_In, in_flat_map in H. destruct H as (c & Hc & He). apply edges_facet in He. apply (in_cells m Hm) in Hc. destruct Hc as (a & b & _ & _ & [-> | ->]).
  - apply facet_lower in He. destruct He as [-> | [-> | ->]]; [exists a, b | exists a, b | exists (a + 1), b]; auto.
  - apply facet_upper in He. destruct He as [-> | [-> | ->]]; [exists a, b | exists a, b | exists a, (b + 1)]; auto.
Qed.
Lemma on_square_iff t v : on_square t (place n v) <-> sqb m t v = true.
Proof.
  unfold on_square, place, sqb. destruct t as [| [| [| [| [| t]]]]]; cbn [fst snd]; try (split; [contradiction | discriminate]);
    rewrite Nat.eqb_eq; rewrite <- (frac_eq m Hm Hn), ?none, ?(whole m Hm); reflexivity.
Qed.
Lemma sides_part norm_f loc tags : norm_of loc norm_f -> incl tags [1; 2; 3; 4] -> let mesh := side_facets n tags in
  (forall e, In e mesh <-> (exists c, In c (cells n) /\ facet_of e c) /\ exists t, In t tags /\ forall v, In v e -> on_square t (place n v)) /\
  exists owner, (forall e, In e mesh -> In (owner e) tags /\ forall v, In v e -> on_square (owner e) (place n v)) /\
  broken_norm square_sides norm_f (at_grid n mesh) [1; 2; 3; 4] = Ok (sqrt (total (fun e => loc (owner e) (map (place n) e)) mesh)).
Proof.
  intros N T mesh.
  assert (M : forall e, In e mesh -> (exists a b, e = hor a b \/ e = ver a b \/ e = dia a b) /\ In (facet_f n square_sides e) tags).
  { intros e He. unfold mesh, side_facets in He. apply filter_In in He. destruct He as [He X]. split; [apply edge_kind; exact He |]. apply existsb_exists in X. destruct X as (t & Ht & E). apply Nat.eqb_eq in E. rewrite E. exact Ht. }
  assert (O : forall e, In e mesh -> forall v, In v e -> on_square (facet_f n square_sides e) (place n v)).
  { intros e He v Hv. destruct (M e He) as ((a & b & K) & I). pose proof (proj1 (square_facet_iff m Hm Hn a b e _ K (T _ I)) eq_refl) as F. rewrite forallb_forall in F. apply on_square_iff. apply F. exact Hv. }
  split.
  - intros e. split.
    + intros He. split.
      * unfold mesh, side_facets in He. apply filter_In in He. destruct He as [He _]. apply nodup_In, in_flat_map in He. destruct He as (c & Hc & E). exists c. split; [exact Hc | apply edges_facet; exact E].
      * exists (facet_f n square_sides e). split; [apply M; exact He | apply O; exact He].
    + intros [(c & Hc & F) (t & Ht & S)]. unfold mesh, side_facets. apply filter_In.
      assert (X : In e (nodup (list_eq_dec vertex_eq) (flat_map edges (cells n)))) by (apply nodup_In, in_flat_map; exists c; split; [exact Hc | apply edges_facet; exact F]).
      split; [exact X |]. apply existsb_exists. exists t. split; [exact Ht |]. apply Nat.eqb_eq. destruct (edge_kind e X) as (a & b & K). apply (square_facet_iff m Hm Hn a b e t K (T t Ht)). apply forallb_forall. intros v Hv. apply on_square_iff. apply S. exact Hv.
  - exists (facet_f n square_sides). split; [intros e He; split; [apply M; exact He | apply O; exact He] |].
    unfold at_grid. apply part; [exact N | repeat constructor; cbn; intuition discriminate | repeat constructor; cbn; intuition discriminate | cbn; intuition discriminate | cbn; intuition | |].
    + intros e He. apply T. apply M. exact He.
    + intros t s e I It He. destruct (M e He) as ((a & b & K) & J). rewrite (square_within m Hm Hn t s e) by (first [exact I | destruct K as [-> | [-> | ->]]; reflexivity]). symmetry. apply (square_facet_iff m Hm Hn a b e t K It).
Qed.
Lemma inner_part norm_f loc es : norm_of loc norm_f -> (forall e, In e es -> (exists a b, e = hor a b \/ e = ver a b \/ e = dia a b) /\ In (facet_f n inner_boundaries e) [1; 2; 3; 4]) ->
  (forall e, In e es -> forall v, In v e -> side (facet_f n inner_boundaries e) (place n v)) /\
  broken_norm inner_boundaries norm_f (at_grid n es) [1; 2; 3; 4] = Ok (sqrt (total (fun e => loc (facet_f n inner_boundaries e) (map (place n) e)) es)).
Proof.
  intros N M. split.
  - intros e He v Hv. destruct (M e He) as ((a & b & K) & I). pose proof (proj1 (inner_facet_iff m Hm Hn a b e _ K I) eq_refl) as F. rewrite forallb_forall in F. apply (side_iff m Hm Hn). apply F. exact Hv.
  - unfold at_grid. apply part; [exact N | repeat constructor; cbn; intuition discriminate | repeat constructor; cbn; intuition discriminate | cbn; intuition discriminate | cbn; intuition | |].
    + intros e He. apply M. exact He.
    + intros t s e I It He. destruct (M e He) as ((a & b & K) & J). rewrite (inner_within m Hm Hn t s e) by (first [exact I | destruct K as [-> | [-> | ->]]; reflexivity]). symmetry. apply (inner_facet_iff m Hm Hn a b e t K It).
Qed.
Lemma inner_edges e : In e (nodup (list_eq_dec vertex_eq) (flat_map edges (embedded n 2))) -> exists a b, e = hor a b \/ e = ver a b \/ e = dia a b.
Proof.
  intros H. apply nodup_In, in_flat_map in H. destruct H as (c & Hc & He). apply edges_facet in He. destruct (facet_kinds m Hm Hn 2 e c Hc He) as (a & b & K & _). eauto.
Qed.
End G2.
