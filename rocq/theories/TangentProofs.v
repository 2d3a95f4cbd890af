(** Unit tangent of a curve: specification and lemmas (property C69) *)
From Coq Require Import Reals Lra Sorting.Sorted.
From Verif Require Export TangentModel.
From Verif Require Import BaseProofs EmbedProofs FillProofs.
Local Close Scope R_scope.
Local Open Scope nat_scope.

(** ** Specification *)
Definition joined (g : list (nat * nat)) (a b : nat) : Prop := In (a, b) g \/ In (b, a) g.
(** Cells have two vertices of the mesh, no two have the same *)
Definition simple_mesh (nv : nat) (g : list (nat * nat)) : Prop :=
  (forall a b, In (a, b) g -> a <> b /\ a < nv /\ b < nv) /\ NoDup g /\ forall a b, In (a, b) g -> ~ In (b, a) g.
(** Cell [c] has ends [a] and [b] *)
Definition cell_is (g : list (nat * nat)) (c a b : nat) : Prop := nth_error g c = Some (a, b) \/ nth_error g c = Some (b, a).
Fixpoint chain (g : list (nat * nat)) (l : list nat) : Prop :=
  match l with a :: ((b :: _) as l') => joined g a b /\ chain g l' | _ => True end.
(** A path without repetition from [r], its vertices are [l] *)
Definition path_from (g : list (nat * nat)) (r : nat) (l : list nat) : Prop := chain g l /\ NoDup l /\ hd_error l = Some r.
(** The graph is a tree: there is exactly one path between any two vertices *)
Definition tree (nv : nat) (g : list (nat * nat)) : Prop :=
  (forall r v, r < nv -> v < nv -> exists l, path_from g r (l ++ [v])) /\
  forall r v l m, path_from g r (l ++ [v]) -> path_from g r (m ++ [v]) -> l = m.
Definition leaf (g : list (nat * nat)) (v : nat) : Prop := exists c, forall d, (exists w, cell_is g d v w) <-> d = c.
(** [t] is the unit vector from [p] in the direction of [q] *)
Fixpoint squares (t : list R) : R := match t with [] => 0 | x :: t' => x * x + squares t' end%R.
Definition directed (p q t : list R) : Prop :=
  length t = length p /\ squares t = 1%R /\ exists s, (0 < s)%R /\ forall i, (nth i q 0 - nth i p 0 = s * nth i t 0)%R.
(** Coordinates of a dimension, different at the ends of cells *)
Definition coordinates (gdim : nat) (g : list (nat * nat)) (X : nat -> list R) : Prop :=
  (forall v, length (X v) = gdim) /\ forall a b, In (a, b) g -> X a <> X b.

(** ** Lemmas *)
(** *** Vectors *)
Lemma rsub_length x : forall y, length x = length y -> length (rsub x y) = length x.
Proof. induction x as [|a x IH]; intros [|b y] H; try discriminate; [reflexivity|]. cbn in *. rewrite IH; lia. Qed.
Lemma rsub_nth x : forall y i, length x = length y -> nth i (rsub x y) 0%R = (nth i x 0 - nth i y 0)%R.
Proof. induction x as [|a x IH]; intros [|b y] i H; try discriminate; [destruct i; cbn; lra|]. destruct i as [|i]; [reflexivity|]. cbn. apply IH. cbn in H. lia. Qed.
Lemma rdot_pos x : (0 <= rdot x x)%R.
Proof. induction x as [|a x IH]; cbn; [lra|]. pose proof (Rle_0_sqr a) as S. unfold Rsqr in S. lra. Qed.
Lemma rdot_zero x : rdot x x = 0%R -> forall i, nth i x 0%R = 0%R.
Proof.
  induction x as [|a x IH]; intros H i; [destruct i; reflexivity|]. cbn in H. pose proof (Rle_0_sqr a) as S. unfold Rsqr in S. pose proof (rdot_pos x). assert (A : (a * a = 0)%R) by lra. destruct i as [|i]; cbn; [apply Rmult_integral in A; destruct A; assumption|apply IH; lra].
Qed.
Lemma rnorm_pos x y : length x = length y -> x <> y -> (0 < rnorm (rsub x y))%R.
Proof.
  intros L N. unfold rnorm. apply sqrt_lt_R0. destruct (Rle_lt_or_eq_dec 0 _ (rdot_pos (rsub x y))) as [H|H]; [exact H|]. exfalso. apply N. apply (nth_ext _ _ 0%R 0%R L). intros i _. pose proof (rdot_zero _ (eq_sym H) i) as Z. rewrite rsub_nth in Z by exact L. lra.
Qed.
Lemma rdot_scale a x : rdot (rscale a x) (rscale a x) = (a * a * rdot x x)%R.
Proof. induction x as [|b x IH]; cbn; [lra|]. fold (rscale a x). rewrite IH. ring. Qed.
Lemma squares_rdot x : squares x = rdot x x.
Proof. induction x as [|a x IH]; [reflexivity|]. cbn. rewrite IH. reflexivity. Qed.
Lemma rscale_nth a x : forall i, nth i (rscale a x) 0%R = (a * nth i x 0)%R.
Proof. induction x as [|b x IH]; intros [|i]; cbn; try lra. apply IH. Qed.
Lemma tangent_directed p q : length p = length q -> p <> q -> directed p q (tangent p q).
Proof.
  intros L N. assert (P : (0 < rnorm (rsub q p))%R) by (apply rnorm_pos; [congruence|congruence]). unfold directed, tangent. split; [|split].
  - unfold rscale. rewrite map_length, rsub_length by congruence. congruence.
  - rewrite squares_rdot, rdot_scale. unfold rnorm in *. set (d := rdot (rsub q p) (rsub q p)) in *. assert (Q : (sqrt d * sqrt d = d)%R) by (apply sqrt_def; subst d; apply rdot_pos). rewrite <- Q at 3. field. lra.
  - exists (rnorm (rsub q p)). split; [exact P|]. intros i. rewrite rscale_nth, rsub_nth by congruence. field. lra.
Qed.
Lemma squares_scale_unique (s s' : R) : forall t t', length t = length t' -> (0 < s)%R -> (0 < s')%R -> squares t = 1%R -> squares t' = 1%R -> (forall i, (s * nth i t 0 = s' * nth i t' 0)%R) -> t = t'.
Proof.
  intros t t' L P P' Q Q' E. assert (S : (s * s * squares t = s' * s' * squares t')%R).
  { clear Q Q'. revert t' L E. induction t as [|a t IH]; intros [|b t'] L E; try discriminate; [cbn; lra|]. cbn [squares]. specialize (IH t' ltac:(cbn in L; lia) (fun i => E (S i))). pose proof (E 0) as E0. cbn [nth] in E0. replace (s * s * (a * a + squares t))%R with ((s * a) * (s * a) + s * s * squares t)%R by ring. rewrite IH, E0. ring. }
  rewrite Q, Q' in S. assert (s = s') by nra. subst s'. apply (nth_ext _ _ 0%R 0%R L). intros i _. specialize (E i). nra.
Qed.
(** The unit vector is determined *)
Lemma directed_unique p q t t' : directed p q t -> directed p q t' -> t = t'.
Proof. intros [L [Q [s [P E]]]] [L' [Q' [s' [P' E']]]]. apply (squares_scale_unique s s'); try assumption; [congruence|]. intros i. rewrite <- E, <- E'. reflexivity. Qed.
(** *** Graph *)
Lemma joined_sym g a b : joined g a b -> joined g b a.
Proof. intros [H|H]; [right|left]; exact H. Qed.
Lemma cell_is_sym g c a b : cell_is g c a b -> cell_is g c b a.
Proof. intros [H|H]; [right|left]; exact H. Qed.
Lemma first_seen_In l x : In x (first_seen l) <-> In x l.
Proof.
  induction l as [|v l IH]; [reflexivity|]. cbn [first_seen In]. rewrite filter_In, IH. destruct (Nat.eq_dec v x) as [->|N]; [split; left; reflexivity|]. replace (x =? v) with false by (symmetry; apply Nat.eqb_neq; congruence). cbn [negb]. tauto.
Qed.
Lemma nbrs_In g v w : (forall a b, In (a, b) g -> a <> b) -> In w (nbrs g v) <-> joined g v w.
Proof.
  intros NL. unfold nbrs. rewrite first_seen_In, in_flat_map. unfold joined. split.
  - intros [[a b] [I H]]. cbn [fst snd] in H. destruct (Nat.eqb_spec a v) as [->|Na]; [destruct H as [<-|[]]; left; exact I|]. destruct (Nat.eqb_spec b v) as [->|Nb]; [destruct H as [<-|[]]; right; exact I|destruct H].
  - intros [I|I]; [exists (v, w)|exists (w, v)]; (split; [exact I|]); cbn [fst snd].
    + rewrite Nat.eqb_refl. left. reflexivity.
    + destruct (Nat.eqb_spec w v) as [->|N]; [exfalso; apply (NL _ _ I); reflexivity|]. rewrite Nat.eqb_refl. left. reflexivity.
Qed.
Lemma is_in_spec x l : is_in x l = true <-> In x l.
Proof. unfold is_in. rewrite existsb_exists. split; [intros [y [I E]]; apply Nat.eqb_eq in E; subst; exact I|intros I; exists x; split; [exact I|apply Nat.eqb_refl]]. Qed.
Lemma is_in_false x l : is_in x l = false <-> ~ In x l.
Proof. rewrite <- is_in_spec. destruct (is_in x l); split; congruence. Qed.
(** Any search: edges lead from known vertices to new ones *)
Inductive grows (g : list (nat * nat)) (r : nat) : list (nat * nat) -> Prop :=
| grows_nil : grows g r []
| grows_snoc es a b : grows g r es -> joined g a b -> In a (r :: map snd es) -> ~ In b (r :: map snd es) -> grows g r (es ++ [(a, b)]).
Definition closed (g : list (nat * nat)) (r : nat) (es : list (nat * nat)) : Prop :=
  forall a b, In a (r :: map snd es) -> joined g a b -> In b (r :: map snd es).
Lemma dfs_search g r : (forall a b, In (a, b) g -> a <> b) -> forall fuel seen stack es0 es,
  dfs fuel g seen stack = Ok es -> grows g r es0 -> (forall x, In x seen <-> In x (r :: map snd es0)) ->
  (forall p cs, In (p, cs) stack -> In p seen /\ forall c, In c cs -> joined g p c) ->
  (forall v w, In v seen -> joined g v w -> In w seen \/ exists cs, In (v, cs) stack /\ In w cs) ->
  grows g r (es0 ++ es) /\ closed g r (es0 ++ es).
Proof.
  intros NL. induction fuel as [|fuel IH]; intros seen [|[p cs] rest] es0 es H G S K F.
  1,3: cbn in H; injection H as <-; rewrite app_nil_r; split; [exact G|]; intros a b A J; apply S in A; destruct (F a b A J) as [I|[cs [[] _]]]; apply S; exact I.
  - cbn in H. discriminate.
  - cbn [dfs] in H. destruct cs as [|c cs].
    + apply (IH seen rest es0 es H G S).
      * intros p' cs' I. apply K. right. exact I.
      * intros v w V J. destruct (F v w V J) as [I|[cs' [[E|I] W]]]; [left; exact I|injection E as <- <-; destruct W|right; exists cs'; split; assumption].
    + destruct (is_in c seen) eqn:E.
      * apply is_in_spec in E. apply (IH seen ((p, cs) :: rest) es0 es H G S).
        -- intros p' cs' [Q|I]; [injection Q as <- <-|apply K; right; exact I]. destruct (K p (c :: cs) (or_introl eq_refl)) as [K1 K2]. split; [exact K1|]. intros x Hx. apply K2. right. exact Hx.
        -- intros v w V J. destruct (F v w V J) as [I|[cs' [[Q|I] W]]]; [left; exact I| |right; exists cs'; split; [right; exact I|exact W]]. injection Q as <- <-. destruct W as [<-|W]; [left; exact E|right; exists cs; split; [left; reflexivity|exact W]].
      * apply is_in_false in E. destruct (dfs fuel g (c :: seen) _) as [es'|] eqn:D; [cbn [bind] in H|discriminate]. injection H as <-. destruct (K p (c :: cs) (or_introl eq_refl)) as [K1 K2].
        assert (J : joined g p c) by (apply K2; left; reflexivity).
        replace (es0 ++ (p, c) :: es') with ((es0 ++ [(p, c)]) ++ es') by (rewrite <- app_assoc; reflexivity).
        assert (S' : forall x, In x (c :: seen) <-> In x (r :: map snd (es0 ++ [(p, c)]))).
        { intros x. rewrite map_app. cbn [map snd In]. rewrite in_app_iff. cbn [In]. rewrite S. cbn [In]. tauto. }
        apply (IH (c :: seen) _ (es0 ++ [(p, c)]) es' D).
        -- constructor; [exact G|exact J|apply S; exact K1|rewrite <- S; exact E].
        -- exact S'.
        -- intros p' cs' [Q|[Q|I]].
           ++ injection Q as <- <-. split; [left; reflexivity|]. intros x Hx. apply nbrs_In; assumption.
           ++ injection Q as <- <-. split; [right; exact K1|]. intros x Hx. apply K2. right. exact Hx.
           ++ destruct (K p' cs') as [K3 K4]; [right; exact I|]. split; [right; exact K3|exact K4].
        -- intros v w [<-|V] Jw.
           ++ right. exists (nbrs g c). split; [left; reflexivity|apply nbrs_In; assumption].
           ++ destruct (F v w V Jw) as [I|[cs' [[Q|I] W]]]; [left; right; exact I| |right; exists cs'; split; [right; right; exact I|exact W]]. injection Q as <- <-. destruct W as [<-|W]; [left; left; reflexivity|right; exists cs; split; [right; left; reflexivity|exact W]].
Qed.
Definition todo (nv : nat) (g : graph) (seen : list nat) : nat := list_sum (map (fun v => if is_in v seen then 0 else S (length (nbrs g v))) (seq 0 nv)).
Lemma todo_add nv g seen c : c < nv -> ~ In c seen -> todo nv g (c :: seen) + S (length (nbrs g c)) = todo nv g seen.
Proof.
  unfold todo. intros Hc N. assert (G : forall a n, (a <= c < a + n -> list_sum (map (fun v => if is_in v (c :: seen) then 0 else S (length (nbrs g v))) (seq a n)) + S (length (nbrs g c)) = list_sum (map (fun v => if is_in v seen then 0 else S (length (nbrs g v))) (seq a n))) /\ (c < a -> list_sum (map (fun v => if is_in v (c :: seen) then 0 else S (length (nbrs g v))) (seq a n)) = list_sum (map (fun v => if is_in v seen then 0 else S (length (nbrs g v))) (seq a n)))).
  { intros a n. revert a. induction n as [|n IH]; intros a; [split; [lia|reflexivity]|]. destruct (IH (S a)) as [I1 I2]. cbn [seq map]. change (list_sum (?x :: ?l)) with (x + list_sum l). assert (Q : is_in a (c :: seen) = (a =? c) || is_in a seen) by reflexivity. 
    split; intros H.
    - destruct (Nat.eqb_spec a c) as [->|Na].
      + rewrite Q. cbn [orb]. rewrite I2 by lia. rewrite (proj2 (is_in_false c seen) N). lia.
      + rewrite Q. cbn [orb]. specialize (I1 ltac:(lia)). lia.
    - rewrite Q. destruct (Nat.eqb_spec a c); [lia|]. cbn [orb]. rewrite I2 by lia. reflexivity. }
  apply (G 0 nv). lia.
Qed.
Lemma dfs_total nv g : (forall a b, In (a, b) g -> a <> b /\ a < nv /\ b < nv) -> forall fuel seen stack,
  (forall p cs, In (p, cs) stack -> forall c, In c cs -> joined g p c) -> list_sum (map (fun s => S (length (snd s))) stack) + todo nv g seen <= fuel -> exists es, dfs fuel g seen stack = Ok es.
Proof.
  intros V. induction fuel as [|fuel IH]; intros seen [|[p cs] rest] K M; [exists []; reflexivity| |exists []; reflexivity|].
  - cbn in M. lia.
  - cbn [dfs]. cbn [map snd] in M. change (list_sum (?x :: ?l)) with (x + list_sum l) in M. destruct cs as [|c cs].
    + apply IH; [intros p' cs' I; apply K; right; exact I|cbn in M; lia].
    + assert (J : joined g p c) by (apply (K p (c :: cs)); left; reflexivity). destruct (is_in c seen) eqn:E.
      * apply IH; [|cbn [map snd]; change (list_sum (?x :: ?l)) with (x + list_sum l); cbn [length] in M; lia]. intros p' cs' [Q|I] x Hx; [injection Q as <- <-; apply (K p (c :: cs)); [left; reflexivity|right; exact Hx]|apply (K p' cs'); [right; exact I|exact Hx]].
      * apply is_in_false in E. destruct (IH (c :: seen) ((c, nbrs g c) :: (p, cs) :: rest)) as [es D].
        -- intros p' cs' [Q|[Q|I]] x Hx; [injection Q as <- <-; apply nbrs_In in Hx; [exact Hx|intros a b I; apply (V a b I)]|injection Q as <- <-; apply (K p (c :: cs)); [left; reflexivity|right; exact Hx]|apply (K p' cs'); [right; exact I|exact Hx]].
        -- cbn [map snd]. change (list_sum (?x :: ?l)) with (x + list_sum l). change (list_sum (?x :: ?l)) with (x + list_sum l). assert (Hc : c < nv) by (destruct J as [J|J]; apply V in J; lia). pose proof (todo_add nv g seen c Hc E). cbn [length] in M. lia.
        -- rewrite D. eexists. reflexivity.
Qed.
Lemma dfs_edges_ok nv g r : (forall a b, In (a, b) g -> a <> b /\ a < nv /\ b < nv) -> r < nv -> exists es, dfs_edges nv g r = Ok es /\ grows g r es /\ closed g r es.
Proof.
  intros V Hr. assert (NL : forall a b, In (a, b) g -> a <> b) by (intros a b I; apply (V a b I)). destruct (dfs_total nv g V (dfs_fuel nv g) [r] [(r, nbrs g r)]) as [es D].
  - intros p cs [Q|[]] c Hc. injection Q as <- <-. apply nbrs_In; assumption.
  - cbn [map snd]. change (list_sum (?x :: ?l)) with (x + list_sum l). change (list_sum []) with 0. pose proof (todo_add nv g [] r Hr ltac:(intros [])) as T. assert (Z : todo nv g [] = dfs_fuel nv g) by reflexivity. lia.
  - exists es. split; [exact D|]. apply (dfs_search g r NL (dfs_fuel nv g) [r] [(r, nbrs g r)] [] es D); [constructor|intros x; cbn; tauto| |].
    + intros p cs [Q|[]]. injection Q as <- <-. split; [left; reflexivity|]. intros c Hc. apply nbrs_In; assumption.
    + intros v w [<-|[]] J. right. exists (nbrs g r). split; [left; reflexivity|apply nbrs_In; assumption].
Qed.
(** *** Paths of a search *)
Lemma NoDup_snoc {A} (l : list A) x : NoDup l -> ~ In x l -> NoDup (l ++ [x]).
Proof. intros N I. apply NoDup_rev in N. rewrite <- (rev_involutive (l ++ [x])). apply NoDup_rev. rewrite rev_app_distr. cbn. constructor; [rewrite <- in_rev; exact I|exact N]. Qed.
Lemma grows_NoDup g r es : grows g r es -> NoDup (r :: map snd es).
Proof.
  induction 1 as [|es a b G IH J A B]; [repeat constructor; intros []|]. rewrite map_app. cbn [map snd]. change (r :: map snd es ++ [b]) with ((r :: map snd es) ++ [b]). apply NoDup_snoc; assumption.
Qed.
Lemma chain_snoc g l a b : chain g (l ++ [a]) -> joined g a b -> chain g (l ++ [a; b]).
Proof.
  intros C J. induction l as [|x l IH]; [cbn; tauto|]. destruct l as [|y l]; [cbn in *; tauto|]. destruct C as [C1 C2]. split; [exact C1|apply IH, C2].
Qed.
Lemma path_snoc g r l a b : path_from g r (l ++ [a]) -> joined g a b -> ~ In b (l ++ [a]) -> path_from g r (l ++ [a; b]).
Proof.
  intros [C [N H]] J I. split; [apply chain_snoc; assumption|]. replace (l ++ [a; b]) with ((l ++ [a]) ++ [b]) by (rewrite <- app_assoc; reflexivity). split; [apply NoDup_snoc; assumption|]. destruct l; exact H.
Qed.
Lemma grows_path g r es : grows g r es -> forall v, In v (r :: map snd es) -> exists l, path_from g r (l ++ [v]) /\ incl (l ++ [v]) (r :: map snd es).
Proof.
  induction 1 as [|es a b G IH J A B]; intros v V.
  - destruct V as [<-|[]]. exists []. split; [split; [exact I|]; split; [repeat constructor; intros []|reflexivity]|intros x [<-|[]]; left; reflexivity].
  - rewrite map_app in *. cbn [map snd] in *. change (r :: map snd es ++ [b]) with ((r :: map snd es) ++ [b]) in *. apply in_app_iff in V. destruct V as [V|[<-|[]]].
    + destruct (IH v V) as [l [P Q]]. exists l. split; [exact P|]. intros x X. apply in_app_iff. left. apply Q, X.
    + destruct (IH a A) as [l [P Q]]. exists (l ++ [a]). rewrite <- app_assoc. split; [apply path_snoc; [exact P|exact J|intros I; apply B, Q, I]|]. intros x X. apply in_app_iff. change (l ++ [a] ++ [b]) with (l ++ [a; b]) in X. apply in_app_iff in X. destruct X as [X|[<-|[<-|[]]]]; [left; apply Q, in_app_iff; left; exact X|left; exact A|right; left; reflexivity].
Qed.
Lemma grows_edge g r es a b : grows g r es -> In (a, b) es -> joined g a b /\ exists l, path_from g r (l ++ [a; b]).
Proof.
  induction 1 as [|es a' b' G IH J A B]; [intros []|]. intros E. apply in_app_iff in E. destruct E as [E|[E|[]]]; [apply IH, E|]. injection E as <- <-. split; [exact J|]. destruct (grows_path g r es G a' A) as [l [P Q]]. exists l. apply path_snoc; [exact P|exact J|intros I; apply B, Q, I].
Qed.
Lemma grows_child g r es a a' b : grows g r es -> In (a, b) es -> In (a', b) es -> a = a'.
Proof.
  intros G. induction G as [|es c d G IH J A B]; [intros []|]. intros E E'. assert (K : forall x, In (x, d) es -> False) by (intros x X; apply B; right; apply in_map_iff; exists (x, d); split; [reflexivity|exact X]). apply in_app_iff in E, E'. destruct E as [E|[E|[]]], E' as [E'|[E'|[]]].
  - apply IH; assumption.
  - injection E' as -> ->. exfalso. apply (K a E).
  - injection E as -> ->. exfalso. apply (K a' E').
  - congruence.
Qed.
Lemma grows_opposite g r es a b : grows g r es -> In (a, b) es -> In (b, a) es -> False.
Proof.
  induction 1 as [|es c d G IH J A B]; [intros []|]. intros E E'. assert (K : forall x y, In (x, y) es -> In y (r :: map snd es)) by (intros x y X; right; apply in_map_iff; exists (x, y); split; [reflexivity|exact X]). apply in_app_iff in E, E'.
  assert (K' : forall x y, In (x, y) es -> In x (r :: map snd es)).
  { clear - G. induction G as [|es c d G IH J A B]; [intros ? ? []|]. intros x y X. rewrite map_app. change (r :: map snd es ++ map snd [(c, d)]) with ((r :: map snd es) ++ [d]). apply in_app_iff. left. apply in_app_iff in X. destruct X as [X|[X|[]]]; [apply (IH x y X)|injection X as <- <-; exact A]. }
  destruct E as [E|[E|[]]], E' as [E'|[E'|[]]].
  - apply IH; assumption.
  - injection E' as -> ->. apply B. apply (K' _ _ E).
  - injection E as -> ->. apply B. apply (K' _ _ E').
  - injection E as E1 E2. injection E' as E3 E4. apply B. replace d with c by congruence. exact A.
Qed.
(** Every vertex of a path from the root is found *)
Lemma closed_path g r es l : closed g r es -> path_from g r l -> incl l (r :: map snd es).
Proof.
  intros C [H [_ E]]. destruct l as [|x l]; [discriminate|]. injection E as ->. assert (G : forall l x, In x (r :: map snd es) -> chain g (x :: l) -> incl (x :: l) (r :: map snd es)).
  { clear H l. induction l as [|y l IH]; intros x X H z [<-|Z]; [exact X|destruct Z|exact X|]. destruct H as [J H]. apply (IH y); [apply (C x); assumption|exact H|exact Z]. }
  apply G; [left; reflexivity|exact H].
Qed.
(** *** Cells *)
Lemma nth_error_c2v g c e : nth_error g c = Some e -> c2v g c = e /\ c < length g.
Proof. intros H. split; [unfold c2v; apply nth_error_nth; exact H|apply nth_error_Some; congruence]. Qed.
Lemma c2v_nth_error g c : c < length g -> nth_error g c = Some (c2v g c).
Proof. intros H. unfold c2v. apply nth_error_nth'. exact H. Qed.
Lemma v2c_In g c v : In c (v2c g v) <-> exists w, cell_is g c v w.
Proof.
  unfold v2c. rewrite filter_In, in_seq. split.
  - intros [L H]. assert (E : nth_error g c = Some (c2v g c)) by (apply c2v_nth_error; lia). destruct (c2v g c) as [a b]. cbn [fst snd] in H. apply orb_prop in H. destruct H as [H|H]; apply Nat.eqb_eq in H; subst; [exists b; left; exact E|exists a; right; exact E].
  - intros [w [H|H]]; apply nth_error_c2v in H; destruct H as [-> L]; cbn [fst snd]; rewrite Nat.eqb_refl; (split; [lia|]); [reflexivity|apply orb_true_r].
Qed.
Lemma v2c_NoDup g v : NoDup (v2c g v).
Proof. apply NoDup_filter, seq_NoDup. Qed.
Lemma cell_unique nv g c d a b : simple_mesh nv g -> cell_is g c a b -> cell_is g d a b -> c = d.
Proof.
  intros [V [N O]] C D. assert (K : forall x, nth_error g c = Some x -> nth_error g d = Some x -> c = d) by (intros x X Y; apply (proj1 (NoDup_nth_error g) N); [apply nth_error_Some; congruence|congruence]).
  destruct C as [C|C], D as [D|D]; try (eapply K; eassumption); exfalso; apply nth_error_In in C, D; eapply O; eassumption.
Qed.
Lemma cell_ends g c a b a' b' : cell_is g c a b -> cell_is g c a' b' -> (a = a' /\ b = b') \/ (a = b' /\ b = a').
Proof. unfold cell_is. intros [C|C] [D|D]; rewrite C in D; injection D as <- <-; tauto. Qed.
Lemma single {A} (l : list A) x : NoDup l -> In x l -> (forall y, In y l -> y = x) -> l = [x].
Proof.
  intros N I U. destruct l as [|a [|b l]]; [destruct I|rewrite (U a) by (left; reflexivity); reflexivity|]. exfalso. inversion N as [|? ? N1 _]; subst. apply N1. left. transitivity x; [|symmetry]; apply U; cbn; tauto.
Qed.
Lemma the_cell_ok nv g c a b : simple_mesh nv g -> cell_is g c a b -> the_cell g a b = Ok c.
Proof.
  intros M C. unfold the_cell. rewrite (single (filter (fun c0 => is_in c0 (v2c g b)) (v2c g a)) c); [reflexivity| | |].
  - apply NoDup_filter, v2c_NoDup.
  - apply filter_In. split; [apply v2c_In; exists b; exact C|apply is_in_spec, v2c_In; exists a; apply cell_is_sym, C].
  - intros d D. apply filter_In in D. destruct D as [D E]. apply v2c_In in D. destruct D as [w D]. apply is_in_spec, v2c_In in E. destruct E as [u E]. pose proof M as [V [N O]]. assert (NE : a <> b) by (destruct C as [C|C]; apply nth_error_In in C; apply V in C; lia).
    destruct (cell_ends _ _ _ _ _ _ D E) as [[-> ->]|[-> ->]]; [congruence|]. apply (cell_unique nv g d c u b); assumption.
Qed.
Lemma joined_cell g a b : joined g a b -> exists c, cell_is g c a b.
Proof. intros [H|H]; apply In_nth_error in H; destruct H as [c H]; exists c; [left|right]; exact H. Qed.
Lemma cell_joined g c a b : cell_is g c a b -> joined g a b.
Proof. intros [H|H]; apply nth_error_In in H; [left|right]; exact H. Qed.
(** *** Values *)
Definition write (g : graph) (X : nat -> list R) (values : list (option (list R))) (e : nat * nat) : res (list (option (list R))) :=
  do c <- the_cell g (fst e) (snd e); Ok (set_nth values c (Some (tangent (X (fst e)) (X (snd e))))).
Lemma writes g X es : forall vals, (forall e, In e es -> exists c, the_cell g (fst e) (snd e) = Ok c /\ c < length vals) ->
  exists vals', foldM (write g X) es vals = Ok vals' /\ length vals' = length vals /\
    forall c, (exists e, In e es /\ the_cell g (fst e) (snd e) = Ok c /\ nth c vals' None = Some (tangent (X (fst e)) (X (snd e)))) \/
              ((forall e, In e es -> the_cell g (fst e) (snd e) <> Ok c) /\ nth c vals' None = nth c vals None).
Proof.
  induction es as [|e es IH]; intros vals H.
  - exists vals. split; [reflexivity|]. split; [reflexivity|]. intros c. right. split; [intros e []|reflexivity].
  - destruct (H e (or_introl eq_refl)) as [c [E L]]. cbn [foldM]. unfold write at 1. rewrite E. cbn [bind]. set (v1 := set_nth vals c _). assert (L1 : length v1 = length vals) by apply set_nth_length. destruct (IH v1) as [vals' [F [L' P]]].
    { intros e' I. destruct (H e' (or_intror I)) as [c' [E' Lc]]. exists c'. split; [exact E'|rewrite L1; exact Lc]. }
    exists vals'. split; [exact F|]. split; [congruence|]. intros d. destruct (P d) as [[e' [I Q]]|[N Q]]; [left; exists e'; split; [right; exact I|exact Q]|]. destruct (Nat.eq_dec d c) as [->|Nd].
    + left. exists e. split; [left; reflexivity|]. split; [exact E|]. rewrite Q. unfold v1. rewrite nth_set_nth, Nat.eqb_refl. apply Nat.ltb_lt in L. rewrite L. reflexivity.
    + right. split; [intros e' [<-|I]; [rewrite E; congruence|apply N, I]|]. rewrite Q. unfold v1. rewrite nth_set_nth. replace (d =? c) with false by (symmetry; apply Nat.eqb_neq; exact Nd). reflexivity.
Qed.
