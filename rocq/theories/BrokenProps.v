From Coq Require Import Reals Lra Lia.
From Verif Require Import BaseProofs ImmersedProofs BrokenProofs.
Local Open Scope nat_scope.

(** Every cell counts once for every subdomain it is in *)
Theorem C115_formula S norm_f loc mesh u w : norm_of loc norm_f -> dict S -> ~ In 0 u -> (forall t, In t u -> In t (map fst S)) ->
  (forall t s c, In (t, s) S -> In c mesh -> (w t c = true <-> Within s c)) ->
  broken_norm S norm_f mesh u = Ok (sqrt (total (fun c => total (fun t => if w t c then loc t c else 0%R) u) mesh)).
Proof. apply broken_formula. Qed.

(** With every cell in one subdomain it is the norm of the difference to the piecewise solution *)
Theorem C115_partition S norm_f loc mesh u owner : norm_of loc norm_f -> dict S -> NoDup u -> ~ In 0 u -> (forall t, In t u -> In t (map fst S)) ->
  (forall c, In c mesh -> In (owner c) u) -> (forall t s c, In (t, s) S -> In t u -> In c mesh -> (Within s c <-> owner c = t)) ->
  broken_norm S norm_f mesh u = Ok (sqrt (total (fun c => loc (owner c) c) mesh)).
Proof. intros N D U Z K O W. pose proof (part S norm_f loc u (fun c => c) mesh owner N D U Z K O W) as H. rewrite map_id in H. exact H. Qed.

(** It vanishes exactly if the errors on the cells within some subdomain do *)
Theorem C115_zero S norm_f loc mesh u : norm_of loc norm_f -> dict S -> ~ In 0 u -> (forall t, In t u -> In t (map fst S)) ->
  (broken_norm S norm_f mesh u = Ok 0%R <-> forall t s c, In t u -> In (t, s) S -> In c mesh -> Within s c -> loc t c = 0%R).
Proof.
  intros N D Z K. pose proof (broken_formula S norm_f loc mesh u (fun t c => match lookup S t with Some s => marks s c | None => false end) N D Z K) as F.
  rewrite F by (intros; apply marks_lookup; assumption). clear F.
  assert (P : forall c t, (0 <= (if match lookup S t with Some s => marks s c | None => false end then loc t c else 0))%R) by (intros c t; destruct (match lookup S t with Some s => marks s c | None => false end); [apply N | lra]).
  assert (Q : forall c, (0 <= total (fun t => if match lookup S t with Some s => marks s c | None => false end then loc t c else 0%R) u)%R) by (intros c; apply total_nonneg; intros t _; apply P). split.
  - intros E t s c Ht I Hc W. injection E as E. apply sqrt_eq_0 in E; [| apply total_nonneg; intros a _; apply Q].
    rewrite total_zero in E by (intros a _; apply Q). specialize (E c Hc). cbn beta in E. rewrite total_zero in E by (intros a _; apply P). specialize (E t Ht). cbn beta in E.
    rewrite (proj2 (marks_lookup S t s c D I) W) in E. exact E.
  - intros H. f_equal. transitivity (sqrt 0); [f_equal | exact sqrt_0]. rewrite total_zero by (intros a _; apply Q). intros c Hc. rewrite total_zero by (intros a _; apply P). intros t Ht. cbn beta.
    destruct (lookup S t) as [s |] eqn:L; [| reflexivity]. destruct (marks s c) eqn:M; [| reflexivity]. apply (H t s c Ht); [apply lookup_iff; assumption | exact Hc | apply marks_iff; exact M].
Qed.

(** It is defined exactly if every piece of the solution has its subdomain *)
Theorem C115_missing S norm_f mesh u : (forall t, In t u -> In t (map fst S)) /\ (exists r, broken_norm S norm_f mesh u = Ok r) \/
  (exists t, In t u /\ ~ In t (map fst S)) /\ broken_norm S norm_f mesh u = Err KeyError.
Proof.
  destruct (existsb (fun t => negb (existsb (Nat.eqb t) (map fst S))) u) eqn:E.
  - right. apply existsb_exists in E. destruct E as (t & Ht & E). apply negb_true_iff in E. assert (X : exists t, In t u /\ ~ In t (map fst S)).
    { exists t. split; [exact Ht |]. intros H. enough (existsb (Nat.eqb t) (map fst S) = true) by congruence. apply existsb_exists. exists t. split; [exact H | apply Nat.eqb_refl]. }
    split; [exact X |]. unfold broken_norm. rewrite errors_err by exact X. reflexivity.
  - left. assert (X : forall t, In t u -> In t (map fst S)).
    { intros t Ht. destruct (existsb (Nat.eqb t) (map fst S)) eqn:F; [apply existsb_exists in F; destruct F as (s & Hs & Q); apply Nat.eqb_eq in Q; subst s; exact Hs |]. exfalso. enough (existsb (fun t => negb (existsb (Nat.eqb t) (map fst S))) u = true) by congruence. apply existsb_exists. exists t. split; [exact Ht | rewrite F; reflexivity]. }
    split; [exact X |]. unfold broken_norm. enough (Y : exists es, errors S norm_f mesh u = Ok es) by (destruct Y as (es & ->); cbn; eauto).
    clear E. induction u as [| t u IH]; [cbn; eauto |]. destruct IH as (es & E); [intros s Hs; apply X; right; exact Hs |]. cbn [errors].
    destruct (lookup S t) as [s |] eqn:L; [| apply lookup_none in L; exfalso; apply L, X; left; reflexivity]. cbn [opt_res bind]. rewrite E. destruct (sub_mesh s t mesh); cbn; eauto.
Qed.

(** Tag 0 takes all cells, whatever the subdomain *)
Theorem C115_tag_refuted norm_f c mesh : norm_f 0 (c :: mesh) = Rabs (norm_f 0 (c :: mesh)) ->
  broken_norm [(0, fun _ => false)] norm_f (c :: mesh) [0] = Ok (norm_f 0 (c :: mesh)).
Proof.
  intros P. unfold broken_norm. cbn [errors lookup Nat.eqb opt_res bind].
  assert (M : forall l, sub_mesh (fun _ => false) 0 l = l). { intros l. unfold sub_mesh. induction l as [| x l IH]; [reflexivity |]. cbn [filter]. destruct (marks (fun _ => false) x); cbn [Nat.eqb]; rewrite IH; reflexivity. }
  rewrite M. cbn [map fold_right bind]. f_equal. rewrite Rplus_0_r. rewrite P at 3. apply sqrt_Rsqr_abs.
Qed.

(** A cell that crosses the line between the halves is left out, so that wrong solutions have no error *)
Theorem C115_crossing_refuted norm_f : broken_norm halves norm_f (at_grid 1 (cells 1)) [1; 2] = Ok 0%R.
Proof.
  pose proof eps_pos as E. assert (S : (EPS < 1 / 10)%R) by (unfold EPS; apply Rmult_lt_reg_r with (10 ^ 16)%R; [apply pow_lt; lra |]; unfold Rdiv; rewrite Rmult_assoc, Rinv_l by (apply pow_nonzero; lra); lra).
  assert (L : forall t s, In (t, s) halves -> filter (marks s) (at_grid 1 (cells 1)) = []).
  { intros t s I. assert (F : forall c, In c (at_grid 1 (cells 1)) -> marks s c = false).
    { intros c Hc. destruct (marks s c) eqn:M; [exfalso | reflexivity]. apply marks_iff in M. destruct M as [M _]. unfold at_grid in Hc. cbn in Hc.
      assert (A : In (place 1 (0, 0)) c /\ In (place 1 (1, 1)) c) by (destruct Hc as [<- | [<- | []]]; cbn; auto). destruct A as [A B]. apply M in A, B. unfold halves in I. cbn in I.
      unfold place in A, B. cbn [fst snd INR] in A, B. destruct I as [[= <- <-] | [[= <- <-] | []]]; cbn [fst] in A, B; apply lt_iff in A, B; lra. }
    revert F. generalize (at_grid 1 (cells 1)). intros l F. induction l as [| c l IH]; [reflexivity |]. cbn. rewrite (F c) by (left; reflexivity). apply IH. intros d Hd. apply F. right. exact Hd. }
  unfold broken_norm. cbn [errors lookup Nat.eqb opt_res bind halves]. rewrite !sub_mesh_filter by lia. rewrite (L 1), (L 2) by (cbn; auto). cbn. rewrite sqrt_0. reflexivity.
Qed.

(** twoDoneDoneD: no cell crosses, and the subdomains of the error are those of the cell function *)
Theorem C115_halves i norm_f loc : i <= 49 -> norm_of loc norm_f -> let n := 4 * 2 ^ i in
  (forall c, In c (cells n) -> In (half_f n c) [1; 2] /\ forall v, In v c -> in_half (half_f n c) (place n v)) /\
  broken_norm halves norm_f (at_grid n (cells n)) [1; 2] = Ok (sqrt (total (fun c => loc (half_f n c) (map (place n) c)) (cells n))).
Proof. intros Hi N n. apply halves_part; [apply pow2_pos | apply coarse; exact Hi | exact N]. Qed.

(** poisson_babuska_bc, sym_grad_babuska: multipliers on some sides of the square *)
Theorem C115_sides i norm_f loc tags : i <= 49 -> norm_of loc norm_f -> incl tags [1; 2; 3; 4] -> let n := 4 * 2 ^ i in let mesh := side_facets n tags in
  (forall e, In e mesh <-> (exists c, In c (cells n) /\ facet_of e c) /\ exists t, In t tags /\ forall v, In v e -> on_square t (place n v)) /\
  exists owner, (forall e, In e mesh -> In (owner e) tags /\ forall v, In v e -> on_square (owner e) (place n v)) /\
  broken_norm square_sides norm_f (at_grid n mesh) [1; 2; 3; 4] = Ok (sqrt (total (fun e => loc (owner e) (map (place n) e)) mesh)).
Proof. intros Hi N T n. apply sides_part; [apply pow2_pos | apply coarse; exact Hi | exact N | exact T]. Qed.

(** emi_primal and dq_darcy_stokes: multipliers on the sides of the inner square *)
Theorem C115_interface i norm_f loc es f : i <= 49 -> norm_of loc norm_f -> immersed_geometry i Interface = Ok (es, f) -> let n := 4 * 2 ^ i in
  (forall e, In e es -> forall v, In v e -> side (f e) (place n v)) /\
  broken_norm inner_boundaries norm_f (at_grid n es) [1; 2; 3; 4] = Ok (sqrt (total (fun e => loc (f e) (map (place n) e)) es)).
Proof.
  intros Hi N G n. unfold immersed_geometry in G. injection G as <- <-. unfold resolution. fold n. apply (inner_part (2 ^ i)); [apply pow2_pos | apply coarse; exact Hi | exact N |].
  intros e He. apply filter_In in He. destruct He as [He X]. split; [apply (inner_edges (2 ^ i)) in He; [exact He | apply pow2_pos | apply coarse; exact Hi] |].
  change (existsb (Nat.eqb (facet_f n inner_boundaries e)) [1; 2; 3; 4] = true) in X. apply existsb_exists in X. destruct X as (t & Ht & E). apply Nat.eqb_eq in E. change (In (facet_f n inner_boundaries e) [1; 2; 3; 4]). rewrite E. exact Ht.
Qed.

(** A case: two cells of different sizes of the error, one in each half *)
Example case_two : norm_of (fun t c => match t with 1 => 9 | _ => 16 end)%R (fun t cs => sqrt (total (fun c => match t with 1 => 9 | _ => 16 end)%R cs)).
Proof. split; [| reflexivity]. intros [| [| t]] c; lra. Qed.
Example case_five : broken_norm halves (fun t cs => sqrt (total (fun c => match t with 1 => 9 | _ => 16 end)%R cs)) [[(0, 0); (1 / 2, 0); (0, 1)]; [(1 / 2, 0); (1, 0); (1, 1)]]%R [1; 2] = Ok 5%R.
Proof.
  rewrite (C115_partition halves _ (fun t c => match t with 1 => 9 | _ => 16 end)%R _ [1; 2] (fun c => if Rlt_dec (fst (centre c)) (1 / 2) then 1 else 2)).
  - f_equal. cbn [total]. unfold centre. cbn [fold_right fst snd length]. rewrite INR3.
    destruct (Rlt_dec ((0 + (1 / 2 + (0 + 0))) / 3) (1 / 2)) as [_ | n]; [| lra]. destruct (Rlt_dec ((1 / 2 + (1 + (1 + 0))) / 3) (1 / 2)) as [n | _]; [lra |].
    replace (9 + (16 + 0))%R with (5 * 5)%R by lra. apply sqrt_square. lra.
  - exact case_two.
  - repeat constructor; cbn; intuition discriminate.
  - repeat constructor; cbn; intuition discriminate.
  - cbn; intuition discriminate.
  - cbn; intuition.
  - intros c _. destruct (Rlt_dec _ _); cbn; auto.
  - pose proof eps_pos as E. assert (SE : (EPS < 1 / 100)%R) by (unfold EPS; apply Rmult_lt_reg_r with (10 ^ 16)%R; [apply pow_lt; lra |]; unfold Rdiv; rewrite Rmult_assoc, Rinv_l by (apply pow_nonzero; lra); lra).
    intros t s c I _ Hc. unfold Within, centre. unfold halves in I. cbn in I, Hc. destruct I as [[= <- <-] | [[= <- <-] | []]], Hc as [<- | [<- | []]]; cbn [fold_right fst snd length]; rewrite INR3.
    + destruct (Rlt_dec _ _) as [_ | n]; [| lra]. split; [reflexivity | intros _]. split; [intros p Hp; cbn in Hp; destruct Hp as [<- | [<- | [<- | []]]] |]; apply lt_iff; cbn [fst]; lra.
    + destruct (Rlt_dec _ _) as [n | _]; [lra |]. split; [| discriminate]. intros [H _]. specialize (H (1, 0)%R (or_intror (or_introl eq_refl))). apply lt_iff in H. cbn [fst] in H. lra.
    + destruct (Rlt_dec _ _) as [_ | n]; [| lra]. split; [| discriminate]. intros [H _]. specialize (H (0, 0)%R (or_introl eq_refl)). apply lt_iff in H. cbn [fst] in H. lra.
    + destruct (Rlt_dec _ _) as [n | _]; [lra |]. split; [reflexivity | intros _]. split; [intros p Hp; cbn in Hp; destruct Hp as [<- | [<- | [<- | []]]] |]; apply lt_iff; cbn [fst]; lra.
Qed.

Print Assumptions C115_formula.
Print Assumptions C115_partition.
Print Assumptions C115_zero.
Print Assumptions C115_missing.
Print Assumptions C115_tag_refuted.
Print Assumptions C115_crossing_refuted.
Print Assumptions C115_halves.
Print Assumptions C115_sides.
Print Assumptions C115_interface.
