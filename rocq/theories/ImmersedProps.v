(** C106: the square immersed in a square *)
From Verif Require Import Base BaseProofs ImmersedModel.
From Coq Require Import Reals Lra.
From Verif Require Import ImmersedProofs.
Local Open Scope nat_scope.

(** The outer domain has the triangles that are not in the inner square; a facet of one of its triangles has the
    tag of the side it is on, and a tag at all if and only if it is on the boundary of the domain *)
Theorem C106_outer i cs f : i <= 49 -> immersed_geometry i Outer = Ok (cs, f) ->
  (forall c, In c cs <-> triangle (4 * 2 ^ i) c /\ ~ (forall v, In v c -> in_inner (place (4 * 2 ^ i) v))) /\
  forall c e, In c cs -> facet_of e c ->
    (forall t, 1 <= t <= 8 -> (f e = t <-> forall v, In v e -> side t (place (4 * 2 ^ i) v))) /\ f e <= 8 /\ (f e <> 0 <-> on_boundary cs e).
Proof.
  intros Hi H. injection H as <- <-. pose proof (coarse i Hi) as Hn. pose proof (pow2_pos i) as Hm. unfold resolution. split.
  - intros c. rewrite in_embedded by assumption. unfold triangle. split.
    + intros (a & b & Ha & Hb & K & T). split; [exists a, b; auto |]. rewrite <- (inn_iff (2 ^ i) Hm a b c K). destruct (inn (2 ^ i) a b); [discriminate T | discriminate].
    + intros [(a & b & Ha & Hb & K) T]. exists a, b. rewrite <- (inn_iff (2 ^ i) Hm a b c K) in T. destruct (inn (2 ^ i) a b); [contradiction T; reflexivity | auto].
  - intros c e I F. destruct (facet_kinds _ Hm Hn 1 e c I F) as (a & b & K & _ & _).
    assert (L : length e = 2) by (destruct K as [-> | [-> | ->]]; reflexivity). rewrite facet_outer by assumption.
    assert (N : ~ In 0 [1; 2; 3; 4; 5; 6; 7; 8]) by (cbn; lia).
    destruct (fold_sides (2 ^ i) Hm a b e _ K N) as [S Z]. cbv zeta in S, Z. set (fe := fold_left _ _ _) in *. split; [| split].
    + intros t Ht. rewrite side_all by assumption. apply S. cbn. lia.
    + destruct (sides_dec (2 ^ i) [1; 2; 3; 4; 5; 6; 7; 8] e) as [(t & It & T) | G]; [apply (S t It) in T; rewrite T; cbn in It; lia | apply Z in G; lia].
    + rewrite (outer_boundary (2 ^ i) Hm Hn e c I F), Z. rewrite notall. destruct (sides_dec (2 ^ i) [1; 2; 3; 4; 5; 6; 7; 8] e) as [G | G]; [tauto |]. rewrite notall in G. tauto.
Qed.
Print Assumptions C106_outer.

(** The inner domain has the triangles of the inner square *)
Theorem C106_inner i cs f : i <= 49 -> immersed_geometry i Inner = Ok (cs, f) ->
  (forall c, In c cs <-> triangle (4 * 2 ^ i) c /\ forall v, In v c -> in_inner (place (4 * 2 ^ i) v)) /\
  forall c e, In c cs -> facet_of e c ->
    (forall t, 1 <= t <= 4 -> (f e = t <-> forall v, In v e -> side t (place (4 * 2 ^ i) v))) /\ f e <= 4 /\ (f e <> 0 <-> on_boundary cs e).
Proof.
  intros Hi H. injection H as <- <-. pose proof (coarse i Hi) as Hn. pose proof (pow2_pos i) as Hm. unfold resolution. split.
  - intros c. rewrite in_embedded by assumption. unfold triangle. split.
    + intros (a & b & Ha & Hb & K & T). split; [exists a, b; auto |]. rewrite <- (inn_iff (2 ^ i) Hm a b c K). destruct (inn (2 ^ i) a b); [reflexivity | discriminate].
    + intros [(a & b & Ha & Hb & K) T]. exists a, b. rewrite <- (inn_iff (2 ^ i) Hm a b c K) in T. rewrite T. auto.
  - intros c e I F. destruct (facet_kinds _ Hm Hn 2 e c I F) as (a & b & K & _ & _).
    assert (L : length e = 2) by (destruct K as [-> | [-> | ->]]; reflexivity). rewrite facet_inner by assumption.
    assert (N : ~ In 0 [1; 2; 3; 4]) by (cbn; lia).
    destruct (fold_sides (2 ^ i) Hm a b e _ K N) as [S Z]. cbv zeta in S, Z. set (fe := fold_left _ _ _) in *. split; [| split].
    + intros t Ht. rewrite side_all by assumption. apply S. cbn. lia.
    + destruct (sides_dec (2 ^ i) [1; 2; 3; 4] e) as [(t & It & T) | G]; [apply (S t It) in T; rewrite T; cbn in It; lia | apply Z in G; lia].
    + rewrite (inner_boundary (2 ^ i) Hm Hn e c I F), Z. rewrite notall. destruct (sides_dec (2 ^ i) [1; 2; 3; 4] e) as [G | G]; [tauto |]. rewrite notall in G. tauto.
Qed.
Print Assumptions C106_inner.

(** The interface consists of the facets the two domains share, once each, with the tags both domains give them *)
Theorem C106_interface i cs f ocs fo ics fi : i <= 49 ->
  immersed_geometry i Interface = Ok (cs, f) -> immersed_geometry i Outer = Ok (ocs, fo) -> immersed_geometry i Inner = Ok (ics, fi) ->
  NoDup cs /\ (forall e, In e cs <-> (exists c, In c ics /\ facet_of e c) /\ exists c, In c ocs /\ facet_of e c) /\
  (forall e, In e cs -> 1 <= f e <= 4 /\ f e = fi e /\ f e = fo e) /\
  (forall e c, In c ocs -> facet_of e c -> 1 <= fo e <= 4 -> In e cs).
Proof.
  intros Hi H Ho Hin. pose proof (C106_outer i ocs fo Hi Ho) as [_ OT]. pose proof (C106_inner i ics fi Hi Hin) as [_ IT].
  injection H as <- <-. injection Ho as <- <-. injection Hin as <- <-. pose proof (coarse i Hi) as Hn. pose proof (pow2_pos i) as Hm. unfold resolution in *.
  set (fi := facet_f (4 * 2 ^ i) inner_boundaries) in *. set (fo := facet_f (4 * 2 ^ i) outer_boundaries) in *.
  assert (T14 : forall k, existsb (Nat.eqb k) [1; 2; 3; 4] = true <-> 1 <= k <= 4). { intros k. cbn [existsb]. rewrite !orb_true_iff, !Nat.eqb_eq. split; [intros [-> | [-> | [-> | [-> | X]]]]; [lia..| discriminate X] | lia]. }
  assert (M : forall e, In e (filter (fun e => existsb (Nat.eqb (fi e)) [1; 2; 3; 4]) (nodup (list_eq_dec vertex_eq) (flat_map edges (embedded (4 * 2 ^ i) 2)))) <-> (exists c, In c (embedded (4 * 2 ^ i) 2) /\ facet_of e c) /\ 1 <= fi e <= 4).
  { intros e. rewrite filter_In, nodup_In, in_flat_map, T14. split; intros [(c & I & F) K]; (split; [exists c; split; [exact I | apply edges_facet; exact F] | exact K]). }
  assert (J : forall e c, In c (embedded (4 * 2 ^ i) 2) -> facet_of e c -> (1 <= fi e <= 4 <-> exists t, In t [1; 2; 3; 4] /\ forallb (sideb (2 ^ i) t) e = true)).
  { intros e c I F. destruct (IT c e I F) as (S & B & _). split.
    - intros K. exists (fi e). split; [cbn [In]; lia |]. apply side_all; [exact Hm | exact Hn |]. apply S; [exact K | reflexivity].
    - intros (t & It & T). pose proof (proj2 (side_all (2 ^ i) Hm Hn t e) T) as T2. clear T. rename T2 into T. apply S in T; [rewrite T |]; cbn in It; lia. }
  split; [apply NoDup_filter, NoDup_nodup |]. split; [| split].
  - intros e. rewrite M, <- (inner_meets_outer (2 ^ i) Hm Hn e). split; intros [A B].
    + split; [destruct A as (c & I & F); apply (J e c I F); exact B | exact A].
    + split; [exact B | destruct B as (c & I & F); apply (J e c I F); exact A].
  - intros e He. apply M in He. destruct He as [(c & I & F) K]. split; [exact K |]. split; [reflexivity |]. symmetry.
    pose proof (proj1 (J e c I F) K) as G. destruct (proj1 (inner_meets_outer (2 ^ i) Hm Hn e)) as [_ (c' & I' & F')]; [split; [exact G | exists c; auto] |].
    apply (OT c' e I' F'); [lia |]. apply (IT c e I F); [exact K | reflexivity].
  - intros e c I F K. destruct (OT c e I F) as (S & _ & B). apply M. assert (G : exists t, In t [1; 2; 3; 4] /\ forallb (sideb (2 ^ i) t) e = true). { exists (fo e). split; [cbn [In]; lia |]. apply side_all; [exact Hm | exact Hn |]. apply S; [lia | reflexivity]. }
    assert (X : exists c', In c' (embedded (4 * 2 ^ i) 2) /\ facet_of e c').
    { destruct G as (t & It & T). destruct (facet_kinds _ Hm Hn 1 e c I F) as (a & b & E & _). revert T. cbn [In] in It. destruct E as [-> | [-> | ->]]; destruct It as [<- | [<- | [<- | [<- | []]]]]; cbn [hor ver dia forallb sideb fst snd]; unfold rng; rewrite ?andb_true_iff, ?Nat.eqb_eq, ?Nat.leb_le; intros T; try (exfalso; lia).
      - exists (lower a b). apply cells_hor; try assumption. left. split; [reflexivity |]. rewrite domain2 by assumption. lia.
      - exists (upper a (b - 1)). apply cells_hor; try assumption. right. split; [reflexivity |]. rewrite domain2 by assumption. lia.
      - exists (upper a b). apply cells_ver; try assumption. left. split; [reflexivity |]. rewrite domain2 by assumption. lia.
      - exists (lower (a - 1) b). apply cells_ver; try assumption. right. split; [reflexivity |]. rewrite domain2 by assumption. lia. }
    split; [exact X |]. destruct X as (c' & I' & F'). apply (J e c' I' F'). exact G.
Qed.
Print Assumptions C106_interface.

(** Only these three names are accepted *)
Theorem C106_names i w : (exists r, immersed_geometry i w = Ok r) <-> w <> Other.
Proof. destruct w; cbn; split; intros H; try discriminate; try (eexists; reflexivity); [destruct H as [r H]; discriminate | contradiction H; reflexivity]. Qed.
Print Assumptions C106_names.

(** The bound is the best there is: at every finer level some triangle with a vertex outside the inner square is
    put in the inner domain *)
Theorem C106_sharp i : 50 <= i -> exists cs f c v, immersed_geometry i Inner = Ok (cs, f) /\ In c cs /\ In v c /\ ~ in_inner (place (4 * 2 ^ i) v).
Proof.
  intros Hi. eexists _, _, (lower (3 * 2 ^ i) (2 ^ i)), (3 * 2 ^ i + 1, 2 ^ i). split; [reflexivity |]. unfold resolution. pose proof (pow2_pos i) as Hm. set (m := 2 ^ i) in *.
  assert (Hn : (1 < INR (4 * m) * EPS)%R).
  { unfold m. rewrite mult_INR, pow_INR. replace (INR 4) with 4%R by (cbn; ring). replace (INR 2) with 2%R by (cbn; ring).
    assert (G : (2 ^ 50 <= 2 ^ i)%R) by (apply Rle_pow; [lra | exact Hi]). replace (2 ^ 50)%R with 1125899906842624%R in G by (rewrite pow_IZR; reflexivity).
    unfold EPS in *. replace (10 ^ 16)%R with 10000000000000000%R in * by (rewrite pow_IZR; reflexivity). lra. }
  assert (P : (0 < INR (4 * m))%R) by (apply lt_0_INR; lia). assert (Pe : (0 < EPS)%R) by apply eps_pos.
  assert (Q1 : (INR m / INR (4 * m) = 1 / 4)%R) by (apply quarter; assumption). assert (Q3 : (INR (3 * m) / INR (4 * m) = 3 / 4)%R) by (apply quarters; assumption).
  assert (Inv : (0 < / INR (4 * m) < EPS)%R). { split; [apply Rinv_0_lt_compat; exact P |]. apply (Rmult_lt_reg_l (INR (4 * m))); [exact P |]. rewrite Rinv_r by lra. exact Hn. }
  assert (A : (INR (m + 1) / INR (4 * m) = 1 / 4 + / INR (4 * m))%R) by (rewrite plus_INR, <- Q1; cbn [INR]; unfold Rdiv; ring).
  assert (B : (INR (3 * m + 1) / INR (4 * m) = 3 / 4 + / INR (4 * m))%R) by (rewrite plus_INR, <- Q3; cbn [INR]; unfold Rdiv; ring).
  assert (E1 : (EPS < 1 / 4)%R) by (unfold EPS; replace (10 ^ 16)%R with 10000000000000000%R by (rewrite pow_IZR; reflexivity); lra).
  split; [| split].
  - unfold embedded. apply filter_In. split.
    + apply in_cells; [exact Hm |]. exists (3 * m), m. split; [lia |]. split; [lia | left; reflexivity].
    + apply Nat.eqb_eq. unfold cell_f. rewrite mark_convex.
      * replace (forallb (fun v => inner (coord (4 * m) v)) (lower (3 * m) m)) with true; [reflexivity |]. symmetry. apply forallb_forall. intros v Hv. unfold inner, coord. rewrite !andb_true_iff, !lt_iff.
        cbn [lower In] in Hv. destruct Hv as [<- | [<- | [<- | []]]]; cbn [fst snd]; rewrite ?A, ?B, ?Q1, ?Q3; lra.
      * unfold inner. repeat apply convex_and; auto using convex_lt_fst, convex_lt_snd, convex_gt_fst, convex_gt_snd.
      * right. reflexivity.
  - right. left. reflexivity.
  - unfold in_inner, place. cbn [fst snd]. rewrite B. lra.
Qed.
Print Assumptions C106_sharp.

(** rotate turns a vector by a right angle clockwise *)
Theorem C106_rotate v : (fst (rotate v) * fst v + snd (rotate v) * snd v = 0 /\ fst (rotate v) * fst (rotate v) + snd (rotate v) * snd (rotate v) = fst v * fst v + snd v * snd v /\
  fst (rotate v) * snd v - snd (rotate v) * fst v = fst v * fst v + snd v * snd v)%R.
Proof. destruct v as [x y]. cbn. repeat split; ring. Qed.
Print Assumptions C106_rotate.

(** The coarsest case: the inner square has four squares, and the corner facet has tags of the hole and of the outside *)
Example C106_ex : exists cs f, immersed_geometry 0 Inner = Ok (cs, f) /\ In (lower 1 1) cs /\ facet_of (hor 1 1) (lower 1 1) /\ f (hor 1 1) = 3.
Proof.
  eexists _, _. split; [reflexivity |]. assert (Hn : (INR (4 * 1) * EPS < 1)%R) by (apply (coarse 0); lia).
  assert (I : In (lower 1 1) (embedded (resolution 0) 2)). { apply (in_embedded 1 (le_n 1) Hn). exists 1, 1. repeat split; auto; lia. }
  split; [exact I |]. split; [left; reflexivity |]. change (resolution 0) with (4 * 1). rewrite facet_inner; [reflexivity | lia | exact Hn | reflexivity].
Qed.
Example C106_ex_interface : exists cs f, immersed_geometry 0 Interface = Ok (cs, f) /\ In (hor 1 1) cs /\ In (ver 3 2) cs /\ ~ In (hor 1 2) cs.
Proof.
  destruct (immersed_geometry 0 Interface) as [[cs f] | x] eqn:E; [| discriminate E]. exists cs, f. split; [reflexivity |].
  destruct (C106_interface 0 cs f _ _ _ _ ltac:(lia) E eq_refl eq_refl) as (_ & M & _). assert (Hn : (INR (4 * 1) * EPS < 1)%R) by (apply (coarse 0); lia).
  split; [| split].
  - apply M. split; [exists (lower 1 1) | exists (upper 1 0)]; (split; [apply (in_embedded 1 (le_n 1) Hn) |]).
    + exists 1, 1. repeat split; auto; lia.
    + left. reflexivity.
    + exists 1, 0. repeat split; auto; lia.
    + right. right. reflexivity.
  - apply M. split; [exists (lower 2 2) | exists (upper 3 2)]; (split; [apply (in_embedded 1 (le_n 1) Hn) |]).
    + exists 2, 2. repeat split; auto; lia.
    + right. right. reflexivity.
    + exists 3, 2. repeat split; auto; lia.
    + left. reflexivity.
  - intros H. apply M in H. destruct H as [_ (c & I & F)]. apply (conj I) in F. apply (cells_hor 1 (le_n 1) Hn) in F. rewrite !(domain1 1 (le_n 1)) in F. lia.
Qed.
