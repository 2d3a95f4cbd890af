(** Vocabulary and lemmas for TikzProps.v *)
From Coq Require Import Lia Sorted.
From Verif Require Import Base BaseProofs Mat MatProofs TikzModel.
Local Open Scope nat_scope.

(** The i-th facet has colour c and vertices e *)
Definition coloured (m : tmesh) (markers : list nat) (c : nat) (e : list nat) : Prop :=
  exists i, nth_error markers i = Some c /\ nth_error (t_edges m) i = Some e.
Definition located_at (m : tmesh) (vs : list nat) (ps : list vec) : Prop :=
  Forall2 (fun v p => nth_error (t_coords m) v = Some p) vs ps.
(** v is where facets of two different colours meet *)
Definition meets (m : tmesh) (markers : list nat) (ci cj v : nat) : Prop :=
  ci <> 0 /\ ci < cj /\ (exists e, coloured m markers ci e /\ In v e) /\ exists e, coloured m markers cj e /\ In v e.

Lemma bind_Ok {A B} (x : res A) (f : A -> res B) y : bind x f = Ok y -> exists a, x = Ok a /\ f a = Ok y.
Proof. destruct x as [a | e]; cbn [bind]; [eauto | discriminate]. Qed.
Lemma Ok_inj {A} (x y : A) : Ok x = Ok y -> x = y.
Proof. congruence. Qed.
Lemma mapM_In {A B} (f : A -> res B) l r y : mapM f l = Ok r -> (In y r <-> exists x, In x l /\ f x = Ok y).
Proof.
  intros H. apply mapM_ok_forall in H. induction H as [| x0 y0 l r H0 H IH]; cbn [In]; [split; [intros [] | intros [x [[] _]]] |].
  rewrite IH. split.
  - intros [<- | [x [Hx Ex]]]; [exists x0; tauto | exists x; tauto].
  - intros [x [[<- | Hx] Ex]]; [left; congruence | right; exists x; tauto].
Qed.
Lemma mapM_concat_In {A B} (f : A -> res (list B)) l r y : mapM f l = Ok r -> (In y (concat r) <-> exists x ys, In x l /\ f x = Ok ys /\ In y ys).
Proof.
  intros H. rewrite in_concat. split.
  - intros [ys [Hys Hy]]. apply (mapM_In f l r ys H) in Hys. destruct Hys as [x [Hx E]]. eauto.
  - intros [x [ys [Hx [E Hy]]]]. exists ys. split; [| exact Hy]. apply (mapM_In f l r ys H). eauto.
Qed.

Lemma point_spec m v p : point m v = Ok p <-> nth_error (t_coords m) v = Some p.
Proof. unfold point. destruct (nth_error (t_coords m) v); cbn; split; congruence. Qed.
Lemma points_spec m vs ps : mapM (point m) vs = Ok ps <-> located_at m vs ps.
Proof.
  unfold located_at. split.
  - intros H. apply mapM_ok_forall in H. induction H as [| v p vs ps Hv H IH]; constructor; [apply point_spec; exact Hv | exact IH].
  - intros H. induction H as [| v p vs ps Hv H IH]; [reflexivity |]. rewrite mapM_cons. apply point_spec in Hv. rewrite Hv. cbn [bind]. rewrite IH. reflexivity.
Qed.

Lemma combine_nth_In {A B} (l : list A) : forall (r : list B) a b, In (a, b) (combine l r) <-> exists i, nth_error l i = Some a /\ nth_error r i = Some b.
Proof.
  induction l as [| x l IH]; intros r a b; [cbn; split; [intros [] | intros [[| i] [H _]]; discriminate] |].
  destruct r as [| y r]; [cbn; split; [intros [] | intros [[| i] [_ H]]; discriminate] |]. cbn [combine In]. rewrite IH. split.
  - intros [E | [i H]]; [exists 0; cbn; split; congruence | exists (S i); exact H].
  - intros [[| i] [H1 H2]]; cbn in H1, H2; [left; congruence | right; eauto].
Qed.
Lemma where_equal_In m markers c e : In e (where_equal m markers c) <-> coloured m markers c e.
Proof.
  unfold where_equal, coloured. rewrite in_map_iff. split.
  - intros [[c' e'] [E H]]. apply filter_In in H. destruct H as [H1 H2]. cbn in E, H2. subst e'. apply Nat.eqb_eq in H2. subst c'. apply combine_nth_In. exact H1.
  - intros H. exists (c, e). split; [reflexivity |]. apply filter_In. split; [apply combine_nth_In; exact H | cbn; apply Nat.eqb_refl].
Qed.
Lemma vertices_In m markers c v : In v (vertices_of m markers c) <-> exists e, coloured m markers c e /\ In v e.
Proof.
  unfold vertices_of, nubn. rewrite nodup_In, in_concat. split; intros [e [H1 H2]]; exists e; (split; [apply where_equal_In; exact H1 | exact H2]).
Qed.

(** Sorted colours without repetition *)
Lemma insert_In x l y : In y (insert x l) <-> y = x \/ In y l.
Proof.
  induction l as [| z l IH]; cbn [insert]; [cbn; intuition congruence |]. destruct (x <=? z); cbn [In]; [intuition congruence |]. rewrite IH. intuition congruence.
Qed.
Lemma insert_sorted x l : ~ In x l -> StronglySorted lt l -> StronglySorted lt (insert x l).
Proof.
  intros N H. induction H as [| z l H IH F]; cbn [insert]; [repeat constructor |].
  destruct (Nat.leb_spec x z) as [L | L].
  - assert (x < z) by (assert (x <> z) by (intros ->; apply N; left; reflexivity); lia).
    constructor; [constructor; assumption |]. constructor; [assumption |]. eapply Forall_impl; [| exact F]. cbn. intros. lia.
  - constructor; [apply IH; intros X; apply N; right; exact X |]. apply Forall_forall. intros y Hy. apply insert_In in Hy. destruct Hy as [-> | Hy]; [exact L |].
    rewrite Forall_forall in F. apply F. exact Hy.
Qed.
Lemma facet_colors_sorted markers : StronglySorted lt (facet_colors markers).
Proof.
  unfold facet_colors. pose proof (NoDup_nodup Nat.eq_dec (filter (fun c => negb (Nat.eqb c 0)) markers)) as ND. fold nubn in ND. unfold nubn in *.
  induction ND as [| x l NI ND IH]; cbn [fold_right]; [constructor |]. apply insert_sorted; [| exact IH].
  intros X. apply NI. clear - X. induction l as [| y l IH]; cbn [fold_right] in X; [destruct X |]. apply insert_In in X. destruct X as [-> | X]; [left; reflexivity | right; apply IH; exact X].
Qed.
Lemma facet_colors_In markers c : In c (facet_colors markers) <-> In c markers /\ c <> 0.
Proof.
  unfold facet_colors. transitivity (In c (nubn (filter (fun c => negb (Nat.eqb c 0)) markers))).
  - generalize (nubn (filter (fun c => negb (Nat.eqb c 0)) markers)) as l. induction l as [| y l IH]; cbn [fold_right]; [tauto |]. rewrite insert_In, IH. cbn [In]. intuition congruence.
  - unfold nubn. rewrite nodup_In, filter_In, negb_true_iff, Nat.eqb_neq. tauto.
Qed.
Lemma NoDup_app_split {A} (a b : list A) : NoDup a -> NoDup b -> (forall x, In x a -> In x b -> False) -> NoDup (a ++ b).
Proof.
  intros Ha Hb D. induction Ha as [| x a NI Ha IH]; [exact Hb |]. cbn [app]. constructor.
  - rewrite in_app_iff. intros [X | X]; [contradiction | exact (D x (or_introl eq_refl) X)].
  - apply IH. intros y H1 H2. exact (D y (or_intror H1) H2).
Qed.
Lemma NoDup_map_inj {A B} (f : A -> B) l : (forall a b, f a = f b -> a = b) -> NoDup l -> NoDup (map f l).
Proof.
  intros I H. induction H as [| x l NI H IH]; cbn [map]; constructor; [| exact IH]. intros X. apply in_map_iff in X. destruct X as [y [E Hy]]. apply I in E. subst. contradiction.
Qed.
Lemma pairs_In l ci cj : StronglySorted lt l -> (In (ci, cj) (pairs l) <-> In ci l /\ In cj l /\ ci < cj).
Proof.
  intros H. induction H as [| z l H IH F]; cbn [pairs In]; [tauto |]. rewrite in_app_iff, in_map_iff, IH. rewrite Forall_forall in F. split.
  - intros [[c [E Hc]] | [H1 [H2 H3]]]; [injection E as -> ->; specialize (F _ Hc); tauto | tauto].
  - intros [[-> | H1] [[-> | H2] L]]; [lia | left; exists cj; tauto | specialize (F _ H1); lia | tauto].
Qed.
Lemma NoDup_pairs l : StronglySorted lt l -> NoDup (pairs l).
Proof.
  intros H. induction H as [| z l H IH F]; cbn [pairs]; [constructor |]. rewrite Forall_forall in F.
  assert (N1 : NoDup (map (pair z) l)).
  { apply NoDup_map_inj; [intros a b E; congruence |]. clear - H. induction H as [| y l H IH F]; constructor; [| exact IH]. rewrite Forall_forall in F. intros X. specialize (F _ X). lia. }
  apply NoDup_app_split; [exact N1 | exact IH |]. intros [a b] H1 H2. apply in_map_iff in H1. destruct H1 as [c [E _]]. injection E as <- _. apply (pairs_In l z b H) in H2. destruct H2 as [H2 _]. specialize (F _ H2). lia.
Qed.
Lemma corners_In m markers v ci cj : In (v, (ci, cj)) (corners m markers) <-> meets m markers ci cj v.
Proof.
  unfold corners. rewrite in_flat_map. split.
  - intros [[a b] [Hp H]]. apply in_map_iff in H. destruct H as [w [E H]]. injection E as -> -> ->. apply filter_In in H. destruct H as [H1 H2]. cbn [fst snd] in *.
    apply (pairs_In _ _ _ (facet_colors_sorted markers)) in Hp. destruct Hp as [P1 [P2 P3]]. apply facet_colors_In in P1. apply vertices_In in H1.
    apply existsb_exists in H2. destruct H2 as [u [Hu E]]. apply Nat.eqb_eq in E. subst u. apply vertices_In in Hu. unfold meets. tauto.
  - intros [N [L [Hi Hj]]]. exists (ci, cj). split.
    + apply (pairs_In _ _ _ (facet_colors_sorted markers)).
      assert (K : forall c, (exists e, coloured m markers c e /\ In v e) -> In c markers) by (intros c [e [[i [Hc _]] _]]; exact (nth_error_In _ _ Hc)).
      rewrite !facet_colors_In. split; [split; [apply K; exact Hi | exact N] |]. split; [split; [apply K; exact Hj | lia] | exact L].
    + apply (in_map (fun u => (u, (ci, cj)))). cbn [fst snd]. apply filter_In. split; [apply vertices_In; exact Hi |]. apply existsb_exists. exists v. split; [apply vertices_In; exact Hj | apply Nat.eqb_refl].
Qed.

Lemma NoDup_flat_map {A B} (f : A -> list B) (key : B -> A) l : NoDup l -> (forall a, NoDup (f a)) -> (forall a b, In b (f a) -> key b = a) -> NoDup (flat_map f l).
Proof.
  intros H F K. induction H as [| x l NI H IH]; cbn [flat_map]; [constructor |]. apply NoDup_app_split; [apply F | exact IH |].
  intros y H1 H2. apply in_flat_map in H2. destruct H2 as [z [Hz Hy]]. apply K in H1. apply K in Hy. subst. congruence.
Qed.
Lemma corners_NoDup m markers : NoDup (corners m markers).
Proof.
  unfold corners. apply (NoDup_flat_map _ snd); [apply NoDup_pairs; apply facet_colors_sorted | |].
  - intros cc. apply NoDup_map_inj; [intros a b E; congruence |]. apply NoDup_filter. apply NoDup_nodup.
  - intros cc b H. apply in_map_iff in H. destruct H as [v [<- _]]. reflexivity.
Qed.

(** Names *)
Definition labels (body : list command) : list (nat * nat) :=
  flat_map (fun c => match c with Coordinate l _ _ => [l] | _ => [] end) body.
Definition letters (l : nat * nat) : Prop := 65 <= fst l <= 90 /\ 65 <= snd l <= 90.
Definition label (i : nat) : nat * nat := (65 + i mod 26, 65 + i / 26).
Lemma char_ok c d : char c = Ok d -> d = c.
Proof. unfold char. destruct (Z.of_nat c <? 1114112)%Z; congruence. Qed.
Lemma name_point_ok gdim i pc cs : name_point gdim i pc = Ok cs ->
  (if Nat.eqb gdim 2 then 2 else 3) <= length (fst pc) /\
  cs = Coordinate (label i) (firstn (if Nat.eqb gdim 2 then 2 else 3) (fst pc)) (snd pc) :: match snd pc with Bif => [Mark (label i)] | _ => [] end.
Proof.
  unfold name_point. intros H. apply bind_Ok in H. destruct H as [a [Ha H]]. apply bind_Ok in H. destruct H as [b [Hb H]].
  apply char_ok in Ha. apply char_ok in Hb. subst a b.
  destruct (Nat.leb_spec (if Nat.eqb gdim 2 then 2 else 3) (length (fst pc))) as [L | L]; [| discriminate]. split; [exact L |]. apply Ok_inj in H. symmetry. exact H.
Qed.
Lemma Forall2_In_l {A B} (P : A -> B -> Prop) l r x : Forall2 P l r -> In x l -> exists y, In y r /\ P x y.
Proof. intros H. induction H as [| a b l r Hab H IH]; intros Hx; [destruct Hx |]. destruct Hx as [<- | Hx]; [exists b; cbn; tauto |]. destruct (IH Hx) as [y [H1 H2]]. exists y. cbn. tauto. Qed.
Lemma name_points_labels gdim l cs : name_points gdim l = Ok cs -> labels cs = map label (seq 0 (length l)).
Proof.
  unfold name_points. intros H. apply bind_Ok in H. destruct H as [css [H E]]. apply Ok_inj in E. subst cs. apply mapM_ok_forall in H.
  revert H. generalize 0 as s. revert css. induction l as [| pc l IH]; intros css s H; cbn [length seq combine] in H; inversion H as [| x cs0 xs css0 H0 H1]; subst; [reflexivity |].
  cbn [fst snd] in H0. apply name_point_ok in H0. destruct H0 as [_ ->]. cbn [concat length seq map]. unfold labels in *. rewrite flat_map_app, (IH css0 (S s) H1).
  destruct (snd pc); reflexivity.
Qed.
Lemma name_points_In gdim l cs p c : name_points gdim l = Ok cs ->
  ((exists lab, In (Coordinate lab p c) cs) <-> exists x, In (x, c) l /\ p = firstn (if Nat.eqb gdim 2 then 2 else 3) x).
Proof.
  unfold name_points. intros H. apply bind_Ok in H. destruct H as [css [H E]]. apply Ok_inj in E. subst cs. split.
  - intros [lab Hl]. apply (mapM_concat_In _ _ _ _ H) in Hl. destruct Hl as [[i [x c']] [ys [Hi [Ey Hy]]]]. cbn [fst snd] in Ey. apply name_point_ok in Ey. destruct Ey as [_ ->]. cbn [fst snd] in Hy.
    destruct Hy as [Hy | Hy]; [| exfalso; destruct c'; cbn [In] in Hy; try contradiction; destruct Hy as [Hy | Hy]; [discriminate Hy | contradiction]]. injection Hy as _ <- <-.
    exists x. split; [| reflexivity]. apply in_combine_r in Hi. exact Hi.
  - intros [x [Hx ->]]. apply In_nth_error in Hx. destruct Hx as [i Hi].
    assert (Hin : In (i, (x, c)) (combine (seq 0 (length l)) l)).
    { apply combine_nth_In. exists i. split; [| exact Hi]. assert (i < length l) by (apply nth_error_Some; congruence). rewrite nth_error_nth' with (d := 0) by (rewrite seq_length; assumption). rewrite seq_nth by assumption. reflexivity. }
    apply mapM_ok_forall in H. destruct (Forall2_In_l _ _ _ _ H Hin) as [ys [Hy Ey]]. cbn [fst snd] in Ey. apply name_point_ok in Ey. destruct Ey as [_ ->].
    exists (label i). apply in_concat. eexists. split; [exact Hy | left; reflexivity].
Qed.
Lemma label_inj i j : label i = label j -> i = j.
Proof.
  intros H. pose proof (f_equal fst H) as H1. pose proof (f_equal snd H) as H2. unfold label in H1, H2. cbn [fst snd] in H1, H2.
  pose proof (Nat.div_mod i 26 ltac:(lia)). pose proof (Nat.div_mod j 26 ltac:(lia)). lia.
Qed.
Lemma label_letters i : letters (label i) <-> i < 676.
Proof.
  unfold letters, label. cbn [fst snd]. pose proof (Nat.mod_upper_bound i 26 ltac:(lia)). pose proof (Nat.div_mod i 26 ltac:(lia)). split; intros; [| split]; lia.
Qed.

(** The bounding box *)
Lemma fold_axis (pick : Qc -> Qc -> Qc) (le : Qc -> Qc -> Prop) (d : nat) :
  (forall a, le a a) -> (forall a b c, le a b -> le b c -> le a c) -> (forall a b, le (pick a b) a /\ le (pick a b) b /\ (pick a b = a \/ pick a b = b)) ->
  forall xs x, length x = d -> Forall (fun y => length y = d) xs ->
  let r := fold_left (fun acc y => map (fun p => pick (fst p) (snd p)) (combine acc y)) xs x in
  length r = d /\ forall i, i < d -> (forall y, In y (x :: xs) -> le (vnth r i) (vnth y i)) /\ exists y, In y (x :: xs) /\ vnth r i = vnth y i.
Proof.
  intros R T P. induction xs as [| z xs IH]; intros x Hx Hxs; cbn [fold_left].
  - split; [exact Hx |]. intros i Hi. split; [intros y [<- | []]; apply R | exists x; cbn; tauto].
  - inversion Hxs as [| z' xs' Hz Hxs']; subst. set (w := map _ (combine x z)).
    assert (Lw : length w = length x) by (unfold w; rewrite map_length, combine_length; lia).
    assert (Ew : forall i, i < length x -> vnth w i = pick (vnth x i) (vnth z i)).
    { intros i Hi. unfold w, vnth. rewrite nth_indep with (d' := (fun p : Qc * Qc => pick (fst p) (snd p)) (q0, q0)) by (rewrite map_length, combine_length; lia).
      rewrite (map_nth (fun p : Qc * Qc => pick (fst p) (snd p))). rewrite combine_nth by lia. reflexivity. }
    destruct (IH w Lw Hxs') as [L H]. split; [exact L |]. intros i Hi. destruct (H i Hi) as [H1 [y [Hy Ey]]]. specialize (Ew i Hi). destruct (P (vnth x i) (vnth z i)) as [P1 [P2 P3]].
    pose proof (H1 w (or_introl eq_refl)) as Hw. rewrite Ew in Hw. split.
    + intros u [<- | [<- | Hu]]; [eapply T; eassumption | eapply T; eassumption | apply H1; right; exact Hu].
    + destruct Hy as [<- | Hy]; [| exists y; split; [right; right; exact Hy | exact Ey]]. rewrite Ew in Ey.
      destruct P3 as [E | E]; rewrite E in Ey; [exists x | exists z]; cbn; tauto.
Qed.
Lemma axis_box (pick : Qc -> Qc -> Qc) (le : Qc -> Qc -> Prop) m r : (forall a, le a a) -> (forall a b c, le a b -> le b c -> le a c) -> (forall a b, le (pick a b) a /\ le (pick a b) b /\ (pick a b = a \/ pick a b = b)) ->
  Forall (fun x => length x = t_gdim m) (t_coords m) -> axis pick m = Ok r ->
  length r = t_gdim m /\ forall i, i < t_gdim m -> (forall y, In y (t_coords m) -> le (vnth r i) (vnth y i)) /\ exists y, In y (t_coords m) /\ vnth r i = vnth y i.
Proof.
  intros R T P F H. unfold axis in H. destruct (t_coords m) as [| x xs]; [discriminate |]. apply Ok_inj in H. subst r.
  inversion F as [| x' xs' Hx Hxs]; subst. exact (fold_axis pick le _ R T P xs x Hx Hxs).
Qed.

(** Named points *)
Definition named (body : list command) : list (vec * comment) :=
  flat_map (fun c => match c with Coordinate _ p k => [(p, k)] | _ => [] end) body.
Lemma name_points_named gdim l cs : name_points gdim l = Ok cs ->
  (forall x k, In (x, k) l -> length x = gdim) -> gdim = 2 \/ gdim = 3 -> named cs = l.
Proof.
  unfold name_points. intros H HL Hg. apply bind_Ok in H. destruct H as [css [H E]]. apply Ok_inj in E. subst cs. apply mapM_ok_forall in H.
  revert H HL. generalize 0 as s. revert css. induction l as [| [x k] l IH]; intros css s H HL; cbn [length seq combine] in H; inversion H as [| y cs0 xs css0 H0 H1]; subst; [reflexivity |].
  cbn [fst snd] in H0. apply name_point_ok in H0. destruct H0 as [_ ->]. cbn [concat]. unfold named in *. rewrite flat_map_app, (IH css0 (S s) H1) by (intros y j Hy; apply (HL y j); right; exact Hy).
  assert (Ex : firstn (if gdim =? 2 then 2 else 3) x = x). { specialize (HL x k (or_introl eq_refl)). apply firstn_all2. destruct Hg as [-> | ->]; cbn in *; lia. }
  cbn [fst snd]. rewrite Ex. destruct k; reflexivity.
Qed.
(** All meshes and points of one dimension *)
Definition of_dim (g : nat) (m : tmesh) : Prop := t_gdim m = g /\ Forall (fun x => length x = g) (t_coords m).
Definition consistent (g : nat) (fi : list facet_data) (ci : option cell_data) (vi : list vertex_data) : Prop :=
  (g = 2 \/ g = 3) /\ (forall f, In f fi -> of_dim g (fd_mesh f)) /\ (forall v, In v vi -> of_dim g (vd_mesh v)) /\
  forall c, ci = Some c -> of_dim g (cd_mesh c) /\ forall x k, In (x, k) (cd_mids c) -> length x = g /\ exists d, k = Mid d.
