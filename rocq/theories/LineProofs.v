(** Specification vocabulary and proofs for LineModel.v. *)
From Verif Require Import LineModel GeomProofs BaseProofs WalkProofs.
From Coq Require Import Psatz.
Local Open Scope R_scope.

(** ** Specification *)
Definition consecutive (idx : list nat) : list (nat * nat) := map (fun j => (nth j idx 0, nth (S j) idx 0)%nat) (seq 0 (length idx - 1)).
(** The vertices [idx] of the mesh are the points of a branch, the inner ones exactly *)
Definition follows (tol : R) (x : list (list R)) (branch : list (list R)) (idx : list nat) : Prop :=
  length idx = length branch /\
  (forall j, (j < length branch)%nat -> (nth j idx 0 < length x)%nat /\ dist (nth (nth j idx 0%nat) x []) (nth j branch []) <= tol) /\
  (forall j, (0 < j < length branch - 1)%nat -> nth (nth j idx 0%nat) x [] = nth j branch []).
(** The cells are the segments of the branches *)
Definition represents (tol : R) (m : lmesh) (branches : list (list (list R))) : Prop :=
  exists idxs, Forall2 (follows tol (l_x m)) branches idxs /\ l_cells m = flat_map consecutive idxs.

(** ** End points *)
Lemma rnorm_dist p q : rnorm (rsub p q) = dist p q.
Proof. unfold rnorm, dist. f_equal. revert q. induction p as [|a p IH]; intros [|b q]; cbn; try reflexivity. rewrite IH. ring. Qed.
Lemma dist_refl p : dist p p = 0.
Proof. unfold dist. rewrite <- sqrt_0. f_equal. induction p as [|a p IH]; cbn; [reflexivity|]. rewrite IH. ring. Qed.
Lemma sq_dist_nonneg p q : 0 <= sq_dist p q.
Proof. revert q. induction p as [|a p IH]; intros [|b q]; cbn; try lra. specialize (IH q). pose proof (pow2_ge_0 (a - b)) as H. cbn in H. lra. Qed.
Lemma dist_zero p q : length p = length q -> dist p q <= 0 -> p = q.
Proof.
  intros L H. unfold dist in H. assert (Z : sq_dist p q = 0). { pose proof (sqrt_pos (sq_dist p q)). apply sqrt_eq_0; [apply sq_dist_nonneg|lra]. } clear H. revert q L Z. induction p as [|a p IH]; intros [|b q] L Z; try discriminate L; [reflexivity|]. injection L as L. cbn in Z. pose proof (sq_dist_nonneg p q). pose proof (pow2_ge_0 (a - b)) as H0. cbn in H0. f_equal; [|apply IH; [exact L|lra]]. assert (E : (a - b) * (a - b) = 0) by lra. apply Rmult_integral in E. lra.
Qed.
Lemma argmin_from_spec l : forall best ibest i all, (forall k, (k < i)%nat -> best <= at_ all k) -> (forall k, (k < length l)%nat -> at_ all (i + k) = at_ l k) -> (ibest < i)%nat -> at_ all ibest = best ->
  let f := argmin_from best ibest i l in (f < i + length l)%nat /\ forall k, (k < i + length l)%nat -> at_ all f <= at_ all k.
Proof.
  induction l as [|d l IH]; intros best ibest i all LE AT IB EB; cbn [argmin_from length]; cbv zeta.
  - split; [lia|]. intros k K. rewrite EB. apply LE. lia.
  - assert (D : at_ all i = d). { specialize (AT 0%nat ltac:(cbn; lia)). rewrite Nat.add_0_r in AT. exact AT. } assert (AT' : forall k, (k < length l)%nat -> at_ all (S i + k) = at_ l k). { intros k K. specialize (AT (S k) ltac:(cbn; lia)). replace (S i + k)%nat with (i + S k)%nat by lia. exact AT. }
    destruct (Rlt_dec d best) as [L|L].
    + destruct (IH d i (S i) all) as [A B]; [intros k K; destruct (Nat.eq_dec k i) as [-> |N]; [lra|specialize (LE k ltac:(lia)); lra]|exact AT'|lia|exact D|]. split; [lia|]. intros k K. apply B. lia.
    + destruct (IH best ibest (S i) all) as [A B]; [intros k K; destruct (Nat.eq_dec k i) as [-> |N]; [lra|apply LE; lia]|exact AT'|lia|exact EB|]. split; [lia|]. intros k K. apply B. lia.
Qed.
Lemma argmin_spec l : l <> [] -> exists f, argmin l = Ok f /\ (f < length l)%nat /\ forall k, (k < length l)%nat -> at_ l f <= at_ l k.
Proof.
  intros NE. destruct l as [|d l]; [congruence|]. cbn [argmin]. eexists. split; [reflexivity|]. destruct (argmin_from_spec l d 0 1 (d :: l)) as [A B]; [intros k K; assert (k = 0%nat) by lia; subst; cbn; lra|intros k K; reflexivity|lia|reflexivity|]. split; [exact A|exact B].
Qed.
Lemma at_map (f : list R -> R) l i : (i < length l)%nat -> at_ (map f l) i = f (nth i l []).
Proof. intros H. unfold at_. rewrite (nth_indep _ 0 (f [])) by (rewrite map_length; exact H). apply map_nth. Qed.
(** The vertex of an end point: at most [tol] away; all earlier vertices are kept *)
Lemma place_spec tol nodes p : 0 <= tol -> nodes <> [] -> exists f nodes', place tol nodes p = Ok (f, nodes') /\ (exists more, nodes' = nodes ++ more) /\ nodes' <> [] /\
  length nodes' = Nat.max (length nodes) (S f) /\ dist (nth f nodes' []) p <= tol.
Proof.
  intros T NE. unfold place. destruct (argmin_spec (map (fun q => rnorm (rsub q p)) nodes)) as [f [E [L M]]]; [destruct nodes; [congruence|discriminate]|]. rewrite E. cbn [bind]. rewrite map_length in L. rewrite at_map by exact L. rewrite rnorm_dist. destruct (Rlt_dec tol (dist (nth f nodes []) p)) as [G|G].
  - exists (length nodes), (nodes ++ [p]). split; [reflexivity|]. split; [exists [p]; reflexivity|]. split; [destruct nodes; discriminate|]. split; [rewrite app_length; cbn; lia|]. rewrite app_nth2 by lia. rewrite Nat.sub_diag. cbn. rewrite dist_refl. exact T.
  - exists f, nodes. split; [reflexivity|]. split; [exists []; rewrite app_nil_r; reflexivity|]. split; [exact NE|]. split; [lia|lra].
Qed.
Definition near (tol : R) (x : list (list R)) (b : nat * nat) (branch : list (list R)) : Prop :=
  (fst b < length x)%nat /\ (snd b < length x)%nat /\ dist (nth (fst b) x []) (nth 0 branch []) <= tol /\ dist (nth (snd b) x []) (nth (length branch - 1) branch []) <= tol.
Lemma near_more tol x more b branch : near tol x b branch -> near tol (x ++ more) b branch.
Proof. intros [A [B [C D]]]. unfold near. rewrite app_length, !app_nth1 by assumption. repeat split; try lia; assumption. Qed.
Lemma last_nth {A} (l : list A) d d' : l <> [] -> last l d = nth (length l - 1) l d'.
Proof. induction l as [|a l IH]; intros H; [congruence|]. destruct l as [|b l]; [reflexivity|]. change (last (a :: b :: l) d) with (last (b :: l) d). rewrite IH by discriminate. cbn [length]. replace (S (S (length l)) - 1)%nat with (S (S (length l) - 1)) by lia. reflexivity. Qed.
Lemma endpoints_ok branch : branch <> [] -> endpoints branch = Ok (nth 0 branch [], nth (length branch - 1) branch []).
Proof. intros H. destruct branch as [|p l]; [congruence|]. unfold endpoints. rewrite (last_nth (p :: l) p []) by discriminate. reflexivity. Qed.
Lemma bounds_spec tol branches : 0 <= tol -> Forall (fun b => b <> []) branches -> forall nodes, nodes <> [] -> exists bs nodes', bounds tol nodes branches = Ok (bs, nodes') /\ (exists more, nodes' = nodes ++ more) /\ Forall2 (near tol nodes') bs branches /\
  length nodes' = Nat.max (length nodes) (S (list_max (map (fun b => Nat.max (fst b) (snd b)) bs))).
Proof.
  intros T F. induction F as [|branch rest NB F IH]; intros nodes NE; cbn [bounds].
  - exists [], nodes. split; [reflexivity|]. split; [exists []; rewrite app_nil_r; reflexivity|]. split; [constructor|]. cbn. destruct nodes; [congruence|cbn; lia].
  - rewrite (endpoints_ok branch NB). cbn [bind fst snd]. destruct (place_spec tol nodes (nth 0 branch []) T NE) as [f [n1 [-> [[m1 E1] [NE1 [L1 D1]]]]]]. cbn [bind fst snd]. destruct (place_spec tol n1 (nth (length branch - 1) branch []) T NE1) as [l [n2 [-> [[m2 E2] [NE2 [L2 D2]]]]]]. cbn [bind fst snd]. destruct (IH n2 NE2) as [bs [n3 [-> [[m3 E3] [FN L3]]]]]. cbn [bind fst snd].
    exists ((f, l) :: bs), n3. split; [reflexivity|]. split; [exists (m1 ++ m2 ++ m3); rewrite E3, E2, E1, !app_assoc; reflexivity|]. split.
    + constructor; [|exact FN]. rewrite E3. apply near_more. unfold near. cbn [fst snd]. split; [lia|]. split; [lia|]. split; [|exact D2]. rewrite E2, app_nth1 by lia. exact D1.
    + cbn [map fst snd]. change (list_max (Nat.max f l :: map (fun b => Nat.max (fst b) (snd b)) bs)) with (Nat.max (Nat.max f l) (list_max (map (fun b => Nat.max (fst b) (snd b)) bs))). lia.
Qed.

(** ** Inner points *)
Definition long (branch : list (list R)) : bool := (3 <=? length branch)%nat.
Lemma removelast_length {A} (l : list A) : length (removelast l) = (length l - 1)%nat.
Proof. induction l as [|a l IH]; [reflexivity|]. destruct l; [reflexivity|]. cbn [removelast length] in *. rewrite IH. lia. Qed.
Lemma removelast_nth {A} (l : list A) i d : (i < length l - 1)%nat -> nth i (removelast l) d = nth i l d.
Proof. revert i. induction l as [|a l IH]; intros i H; [cbn in H; lia|]. destruct l as [|b l]; [cbn in H; lia|]. destruct i; [reflexivity|]. change (removelast (a :: b :: l)) with (a :: removelast (b :: l)). cbn [nth]. apply IH. cbn in *. lia. Qed.
Lemma interior_length branch : length (interior branch) = (length branch - 2)%nat.
Proof. unfold interior. rewrite removelast_length. destruct branch; cbn; lia. Qed.
Lemma interior_nth branch i : (i < length branch - 2)%nat -> nth i (interior branch) [] = nth (S i) branch [].
Proof. intros H. unfold interior. rewrite removelast_nth by (destruct branch; cbn in *; lia). destruct branch; [cbn in H; lia|reflexivity]. Qed.
Lemma links_consecutive idx : links idx = consecutive idx.
Proof.
  induction idx as [|a idx IH]; [reflexivity|]. destruct idx as [|b idx]; [reflexivity|]. change (links (a :: b :: idx)) with ((a, b) :: links (b :: idx)). rewrite IH. unfold consecutive. cbn [length Nat.sub seq map nth]. f_equal. rewrite !Nat.sub_0_r. rewrite <- seq_shift, map_map. reflexivity.
Qed.
Lemma follows_more tol x more branch idx : follows tol x branch idx -> follows tol (x ++ more) branch idx.
Proof.
  intros [L [A B]]. split; [exact L|]. split.
  - intros j J. destruct (A j J) as [A1 A2]. rewrite app_length, app_nth1 by exact A1. split; [lia|exact A2].
  - intros j J. rewrite app_nth1 by (apply A; lia). apply B, J.
Qed.
Lemma follows_branch tol x b branch : 0 <= tol -> near tol x b branch -> long branch = true ->
  follows tol (x ++ interior branch) branch (fst b :: seq (length x) (length (interior branch)) ++ [snd b]).
Proof.
  intros T [A [B [C D]]] L. apply Nat.leb_le in L. pose proof (interior_length branch) as IL. assert (LI : length (fst b :: seq (length x) (length (interior branch)) ++ [snd b]) = length branch) by (cbn [length]; rewrite app_length, seq_length; cbn; lia).
  assert (IN : forall j, (0 < j < length branch - 1)%nat -> nth j (fst b :: seq (length x) (length (interior branch)) ++ [snd b]) 0%nat = (length x + (j - 1))%nat /\ nth (length x + (j - 1)) (x ++ interior branch) [] = nth j branch []).
  { intros j J. destruct j as [|j]; [lia|]. cbn [nth]. rewrite app_nth1 by (rewrite seq_length; lia). rewrite seq_nth by lia. replace (S j - 1)%nat with j by lia. split; [reflexivity|]. rewrite app_nth2 by lia. replace (length x + j - length x)%nat with j by lia. apply interior_nth. lia. }
  split; [exact LI|]. split.
  - intros j J. rewrite app_length. destruct (Nat.eq_dec j 0) as [-> |J0]; [cbn [nth]; rewrite app_nth1 by exact A; split; [lia|exact C]|]. destruct (Nat.eq_dec j (length branch - 1)) as [-> |J1].
    + replace (length branch - 1)%nat with (S (length (interior branch))) at 1 2 by lia. cbn [nth]. rewrite app_nth2 by (rewrite seq_length; lia). rewrite seq_length, Nat.sub_diag. cbn [nth]. rewrite app_nth1 by exact B. split; [lia|exact D].
    + destruct (IN j ltac:(lia)) as [-> ->]. rewrite dist_refl. split; [lia|exact T].
  - intros j J. destruct (IN j J) as [-> E]. exact E.
Qed.
Definition placed (tol : R) (x : list (list R)) (bb : (nat * nat) * list (list R)) (idx : list nat) : Prop :=
  follows tol x (snd bb) idx /\ nth 0 idx 0%nat = fst (fst bb) /\ nth (length (snd bb) - 1) idx 0%nat = snd (fst bb).
Lemma fill_spec tol bs branches : 0 <= tol -> Forall2 (fun b branch => True) bs branches -> forall x cells, Forall2 (near tol x) bs branches ->
  exists idxs, Forall2 (placed tol (fst (fill (combine bs branches) (length x) x cells))) (filter (fun bb => long (snd bb)) (combine bs branches)) idxs /\ snd (fill (combine bs branches) (length x) x cells) = cells ++ flat_map consecutive idxs /\ exists more, fst (fill (combine bs branches) (length x) x cells) = x ++ more.
Proof.
  intros T F2. induction F2 as [|b branch bs branches _ F2 IH]; intros x cells N; cbn [combine fill].
  - exists []. split; [constructor|]. cbn. rewrite app_nil_r. split; [reflexivity|]. exists []. rewrite app_nil_r. reflexivity.
  - inversion N as [|b0 br0 bs0 brs0 N1 N2]; subst. destruct b as [fE lE]. rewrite interior_length. cbn [filter snd]. destruct (long branch) eqn:LB.
    + pose proof LB as LB'. apply Nat.leb_le in LB'. destruct (Nat.eqb_spec (length branch - 2) 0) as [Z|Z]; [lia|]. pose proof (follows_branch tol x (fE, lE) branch T N1 LB) as FB. cbn [fst snd] in FB. rewrite interior_length in FB. set (x1 := x ++ interior branch) in *. assert (LX : length x1 = (length x + (length branch - 2))%nat) by (unfold x1; rewrite app_length, interior_length; reflexivity). rewrite <- LX.
      set (idx := fE :: seq (length x) (length branch - 2) ++ [lE]) in *. destruct (IH x1 (cells ++ links idx)) as [idxs [A [B [more C]]]]; [clear - N2; induction N2; constructor; [apply near_more; assumption|assumption]|].
      exists (idx :: idxs). split.
      * constructor; [|exact A]. split; [rewrite C; apply follows_more, FB|]. cbn [fst snd]. split; [reflexivity|]. unfold idx. replace (length branch - 1)%nat with (S (length branch - 2)) by lia. cbn [nth]. rewrite app_nth2 by (rewrite seq_length; lia). rewrite seq_length, Nat.sub_diag. reflexivity.
      * split; [rewrite B, links_consecutive, <- app_assoc; reflexivity|]. exists (interior branch ++ more). rewrite C. unfold x1. rewrite app_assoc. reflexivity.
    + apply Nat.leb_gt in LB. destruct (Nat.eqb_spec (length branch - 2) 0) as [Z|Z]; [|lia]. apply IH, N2.
Qed.
Lemma filter_combine {A} (bs : list A) branches : length bs = length branches -> map snd (filter (fun bb => long (snd bb)) (combine bs branches)) = filter long branches.
Proof. revert branches. induction bs as [|b bs IH]; intros [|br brs] L; try discriminate L; [reflexivity|]. injection L as L. cbn [combine filter snd]. destruct (long br); cbn [map snd]; rewrite IH by exact L; reflexivity. Qed.
Lemma placed_follows tol x bbs idxs : Forall2 (placed tol x) bbs idxs -> Forall2 (follows tol x) (map snd bbs) idxs.
Proof. induction 1 as [|bb idx bbs idxs [P _] F IH]; constructor; assumption. Qed.
Lemma near_length tol x bs branches : Forall2 (near tol x) bs branches -> length bs = length branches.
Proof. induction 1; cbn; congruence. Qed.
(** Branches with two points or fewer leave no cell; the others are represented *)
Lemma line_mesh_places tol branches : 0 <= tol -> branches <> [] -> Forall (fun b => b <> []) branches -> exists bs nodes idxs m more,
  bounds tol [nth 0 (nth 0 branches []) []; nth (length (nth 0 branches []) - 1) (nth 0 branches []) []] (tl branches) = Ok (bs, nodes) /\
  line_mesh branches tol = Ok m /\ Forall2 (placed tol (l_x m)) (filter (fun bb => long (snd bb)) (combine ((0, 1)%nat :: bs) branches)) idxs /\
  l_cells m = flat_map consecutive idxs /\ Forall2 (near tol nodes) ((0, 1)%nat :: bs) branches /\ l_x m = nodes ++ more.
Proof.
  intros T NE F. destruct branches as [|branch rest]; [congruence|]. apply Forall_cons_iff in F. destruct F as [F1 F]. unfold line_mesh. rewrite (endpoints_ok branch F1). cbn [bind fst snd nth tl]. set (p := nth 0 branch []). set (q := nth (length branch - 1) branch []).
  destruct (bounds_spec tol rest T F [p; q] ltac:(discriminate)) as [bs [nodes [-> [[more EN] [FN LN]]]]]. cbn [bind fst snd].
  assert (FI : S (list_max (map (fun b => Nat.max (fst b) (snd b)) ((0, 1)%nat :: bs))) = length nodes). { rewrite LN. cbn [map fst snd length]. change (list_max (Nat.max 0 1 :: map (fun b => Nat.max (fst b) (snd b)) bs)) with (Nat.max (Nat.max 0 1) (list_max (map (fun b => Nat.max (fst b) (snd b)) bs))). lia. }
  rewrite FI. assert (N : Forall2 (near tol nodes) ((0, 1)%nat :: bs) (branch :: rest)). { constructor; [|exact FN]. rewrite EN. apply near_more. unfold near. cbn [fst snd nth length]. fold p q. rewrite !dist_refl. repeat split; try lia; exact T. }
  destruct (fill_spec tol ((0, 1)%nat :: bs) (branch :: rest) T ltac:(clear - N; induction N; constructor; auto) nodes [] N) as [idxs [A [B [more' C]]]]. destruct (fill (combine ((0, 1)%nat :: bs) (branch :: rest)) (length nodes) nodes []) as [x cells]. cbn [fst snd] in A, B, C.
  exists bs, nodes, idxs, {| l_x := x; l_cells := cells |}, more'. split; [reflexivity|]. split; [reflexivity|]. split; [exact A|]. split; [exact B|]. split; [exact N|exact C].
Qed.
Lemma line_mesh_spec tol branches : 0 <= tol -> branches <> [] -> Forall (fun b => b <> []) branches -> exists m, line_mesh branches tol = Ok m /\ represents tol m (filter long branches).
Proof.
  intros T NE F. destruct (line_mesh_places tol branches T NE F) as [bs [nodes [idxs [m [more [_ [E [P [C [N _]]]]]]]]]]. exists m. split; [exact E|]. exists idxs. split; [|exact C]. rewrite <- (filter_combine ((0, 1)%nat :: bs)) by exact (near_length _ _ _ _ N). apply placed_follows, P.
Qed.
Lemma represents_count tol m branches : represents tol m branches -> length (l_cells m) = list_sum (map (fun b => length b - 1)%nat branches).
Proof.
  intros [idxs [F E]]. rewrite E. clear E. induction F as [|b idx bs idxs [L _] F IH]; [reflexivity|]. cbn [flat_map map]. rewrite app_length, IH. unfold consecutive at 1. rewrite map_length, seq_length, L. reflexivity.
Qed.

(** ** End points which are apart *)
Definition branch_ends (branch : list (list R)) : list (list R) := [nth 0 branch []; nth (length branch - 1) branch []].
Definition apart (tol : R) (branches : list (list (list R))) : Prop :=
  forall p q, In p (flat_map branch_ends branches) -> In q (flat_map branch_ends branches) -> p = q \/ tol < dist p q.
Definition end_vertices (bi : list (list R) * list nat) : list (list R * nat) :=
  [(nth 0 (fst bi) [], nth 0 (snd bi) 0%nat); (nth (length (fst bi) - 1) (fst bi) [], nth (length (snd bi) - 1) (snd bi) 0%nat)].

Definition exact (x : list (list R)) (b : nat * nat) (branch : list (list R)) : Prop :=
  (fst b < length x)%nat /\ (snd b < length x)%nat /\ nth (fst b) x [] = nth 0 branch [] /\ nth (snd b) x [] = nth (length branch - 1) branch [].
Lemma exact_more x more b branch : exact x b branch -> exact (x ++ more) b branch.
Proof. intros [A [B [C D]]]. unfold exact. rewrite app_length, !app_nth1 by assumption. repeat split; try lia; assumption. Qed.
Lemma place_exact tol (E : list R -> Prop) nodes p f nodes' : 0 <= tol -> (forall a b, E a -> E b -> a = b \/ tol < dist a b) -> Forall E nodes -> E p -> nodes <> [] -> place tol nodes p = Ok (f, nodes') ->
  (exists more, nodes' = nodes ++ more) /\ nodes' <> [] /\ (f < length nodes')%nat /\ nth f nodes' [] = p /\ Forall E nodes' /\ (NoDup nodes -> NoDup nodes').
Proof.
  intros T S F P NE H. unfold place in H. destruct (argmin_spec (map (fun q => rnorm (rsub q p)) nodes)) as [g [E1 [L M]]]; [destruct nodes; [congruence|discriminate]|]. rewrite E1 in H. cbn [bind] in H. rewrite map_length in L, M. rewrite at_map in H by exact L. rewrite rnorm_dist in H. destruct (Rlt_dec tol (dist (nth g nodes []) p)) as [G|G]; injection H as <- <-.
  - split; [exists [p]; reflexivity|]. split; [destruct nodes; discriminate|]. split; [rewrite app_length; cbn; lia|]. split; [rewrite app_nth2, Nat.sub_diag by lia; reflexivity|]. split; [apply Forall_app; split; [exact F|constructor; [exact P|constructor]]|]. intros ND. apply NoDup_snoc; split; [exact ND|]. intros I. apply (In_nth _ _ []) in I. destruct I as [k [K EK]]. specialize (M k K). rewrite !at_map, !rnorm_dist, EK, dist_refl in M by assumption. lra.
  - split; [exists []; rewrite app_nil_r; reflexivity|]. split; [exact NE|]. split; [exact L|]. split; [|split; [exact F|auto]]. destruct (S (nth g nodes []) p) as [Q|Q]; [rewrite Forall_forall in F; apply F, nth_In, L|exact P|exact Q|contradiction].
Qed.
Lemma bounds_exact tol (E : list R -> Prop) branches : 0 <= tol -> (forall a b, E a -> E b -> a = b \/ tol < dist a b) -> Forall (fun b => b <> []) branches -> (forall p, In p (flat_map branch_ends branches) -> E p) -> forall nodes bs nodes', nodes <> [] -> Forall E nodes -> bounds tol nodes branches = Ok (bs, nodes') ->
  (exists more, nodes' = nodes ++ more) /\ Forall2 (exact nodes') bs branches /\ (NoDup nodes -> NoDup nodes').
Proof.
  intros T S F. induction F as [|branch rest NB F IH]; intros IE nodes bs nodes' NE FE H; cbn [bounds] in H.
  - injection H as <- <-. split; [exists []; rewrite app_nil_r; reflexivity|]. split; [constructor|auto].
  - rewrite (endpoints_ok branch NB) in H. cbn [bind fst snd] in H. destruct (place tol nodes (nth 0 branch [])) as [[f n1]|e] eqn:P1; [|discriminate H]. cbn [bind fst snd] in H. destruct (place_exact tol E nodes (nth 0 branch []) f n1 T S FE ltac:(apply IE; cbn; auto) NE P1) as [[m1 E1] [NE1 [L1 [A1 [F1 D1]]]]]. destruct (place tol n1 (nth (length branch - 1) branch [])) as [[l n2]|e] eqn:P2; [|discriminate H]. cbn [bind fst snd] in H. destruct (place_exact tol E n1 (nth (length branch - 1) branch []) l n2 T S F1 ltac:(apply IE; cbn; auto) NE1 P2) as [[m2 E2] [NE2 [L2 [A2 [F2 D2]]]]]. destruct (bounds tol n2 rest) as [[bs' n3]|e] eqn:B; [|discriminate H]. cbn [bind fst snd] in H. injection H as <- <-.
    destruct (IH ltac:(intros p I; apply IE; cbn; auto) n2 bs' n3 NE2 F2 B) as [[m3 E3] [X D3]]. split; [exists (m1 ++ m2 ++ m3); rewrite E3, E2, E1, !app_assoc; reflexivity|]. split; [|auto]. constructor; [|exact X]. rewrite E3. apply exact_more. unfold exact. cbn [fst snd]. split; [rewrite E2, app_length; lia|]. split; [exact L2|]. split; [rewrite E2, app_nth1 by exact L1; exact A1|exact A2].
Qed.
Lemma Forall2_combine {A B} (P : A -> B -> Prop) l l' : Forall2 P l l' -> forall a b, In (a, b) (combine l l') -> P a b.
Proof. induction 1 as [|x y l l' H F IH]; intros a b I; [destruct I|]. cbn [combine] in I. destruct I as [I|I]; [injection I as <- <-; exact H|exact (IH a b I)]. Qed.
Lemma ends_exact nodes bbs idxs x tol : Forall (fun bb => exact nodes (fst bb) (snd bb)) bbs -> Forall2 (placed tol x) bbs idxs -> forall v, In v (flat_map end_vertices (combine (map snd bbs) idxs)) -> (snd v < length nodes)%nat /\ nth (snd v) nodes [] = fst v.
Proof.
  intros F P. revert F. induction P as [|bb idx bbs idxs [[L _] [A B]] P IH]; intros F v I; [destruct I|]. apply Forall_cons_iff in F. destruct F as [[X1 [X2 [X3 X4]]] F]. cbn [map combine flat_map] in I. apply in_app_iff in I. destruct I as [I|I]; [|exact (IH F v I)]. cbn [end_vertices fst snd] in I. destruct I as [<- |[<- |[]]]; cbn [fst snd]; [rewrite A|rewrite L, B]; split; assumption.
Qed.
Lemma nodup_index {A} (l : list A) d i j : NoDup l -> (i < length l)%nat -> (j < length l)%nat -> (nth i l d = nth j l d <-> i = j).
Proof. intros N I J. split; [intros E; exact (proj1 (NoDup_nth l d) N i j I J E)|intros ->; reflexivity]. Qed.
Lemma junctions tol branches : 0 <= tol -> branches <> [] -> Forall (fun b => b <> []) branches -> apart tol branches -> nth 0 (nth 0 branches []) [] <> nth (length (nth 0 branches []) - 1) (nth 0 branches []) [] ->
  exists m idxs, line_mesh branches tol = Ok m /\ Forall2 (follows tol (l_x m)) (filter long branches) idxs /\ l_cells m = flat_map consecutive idxs /\
  (forall v, In v (flat_map end_vertices (combine (filter long branches) idxs)) -> nth (snd v) (l_x m) [] = fst v) /\
  (forall v w, In v (flat_map end_vertices (combine (filter long branches) idxs)) -> In w (flat_map end_vertices (combine (filter long branches) idxs)) -> (fst v = fst w <-> snd v = snd w)).
Proof.
  intros T NE F AP D. destruct (line_mesh_places tol branches T NE F) as [bs [nodes [idxs [m [more [B [E [P [C [N X]]]]]]]]]]. exists m, idxs. rewrite <- (filter_combine ((0, 1)%nat :: bs)) by exact (near_length _ _ _ _ N). split; [exact E|]. split; [apply placed_follows, P|]. split; [exact C|].
  destruct branches as [|branch rest]; [congruence|]. apply Forall_cons_iff in F. destruct F as [F1 F]. cbn [nth tl] in B, D. set (p := nth 0 branch []) in *. set (q := nth (length branch - 1) branch []) in *.
  destruct (bounds_exact tol (fun r => In r (flat_map branch_ends (branch :: rest))) rest T AP F ltac:(intros r I; apply in_app_iff; right; exact I) [p; q] bs nodes ltac:(discriminate) ltac:(constructor; [left; reflexivity|constructor; [right; left; reflexivity|constructor]]) B) as [[more1 EN] [FX ND]].
  assert (FE : Forall2 (exact nodes) ((0, 1)%nat :: bs) (branch :: rest)). { constructor; [|exact FX]. rewrite EN. apply exact_more. unfold exact. cbn [fst snd nth length]. repeat split; lia. }
  assert (NDN : NoDup nodes). { apply ND. constructor; [intros [I|[]]; congruence|]. constructor; [intros []|constructor]. }
  assert (FB : Forall (fun bb => exact nodes (fst bb) (snd bb)) (filter (fun bb => long (snd bb)) (combine ((0, 1)%nat :: bs) (branch :: rest)))). { apply Forall_forall. intros [b br] I. apply filter_In in I. destruct I as [I _]. exact (Forall2_combine _ _ _ FE b br I). }
  pose proof (ends_exact nodes _ _ _ _ FB P) as EX. split.
  - intros v I. destruct (EX v I) as [L1 L2]. rewrite X, app_nth1 by exact L1. exact L2.
  - intros v w I J. destruct (EX v I) as [L1 L2]. destruct (EX w J) as [L3 L4]. rewrite <- L2, <- L4. apply nodup_index; assumption.
Qed.

(** ** One branch *)
Lemma line_mesh_one_tol branch tol tol' : line_mesh [branch] tol = line_mesh [branch] tol'.
Proof. reflexivity. Qed.
Lemma linspace_length n : length (linspace n) = n.
Proof. unfold linspace. rewrite map_length, seq_length. reflexivity. Qed.
Lemma line_length A B n : length (line A B n) = n.
Proof. unfold line. rewrite map_length. destruct n as [|[|n]]; [reflexivity|reflexivity|apply linspace_length]. Qed.
Lemma radd_length a : forall b, length a = length b -> length (radd a b) = length a.
Proof. unfold radd. induction a as [|x a IH]; intros [|y b] L; try discriminate L; [reflexivity|]. injection L as L. cbn. f_equal. apply IH, L. Qed.
Lemma line_nth A B n j : (1 <= n)%nat -> (j <= n)%nat -> nth j (line A B (S n)) [] = radd A (rscale (INR j / INR n) (rsub B A)).
Proof.
  intros N J. unfold line, linspace. destruct n as [|n]; [lia|]. replace (S (S n) - 1)%nat with (S n) by lia. rewrite (nth_indep _ [] (radd A (rscale 0 (rsub B A)))) by (rewrite map_length, map_length, seq_length; lia). rewrite (map_nth (fun t => radd A (rscale t (rsub B A)))). f_equal. f_equal. rewrite (nth_indep _ 0 (INR 0 / INR (S n))) by (rewrite map_length, seq_length; lia). rewrite (map_nth (fun i => INR i / INR (S n))). rewrite seq_nth by lia. reflexivity.
Qed.
Lemma on_line A B t i : length A = length B -> nth i (radd A (rscale t (rsub B A))) 0 = nth i A 0 + t * (nth i B 0 - nth i A 0).
Proof. revert B i. induction A as [|a A IH]; intros [|b B] i L; try discriminate L; [destruct i; cbn; ring|]. injection L as L. destruct i; [cbn; ring|]. cbn. apply IH, L. Qed.
Lemma on_line_length A B t : length A = length B -> length (radd A (rscale t (rsub B A))) = length A.
Proof. revert B. induction A as [|a A IH]; intros [|b B] L; try discriminate L; [reflexivity|]. injection L as L. cbn. f_equal. apply IH, L. Qed.
