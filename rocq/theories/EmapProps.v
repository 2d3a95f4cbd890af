(** The map of an embedded mesh into its parent (property C47). *)
From Verif Require Import EmapModel EmapProofs GmshProofs GeomProofs BaseProofs UnionProofs LineProofs.
From Coq Require Import Psatz.
Local Open Scope R_scope.

(** ** C47 *)
(** Whatever the search returns is right, for segments and triangles, any
    locator and any tolerance.  That the candidates are started again when
    none is left does no harm, since a vertex is in two entities at least *)
Theorem C47_partial : forall (emesh : embedded) (mesh : parent) (locate : list R -> list nat) (subs : option (nat * list nat)) (tags : option (list nat)) (tol : R) (n : nat) (vmap emap : list (nat * nat)),
  s_extract emesh = None -> branching mesh -> Forall (fun vs => length vs <= 3)%nat (s_cells emesh) -> (1 <= n)%nat -> Forall (fun p => length p = n) (s_x emesh) ->
  build_embedding_map emesh mesh locate subs tags tol = Ok (vmap, emap) ->
  exists s, widest (s_x emesh) s /\ embedding emesh mesh (selected emesh subs tags) (tol * s) vmap emap.
Proof.
  intros emesh mesh locate subs tags tol n vmap emap EX BR L N DIM. unfold build_embedding_map. destruct (s_dim emesh <? p_tdim mesh)%nat; cbn [py_assert bind]; [|discriminate]. destruct (match subs with None => true | Some (d, _) => (d =? s_dim emesh)%nat end); cbn [py_assert bind]; [|discriminate].
  destruct (match subs with None => do _ <- py_assert match tags with None => true | Some _ => false end; Ok (repeat 0%nat (length (s_cells emesh))) | Some (_, values) => Ok values end) as [values|] eqn:V; cbn [bind]; [|discriminate]. rewrite EX.
  assert (HV : match subs with None => values = repeat 0%nat (length (s_cells emesh)) | Some (_, v) => values = v end) by (destruct subs as [[d v]|]; [congruence|]; destruct tags; cbn in V; [discriminate V|congruence]).
  destruct (s_x emesh) as [|p x] eqn:X; [cbn; discriminate|]. rewrite <- X in *. assert (NE : s_x emesh <> []) by (rewrite X; discriminate).
  destruct (scale_spec n (s_x emesh) N NE DIM) as [s [SE W]]. rewrite SE. cbn [bind]. destruct (map_cells _ _ _ _ _ _ _ _) as [r|] eqn:M; cbn [bind]; [|discriminate]. intros E. destruct (py_assert _) as [u|] in E; cbn [bind] in E; [|discriminate E]. injection E as <- <-. exists s. split; [exact W|]. exact (search_sound emesh mesh locate subs tags values tol s r BR (widest_nonneg _ _ NE W) L HV M).
Qed.
Print Assumptions C47_partial.
(** It returns for the cells with some tags of every mesh made of entities of the
    parent, and without tags if there are at least two cells, none tagged and no
    vertex without cell; cells go to their entities *)
Theorem C47_returns : forall (emesh : embedded) (mesh : parent) (locate : list R -> list nat) (subs : option (nat * list nat)) (tags : option (list nat)) (tol s : R) (n : nat) (pv pe : nat -> nat),
  s_extract emesh = None -> branching mesh -> (s_dim emesh < p_tdim mesh)%nat -> Forall (fun vs => length vs <= 3)%nat (s_cells emesh) -> (1 <= n)%nat -> Forall (fun p => length p = n) (s_x emesh) ->
  widest (s_x emesh) s -> 0 < s -> wf_parent mesh (tol * s) -> made_of emesh mesh locate (tol * s) (selected emesh subs tags) pv pe ->
  (forall d values, subs = Some (d, values) -> d = s_dim emesh) -> (subs = None -> tags = None) ->
  (tags = None -> (2 <= length (s_cells emesh))%nat /\ (forall i, (i < length (s_cells emesh))%nat -> selected emesh subs tags i) /\ forall v, (v < length (s_x emesh))%nat -> exists c, In c (s_cells emesh) /\ In v c) ->
  exists vmap emap, build_embedding_map emesh mesh locate subs tags tol = Ok (vmap, emap) /\ (forall v w, In (v, w) vmap -> w = pv v) /\ (forall i e, In (i, e) emap -> e = pe i) /\ dictionary emap (selected emesh subs tags).
Proof.
  intros emesh mesh locate subs tags tol s n pv pe EX BR DM L N DIM W S WF MO SD ST AL.
  assert (NE : s_x emesh <> []) by (destruct W as [_ [p [q [k [P _]]]]]; intros E; rewrite E in P; destruct P).
  destruct (scale_spec n (s_x emesh) N NE DIM) as [s' [SE W']]. assert (s' = s) as -> by (destruct W as [U [p [q [k [P [Q E]]]]]], W' as [U' [p' [q' [k' [P' [Q' E']]]]]]; specialize (U p' q' k' P' Q'); specialize (U' p q k P Q); lra).
  set (values := match subs with None => repeat 0%nat (length (s_cells emesh)) | Some (_, v) => v end).
  assert (HV : match subs with None => values = repeat 0%nat (length (s_cells emesh)) | Some (_, v) => values = v end) by (unfold values; destruct subs as [[d v]|]; reflexivity).
  destruct (map_returns emesh mesh locate tol s (selected emesh subs tags) pv pe S WF MO (tagged_cells values (s_cells emesh) match tags with None => [0%nat] | Some l => l end)) with (st := @nil (nat * (nat * list nat))) (emap := @nil (nat * nat)) as [r M].
  { intros i vs I. split; [apply (selected_tagged emesh subs tags values HV); exists vs; exact I|exact (tagged_cell _ _ _ _ _ I)]. }
  { intros v w mc []. }
  pose proof (search_sound emesh mesh locate subs tags values tol s r BR (Rlt_le _ _ S) L HV M) as EM. pose proof EM as [[EN EK] [[VN VK] [VD EC]]].
  set (vmap := map _ (fst r)) in *. exists vmap, (snd r). split; [|split; [|split; [|split; assumption]]].
  - unfold build_embedding_map. assert (LT : (s_dim emesh <? p_tdim mesh)%nat = true) by (apply Nat.ltb_lt; exact DM). rewrite LT. cbn [py_assert bind].
    assert (SUB : match subs with None => true | Some (d, _) => (d =? s_dim emesh)%nat end = true) by (destruct subs as [[d v]|]; [rewrite (SD d v eq_refl); apply Nat.eqb_refl|reflexivity]). rewrite SUB. cbn [py_assert bind].
    assert (VE : match subs with None => do _ <- py_assert match tags with None => true | Some _ => false end; Ok (repeat 0%nat (length (s_cells emesh))) | Some (_, v) => Ok v end = Ok values) by (unfold values; destruct subs as [[d v]|]; [reflexivity|]; rewrite (ST eq_refl); reflexivity). rewrite VE. cbn [bind]. rewrite EX, SE. cbn [bind]. rewrite M. cbn [bind]. fold vmap.
    destruct tags as [l|]; [reflexivity|]. destruct (AL eq_refl) as [C2 [AS AV]].
    assert (KE : forall i, In i (map fst (snd r)) <-> (i < length (s_cells emesh))%nat) by (intros i; rewrite EK; split; [intros [H _]; exact H|apply AS]).
    assert (KV : forall v, In v (map fst vmap) <-> (v < length (s_x emesh))%nat). { intros v. rewrite VK. split; [intros [i [SI VI]]; destruct (MO i SI) as [_ [_ [_ H]]]; exact (proj1 (H v VI))|]. intros VL. destruct (AV v VL) as [c [C VC]]. apply (In_nth _ _ []) in C. destruct C as [i [IL <-]]. exists i. split; [apply AS; exact IL|exact VC]. }
    destruct (keys_seq _ _ EN KE) as [E1 E2]. destruct (keys_seq _ _ VN KV) as [V1 V2]. rewrite map_length in E1, V1. rewrite E1, V1, E2, V2, !Nat.eqb_refl.
    assert (X2 : (2 <= length (s_x emesh))%nat). { destruct W as [_ [p [q [k [P [Q E]]]]]]. destruct (s_x emesh) as [|a [|b x]]; [congruence| |cbn; lia]. destruct P as [<- |[]], Q as [<- |[]]. lra. }
    apply Nat.leb_le in C2, X2. rewrite C2, X2. reflexivity.
  - intros v w I. assert (VI : In v (map fst vmap)) by (apply in_map_iff; exists (v, w); auto). apply VK in VI. destruct VI as [i [SI VI]]. destruct (VD v w I) as [D [c C]]. destruct (MO i SI) as [PE [_ [SS H]]]. destruct (H v VI) as [_ [D' [LN _]]]. destruct WF as [W1 [W2 [W3 _]]]. destruct (Nat.eq_dec w (pv v)) as [|NQ]; [assumption|]. exfalso.
    assert (PVL : (pv v < length (p_x mesh))%nat). { destruct (W3 _ PE) as [c' [_ IC]]. apply (W1 c'), IC, SS, in_map, VI. }
    destruct (W2 w (pv v) (W1 c w C) PVL NQ) as [L1 L2]. pose proof (dist_triangle (nth w (p_x mesh) []) (nth v (s_x emesh) []) (nth (pv v) (p_x mesh) []) ltac:(congruence) LN) as T. rewrite (dist_sym (nth w (p_x mesh) []) (nth v (s_x emesh) [])) in T by congruence. lra.
  - intros i e I. assert (SI : selected emesh subs tags i) by (apply EK, in_map_iff; exists (i, e); auto). destruct (MO i SI) as [PE [_ [SS H]]]. symmetry. destruct WF as [W1 [W2 [W3 W4]]]. apply W4; [|exact PE]. intros w' IW. apply SS, in_map_iff in IW. destruct IW as [v [<- VI]].
    assert (VM : In v (map fst vmap)) by (apply VK; exists i; auto). apply in_map_iff in VM. destruct VM as [[v' w] [E' IV]]. cbn in E'. subst v'. assert (w = pv v) as <-; [|exact (EC i e v w I VI IV)].
    destruct (VD v w IV) as [D [c C]]. destruct (H v VI) as [_ [D' [LN _]]]. destruct (Nat.eq_dec w (pv v)) as [|NQ]; [assumption|]. exfalso.
    assert (PVL : (pv v < length (p_x mesh))%nat). { destruct (W3 _ PE) as [c' [_ IC]]. apply (W1 c'), IC, SS, in_map, VI. }
    destruct (W2 w (pv v) (W1 c w C) PVL NQ) as [L1 L2]. pose proof (dist_triangle (nth w (p_x mesh) []) (nth v (s_x emesh) []) (nth (pv v) (p_x mesh) []) ltac:(congruence) LN) as T. rewrite (dist_sym (nth w (p_x mesh) []) (nth v (s_x emesh) [])) in T by congruence. lra.
Qed.
Print Assumptions C47_returns.
(** Without tags no mesh of one cell is ever mapped: the check of the keys fails *)
Theorem C47_one_cell_refuted : forall (emesh : embedded) (mesh : parent) (locate : list R -> list nat) (subs : option (nat * list nat)) (tol : R) (c : list nat) (r : list (nat * nat) * list (nat * nat)),
  s_extract emesh = None -> s_cells emesh = [c] -> build_embedding_map emesh mesh locate subs None tol <> Ok r.
Proof.
  intros emesh mesh locate subs tol c r EX CE. unfold build_embedding_map. rewrite EX, CE. intros E.
  destruct (py_assert (s_dim emesh <? p_tdim mesh)%nat); cbn [bind] in E; [|discriminate]. destruct (py_assert match subs with None => true | Some (d, _) => (d =? s_dim emesh)%nat end); cbn [bind] in E; [|discriminate].
  destruct (match subs with None => do _ <- py_assert true; Ok (repeat 0%nat (length [c])) | Some (_, values) => Ok values end) as [values|]; cbn [bind] in E; [|discriminate]. destruct (scale (s_x emesh)) as [s|]; cbn [bind] in E; [|discriminate].
  assert (TC : tagged_cells values [c] [0%nat] = [] \/ tagged_cells values [c] [0%nat] = [(0%nat, c)]). { unfold tagged_cells. cbn [flat_map length seq combine]. destruct values as [|t values]; cbn [combine filter map]; [auto|]. destruct values; cbn [combine filter fst]; destruct (t =? 0)%nat; cbn; auto. }
  destruct TC as [TC|TC]; rewrite TC in E; cbn [map_cells bind] in E.
  - cbn [snd fst map length negb orb andb] in E. rewrite !Bool.andb_false_r in E. discriminate E.
  - destruct (cell_entity mesh locate (s_x emesh) tol s [] [] c) as [[st ent]|]; cbn [bind snd fst] in E; [|discriminate]. destruct ent as [|e [|]]; cbn [bind] in E; try discriminate. cbn [snd fst dset map] in E. change (is_1_sequence [0%nat]) with false in E. rewrite Bool.andb_false_r in E. discriminate E.
Qed.
Print Assumptions C47_one_cell_refuted.
(** The arrays that an embedded mesh carries are handed on *)
Theorem C47_extracted : forall (emesh : embedded) (mesh : parent) (locate : list R -> list nat) (tol : R) (vs cs : list nat), (s_dim emesh < p_tdim mesh)%nat -> s_extract emesh = Some (vs, cs) ->
  exists vmap emap, build_embedding_map emesh mesh locate None None tol = Ok (vmap, emap) /\ (forall v w, In (v, w) vmap <-> nth_error vs v = Some w) /\ forall i e, In (i, e) emap <-> nth_error cs i = Some e.
Proof.
  intros emesh mesh locate tol vs cs D EX. unfold build_embedding_map. apply Nat.ltb_lt in D. rewrite D. cbn [py_assert bind]. rewrite EX. eexists. eexists. split; [reflexivity|].
  assert (X : forall (l : list nat) a v w, In (v, w) (combine (seq a (length l)) l) <-> (a <= v)%nat /\ nth_error l (v - a) = Some w).
  { induction l as [|b l IH]; intros a v w; cbn; [split; [tauto|]; intros [_ H]; destruct (v - a)%nat; discriminate H|]. rewrite IH. split.
    - intros [E|[L H]]; [injection E as -> ->; rewrite Nat.sub_diag; auto|]. replace (v - a)%nat with (S (v - S a)) by lia. split; [lia|exact H].
    - intros [L H]. destruct (Nat.eq_dec v a) as [-> |N]; [rewrite Nat.sub_diag in H; cbn in H; left; congruence|]. replace (v - a)%nat with (S (v - S a)) in H by lia. right. split; [lia|exact H]. }
  split; intros v w; rewrite X, Nat.sub_0_r; (split; [intros [_ H]; exact H|intros H; split; [lia|exact H]]).
Qed.
Print Assumptions C47_extracted.
(** Meshes of the same dimension, subdomains not on cells and tags without subdomains are rejected *)
Theorem C47_rejects : forall (emesh : embedded) (mesh : parent) (locate : list R -> list nat) (subs : option (nat * list nat)) (tags : option (list nat)) (tol : R),
  (p_tdim mesh <= s_dim emesh)%nat \/ (exists d values, subs = Some (d, values) /\ d <> s_dim emesh) \/ (subs = None /\ tags <> None) -> build_embedding_map emesh mesh locate subs tags tol = Err AssertionError.
Proof.
  intros emesh mesh locate subs tags tol H. unfold build_embedding_map. destruct (Nat.ltb_spec (s_dim emesh) (p_tdim mesh)) as [L|L]; cbn [py_assert bind]; [|reflexivity]. destruct H as [H|[[d [values [-> H]]]|[-> H]]]; [lia| |destruct tags; [reflexivity|congruence]].
  destruct (Nat.eqb_spec d (s_dim emesh)); [contradiction|reflexivity].
Qed.
Print Assumptions C47_rejects.
(** Two edges of a square of two triangles *)
Definition square : parent := {| p_tdim := 2; p_x := [[0; 0]; [1; 0]; [0; 1]; [1; 1]]; p_c2v := [[0; 1; 2]; [1; 3; 2]]%nat; p_c2e := [[0; 1; 2]; [3; 0; 4]]%nat; p_e2v := [[1; 2]; [0; 2]; [0; 1]; [2; 3]; [1; 3]]%nat |}.
Definition corner : embedded := {| s_dim := 1; s_x := [[0; 0]; [1; 0]; [1; 1]]; s_cells := [[0; 1]; [1; 2]]%nat; s_extract := None |}.
Definition square_locate (p : list R) : list nat :=
  if Req_EM_T (nth 0 p 0) 0 then (if Req_EM_T (nth 1 p 0) 0 then [0%nat] else [0%nat; 1%nat]) else (if Req_EM_T (nth 1 p 0) 0 then [0%nat; 1%nat] else [1%nat]).
Definition corner_pv (v : nat) : nat := nth v [0; 1; 3]%nat 0%nat.
Definition corner_pe (i : nat) : nat := nth i [2; 4]%nat 0%nat.
Lemma far (p q : list R) : 1 <= sq_dist p q -> 2 * (1 / 10 * 1) <= dist p q.
Proof. intros H. unfold dist. assert (sqrt 1 <= sqrt (sq_dist p q)) by (apply sqrt_le_1; lra). rewrite sqrt_1 in H0. lra. Qed.
Example C47_example : branching square /\ widest (s_x corner) 1 /\ wf_parent square (1 / 10 * 1) /\ made_of corner square square_locate (1 / 10 * 1) (selected corner None None) corner_pv corner_pe /\
  (forall i, (i < 2)%nat -> selected corner None None i) /\ forall v, (v < 3)%nat -> exists c, In c (s_cells corner) /\ In v c.
Proof.
  assert (DR : forall p, dist p p < 1 / 10 * 1) by (intros p; rewrite dist_refl; lra).
  split; [|split; [|split; [|split; [|split]]]].
  - intros c w H. destruct c as [|[|c]]; cbn [p_c2v square nth] in H; [| |destruct c; destruct H]; destruct H as [<- |[<- |[<- |[]]]].
    + exists 1%nat, 2%nat. cbn. intuition lia.
    + exists 0%nat, 2%nat. cbn. intuition lia.
    + exists 0%nat, 1%nat. cbn. intuition lia.
    + exists 0%nat, 4%nat. cbn. intuition lia.
    + exists 3%nat, 4%nat. cbn. intuition lia.
    + exists 3%nat, 0%nat. cbn. intuition lia.
  - split.
    + intros p q k P Q. cbn [s_x corner In] in P, Q. destruct P as [<- |[<- |[<- |[]]]], Q as [<- |[<- |[<- |[]]]]; destruct k as [|[|[|k]]]; cbn; lra.
    + exists [1; 0], [0; 0], 0%nat. cbn. split; [auto|]. split; [auto|]. lra.
  - split; [|split; [|split]].
    + intros c w H. destruct c as [|[|c]]; cbn [p_c2v square nth] in H; [| |destruct c; destruct H]; destruct H as [<- |[<- |[<- |[]]]]; cbn; lia.
    + intros w w' H H' N. cbn in H, H'. destruct w as [|[|[|[|w]]]]; destruct w' as [|[|[|[|w']]]]; try lia; (split; [reflexivity|]); apply far; cbn; lra.
    + intros e E. cbn in E. destruct e as [|[|[|[|[|e]]]]]; [exists 0%nat|exists 0%nat|exists 0%nat|exists 1%nat|exists 1%nat|lia]; cbn; (split; [tauto|]); intros v V; cbn in *; tauto.
    + intros e e' I E. cbn in E. assert (Z : forall v, In v (nth e (p_e2v square) []) -> In v (nth e' (p_e2v square) [])) by exact I. destruct e as [|[|[|[|[|e]]]]]; try lia; destruct e' as [|[|[|[|[|e']]]]]; try reflexivity; exfalso; pose proof (Z 0%nat) as Z0; pose proof (Z 1%nat) as Z1; pose proof (Z 2%nat) as Z2; pose proof (Z 3%nat) as Z3; cbn in Z0, Z1, Z2, Z3; try (destruct e'); cbn in *; first [destruct (Z0 ltac:(auto)); lia | destruct (Z1 ltac:(auto)); lia | destruct (Z2 ltac:(auto)); lia | destruct (Z3 ltac:(auto)); lia | lia].
  - intros i [L _]. cbn in L. assert (Q0 : square_locate [0; 0] = [0%nat]) by (unfold square_locate; cbn [nth]; destruct (Req_EM_T 0 0); [reflexivity|lra]).
    assert (Q1 : square_locate [1; 0] = [0; 1]%nat) by (unfold square_locate; cbn [nth]; destruct (Req_EM_T 1 0); [lra|]; destruct (Req_EM_T 0 0); [reflexivity|lra]).
    assert (Q2 : square_locate [1; 1] = [1]%nat) by (unfold square_locate; cbn [nth]; destruct (Req_EM_T 1 0); [lra|]; reflexivity).
    assert (C : forall v, In v [0; 1; 2]%nat -> (v < length (s_x corner))%nat /\ dist (nth v (s_x corner) []) (nth (corner_pv v) (p_x square) []) < 1 / 10 * 1 /\ length (nth v (s_x corner) []) = length (nth (corner_pv v) (p_x square) []) /\ forall c, In c (square_locate (nth v (s_x corner) [])) <-> In (corner_pv v) (nth c (p_c2v square) [])).
    { intros v [<- |[<- |[<- |[]]]]; cbn [corner_pv nth s_x p_x corner square p_c2v]; rewrite ?Q0, ?Q1, ?Q2; (split; [cbn; lia|]); (split; [apply DR|]); (split; [reflexivity|]); intros c; destruct c as [|[|c]]; cbn; try (destruct c; cbn); lia. }
    destruct i as [|[|i]]; [| |lia]; cbn [s_cells corner nth corner_pe p_e2v square length]; (split; [lia|]); (split; [discriminate|]); (split; [intros w; cbn; tauto|]); intros v V; apply C; cbn in *; tauto.
  - intros i L. split; [exact L|]. exists 0%nat. cbn. auto.
  - intros v L. destruct v as [|[|[|v]]]; [exists [0; 1]%nat|exists [0; 1]%nat|exists [1; 2]%nat|lia]; cbn; auto.
Qed.
