(** Meshes from gmsh data (property C46). *)
From Verif Require Import GmshModel GmshProofs GeomProofs BaseProofs UnionProofs.
From Coq Require Import Psatz.
Local Open Scope R_scope.

(** ** C46 *)
(** Whatever is returned is right: lines or triangles, those of the largest
    dimension given, with the points of the nodes (of which only z below the
    tolerance is dropped) and, if all are positive, the tags *)
Theorem C46_partial : forall (edges : list (list nat) -> list (list nat)) (nodes : list (list R)) (data : list (nat * elements)) (TOL : R) (m : gmesh) (fs : list (nat * list nat)),
  proper data -> Forall (fun p => length p = 3%nat) nodes -> mesh_from_gmsh edges nodes data TOL = Ok (m, fs) ->
  exists elm d, In (elm, d) data /\ (elm = 1%nat \/ elm = 2%nat) /\ g_tdim m = elm /\ (elm = 1%nat -> forall e, In e (map fst data) -> e <> 2%nat /\ e <> 4%nat) /\
  has_elements nodes (e_rows d) m /\ (g_gdim m = 3%nat \/ g_gdim m = 2%nat /\ forall row v, In row (e_rows d) -> In v row -> Rabs (nth 2 (nth v nodes []) 0) < TOL).
Proof.
  intros edges nodes data TOL m fs PR N3 H. destruct (mesh_sound edges nodes data TOL m fs PR N3 H) as [elm [d [n [ID [_ [_ [EL [GT [MX [HN [_ [_ [_ [HE [GG _]]]]]]]]]]]]]]]. exists elm, d. split; [exact ID|]. split; [exact EL|]. split; [exact GT|]. split; [intros -> e E; specialize (MX e E); split; intros ->; cbn in MX; lia|]. split; [exact HE|]. destruct GG as [[G Z]|G]; [right|left; exact G]. split; [exact G|]. intros row v R V. apply Z, HN, in_concat. exists row. split; assumption.
Qed.
Print Assumptions C46_partial.
(** It returns for lines or triangles that use the nodes 0, ..., n-1, the lines
    on a mesh of triangles being edges of it, with the tags in the functions *)
Theorem C46_returns : forall (edges : list (list nat) -> list (list nat)) (nodes : list (list R)) (data : list (nat * elements)) (TOL : R) (elm : nat) (d : elements), proper data -> NoDup (map fst data) ->
  In (elm, d) data -> (forall e, In e (map fst data) -> (e = 1 \/ e = 2)%nat /\ (e <= elm)%nat) -> Forall (fun ed => e_rows (snd ed) <> []) data ->
  (forall row v, In row (e_rows d) -> In v row -> (v < length nodes)%nat) -> numbered_first (e_rows d) -> edge_numbering (e_rows d) (edges (e_rows d)) ->
  (forall l, elm = 2%nat -> In (1%nat, l) data -> Forall (fun row => exists a b c, row = [a; b] /\ a <> b /\ In c (e_rows d) /\ In a c /\ In b c) (e_rows l)) ->
  exists m fs, mesh_from_gmsh edges nodes data TOL = Ok (m, fs) /\ g_cells m = e_rows d /\ (Forall (fun t => 0 < t)%nat (e_tags d) -> In (elm, e_tags d) fs) /\
  forall l, elm = 2%nat -> In (1%nat, l) data -> Forall (fun t => 0 < t)%nat (e_tags l) -> exists f, In (1%nat, f) fs /\ tagged (edges (e_rows d)) (e_rows l) (e_tags l) f.
Proof.
  intros edges nodes data TOL elm d PR ND ID KS NE RG NF EN LE.
  assert (FK : Forall (fun ed => In (fst ed) [1; 2; 4]%nat) data). { apply Forall_forall. intros [e d'] I. destruct (KS e) as [K _]; [apply in_map_iff; exists (e, d'); auto|]. destruct K as [-> | ->]; cbn; auto. }
  assert (RG' : Forall (Forall (fun v => v < length nodes)%nat) (e_rows d)) by (apply Forall_forall; intros row R; apply Forall_forall; intros v V; exact (RG row v R V)).
  unfold proper in PR. rewrite Forall_forall in PR, NE. destruct (PR _ ID) as [PW [PRW PT]]. cbn [fst snd] in PW, PRW, PT. specialize (NE _ ID) as NE'. cbn [snd] in NE'.
  assert (LO : forall l, e_rows l <> [] -> length (e_tags l) = length (e_rows l) -> exists lo, np_min (e_tags l) = Ok lo) by (intros l A B; destruct (e_tags l); [destruct (e_rows l); [congruence|discriminate B]|eexists; reflexivity]).
  destruct (LO d NE' PT) as [lo NM]. pose proof (np_min_pos _ _ NM) as POS.
  assert (CF : forall fs, (forall f, In f (if (0 <? lo)%nat then [(elm, e_tags d)] else []) -> In f fs) -> Forall (fun t => 0 < t)%nat (e_tags d) -> In (elm, e_tags d) fs). { intros fs I F. apply POS in F. apply I. destruct (Nat.ltb_spec 0 lo); [left; reflexivity|lia]. }
  assert (ONE : forall a, data = [(elm, a)] -> exists m fs, mesh_from_gmsh edges nodes data TOL = Ok (m, fs) /\ g_cells m = e_rows d /\ (Forall (fun t => 0 < t)%nat (e_tags d) -> In (elm, e_tags d) fs)).
  { intros a ->. destruct ID as [ID|[]]. injection ID as ->. destruct (KS elm ltac:(cbn; auto)) as [K _]. destruct (mesh_returns edges nodes [(elm, d)] TOL elm d lo FK ltac:(reflexivity) ltac:(cbn; rewrite Nat.eqb_refl; reflexivity) K PW RG' NF NM) as [m [n [_ [_ [GC R]]]]]. exists m, (if (0 <? lo)%nat then [(elm, e_tags d)] else []). split; [apply R; cbn; rewrite Nat.eqb_refl; reflexivity|]. split; [exact GC|]. apply CF. auto. }
  assert (TWO : forall a, elm = 2%nat -> (data = [(1%nat, a); (2%nat, d)] \/ data = [(2%nat, d); (1%nat, a)]) -> exists m fs, mesh_from_gmsh edges nodes data TOL = Ok (m, fs) /\ g_cells m = e_rows d /\ (Forall (fun t => 0 < t)%nat (e_tags d) -> In (elm, e_tags d) fs) /\ (Forall (fun t => 0 < t)%nat (e_tags a) -> exists f, In (1%nat, f) fs /\ tagged (edges (e_rows d)) (e_rows a) (e_tags a) f)).
  { intros a -> SH. assert (IA : In (1%nat, a) data) by (destruct SH as [-> | ->]; cbn; auto). destruct (PR _ IA) as [_ [_ PTA]]. cbn [fst snd] in PTA. pose proof (NE _ IA) as NEA. cbn [snd] in NEA. destruct (LO a NEA PTA) as [la NA]. pose proof (np_min_pos _ _ NA) as POSA. specialize (LE a eq_refl IA).
    destruct (mesh_returns edges nodes data TOL 2 d lo FK ltac:(destruct SH as [-> | ->]; reflexivity) ltac:(destruct SH as [-> | ->]; reflexivity) (or_intror eq_refl) PW RG' NF NM) as [m [n [HN [GT [GC R]]]]].
    assert (FR : Forall (Forall (fun c => c < n)%nat) (e_rows a)). { eapply Forall_impl; [|exact LE]. intros row [p [q [c [-> [_ [C [P Q]]]]]]]. repeat constructor; apply HN, in_concat; exists c; auto. }
    destruct (tag_returns n (e_rows d) (edges (e_rows d)) (e_rows a) (e_tags a) (repeat 0%nat (length (edges (e_rows d)))) EN PTA FR LE) as [f TF].
    assert (FN : fun_set 1 f (if (0 <? lo)%nat then [(2%nat, e_tags d)] else []) = (if (0 <? lo)%nat then [(2%nat, e_tags d)] else []) ++ [(1%nat, f)]) by (destruct (0 <? lo)%nat; reflexivity).
    exists m, (if (la =? 0)%nat then (if (0 <? lo)%nat then [(2%nat, e_tags d)] else []) else fun_set 1 f (if (0 <? lo)%nat then [(2%nat, e_tags d)] else [])). split; [|split; [exact GC|split]].
    - apply R. destruct SH as [-> | ->]; cbn [entity_functions Nat.eqb elm_tdim]; rewrite NA; cbn [bind]; rewrite GT, GC; cbn [Nat.eqb]; destruct (la =? 0)%nat; try reflexivity; rewrite TF; reflexivity.
    - apply CF. intros g G. destruct (la =? 0)%nat; [exact G|]. rewrite FN. apply in_app_iff. left. exact G.
    - intros P. apply POSA in P. destruct (Nat.eqb_spec la 0) as [Z|Z]; [lia|]. exists f. split; [rewrite FN; apply in_app_iff; right; left; reflexivity|]. destruct EN as [_ [_ E3]]. destruct (tag_sound n (edges (e_rows d)) (e_rows a) (e_tags a) _ f FR PTA E3 (repeat_length _ _) TF) as [L G]. split; [exact L|]. intros e E. destruct (G e E) as [G1 G2]. split; [intros k K S N; apply G1; split; [exact K|split; assumption]|]. intros N. rewrite (G2 N). apply nth_repeat. }
  destruct (shapes data ND (fun e E => proj1 (KS e E))) as [[a E]|[[a E]|[[a [b E]]|[a [b E]]]]].
  - intros ->. destruct ID.
  - assert (elm = 1%nat) as -> by (rewrite E in ID; destruct ID as [I|[]]; congruence). destruct (ONE a E) as [m [fs [A [B C]]]]. exists m, fs. split; [exact A|]. split; [exact B|]. split; [exact C|]. discriminate.
  - assert (elm = 2%nat) as -> by (rewrite E in ID; destruct ID as [I|[]]; congruence). destruct (ONE a E) as [m [fs [A [B C]]]]. exists m, fs. split; [exact A|]. split; [exact B|]. split; [exact C|]. intros l _ I. rewrite E in I. destruct I as [I|[]]. discriminate I.
  - assert (X : elm = 2%nat /\ b = d). { assert (2 <= elm)%nat by (apply KS; rewrite E; cbn; auto). rewrite E in ID. destruct ID as [I|[I|[]]]; injection I as I1 I2; [lia|split; congruence]. } destruct X as [-> ->]. destruct (TWO a eq_refl (or_introl E)) as [m [fs [A [B [C D]]]]]. exists m, fs. split; [exact A|]. split; [exact B|]. split; [exact C|]. intros l _ I P. rewrite E in I. destruct I as [I|[I|[]]]; [injection I as ->; exact (D P)|discriminate I].
  - assert (X : elm = 2%nat /\ b = d). { assert (2 <= elm)%nat by (apply KS; rewrite E; cbn; auto). rewrite E in ID. destruct ID as [I|[I|[]]]; injection I as I1 I2; [split; congruence|lia]. } destruct X as [-> ->]. destruct (TWO a eq_refl (or_intror E)) as [m [fs [A [B [C D]]]]]. exists m, fs. split; [exact A|]. split; [exact B|]. split; [exact C|]. intros l _ I P. rewrite E in I. destruct I as [I|[I|[]]]; [discriminate I|injection I as ->; exact (D P)].
Qed.
Print Assumptions C46_returns.
(** Tetrahedra are never built *)
Theorem C46_tets_refuted : forall (edges : list (list nat) -> list (list nat)) (nodes : list (list R)) (data : list (nat * elements)) (TOL : R) (m : gmesh) (fs : list (nat * list nat)),
  proper data -> Forall (fun p => length p = 3%nat) nodes -> mesh_from_gmsh edges nodes data TOL = Ok (m, fs) -> (g_tdim m <= 2)%nat /\ Forall (fun c => length c <= 3)%nat (g_cells m).
Proof.
  intros edges nodes data TOL m fs PR N3 H. destruct (mesh_sound edges nodes data TOL m fs PR N3 H) as [elm [d [n [ID [_ [_ [EL [GT [_ [_ [_ [GC _]]]]]]]]]]]]. unfold proper in PR. rewrite Forall_forall in PR. destruct (PR _ ID) as [PW [PRW _]]. cbn [fst snd] in *. split; [rewrite GT; destruct EL as [-> | ->]; lia|]. rewrite GC. eapply Forall_impl; [|exact PRW]. intros c L. cbn in L. rewrite L, PW. destruct EL as [-> | ->]; cbn; lia.
Qed.
Print Assumptions C46_tets_refuted.
(** With tetrahedra only, the assertion in build_mesh fails *)
Theorem C46_tets_assertion : forall (edges : list (list nat) -> list (list nat)) (nodes : list (list R)) (d : elements) (TOL : R), e_width d = 4%nat -> Forall (Forall (fun v => v < length nodes)%nat) (e_rows d) -> numbered_first (e_rows d) ->
  mesh_from_gmsh edges nodes [(4%nat, d)] TOL = Err AssertionError.
Proof.
  intros edges nodes d TOL W RG NF. unfold mesh_from_gmsh. cbn [forallb fst map py_max max_key find_elm Nat.eqb mem existsb orb andb py_assert bind]. rewrite (mapM_take nodes []).
  - cbn [bind]. destruct (node_maps_dec (e_rows d)) as [[n [_ [_ M]]]|[N _]]; [|contradiction]. rewrite M. cbn [bind]. unfold build_mesh. cbn [elm_tdim num_vertices bind]. rewrite W. reflexivity.
  - apply Forall_forall. intros v V. apply unique_In, in_concat in V. destruct V as [row [R V]]. rewrite Forall_forall in RG. specialize (RG row R). rewrite Forall_forall in RG. exact (RG v V).
Qed.
Print Assumptions C46_tets_assertion.
(** Any other numbering of the nodes: KeyError *)
Theorem C46_numbering_refuted : forall (edges : list (list nat) -> list (list nat)) (nodes : list (list R)) (d : elements) (elm : nat) (TOL : R), In elm [1; 2; 4]%nat -> Forall (Forall (fun v => v < length nodes)%nat) (e_rows d) -> ~ numbered_first (e_rows d) ->
  mesh_from_gmsh edges nodes [(elm, d)] TOL = Err KeyError.
Proof.
  intros edges nodes d elm TOL EL RG N. apply (mesh_key_error edges nodes [(elm, d)] TOL elm d); [constructor; [exact EL|constructor]|reflexivity|cbn; rewrite Nat.eqb_refl; reflexivity|exact RG|exact N].
Qed.
Print Assumptions C46_numbering_refuted.

(** Two triangles with two tagged lines *)
Definition square_nodes : list (list R) := [[0; 0; 0]; [1; 0; 0]; [0; 1; 0]; [1; 1; 0]].
Definition square_data : list (nat * elements) := [(1, {| e_width := 2; e_rows := [[0; 1]; [3; 1]]; e_tags := [5; 6] |}); (2, {| e_width := 3; e_rows := [[0; 1; 2]; [1; 3; 2]]; e_tags := [1; 2] |})]%nat.
Definition square_edges (cells : list (list nat)) : list (list nat) := [[1; 2]; [0; 2]; [0; 1]; [2; 3]; [1; 3]]%nat.
Lemma same_pair (a b c d : nat) : same_set [a; b] [c; d] -> (a < b)%nat -> (c < d)%nat -> a = c /\ b = d.
Proof.
  intros S L M. pose proof (proj1 (S a) ltac:(cbn; auto)) as A. pose proof (proj1 (S b) ltac:(cbn; auto)) as B. pose proof (proj2 (S c) ltac:(cbn; auto)) as C. pose proof (proj2 (S d) ltac:(cbn; auto)) as D. cbn in A, B, C, D. lia.
Qed.
Lemma square_numbering : edge_numbering [[0; 1; 2]; [1; 3; 2]]%nat (square_edges [[0; 1; 2]; [1; 3; 2]]%nat).
Proof.
  split; [|split].
  - intros e E. cbn in E. decompose [or] E; subst; try contradiction; eexists; eexists.
    + exists [0; 1; 2]%nat. split; [reflexivity|]. cbn. intuition lia.
    + exists [0; 1; 2]%nat. split; [reflexivity|]. cbn. intuition lia.
    + exists [0; 1; 2]%nat. split; [reflexivity|]. cbn. intuition lia.
    + exists [1; 3; 2]%nat. split; [reflexivity|]. cbn. intuition lia.
    + exists [1; 3; 2]%nat. split; [reflexivity|]. cbn. intuition lia.
  - assert (F : forall e a b, (e < 5)%nat -> (nth e (square_edges []) [] = [a; b] \/ nth e (square_edges []) [] = [b; a]) -> exists e, (e < 5)%nat /\ same_set (nth e (square_edges []) []) [a; b]). { intros e a b L [E|E]; exists e; split; try exact L; rewrite E; intros v; cbn; tauto. }
    intros c a b C A B N. cbn in C. assert (R : forall e, (e < 5)%nat -> (nth e (square_edges []) [] = [a; b] \/ nth e (square_edges []) [] = [b; a]) -> exists e, (e < length (square_edges [[0; 1; 2]; [1; 3; 2]]))%nat /\ same_set (nth e (square_edges [[0; 1; 2]; [1; 3; 2]]%nat) []) [a; b]) by (intros e L E; exact (F e a b L E)).
    destruct C as [<- |[<- |[]]]; cbn in A, B; decompose [or] A; decompose [or] B; subst; try contradiction; try congruence;
      first [apply (R 0%nat); [lia|cbn; tauto]|apply (R 1%nat); [lia|cbn; tauto]|apply (R 2%nat); [lia|cbn; tauto]|apply (R 3%nat); [lia|cbn; tauto]|apply (R 4%nat); [lia|cbn; tauto]].
  - intros e e' E E' S. cbn in E, E'. destruct e as [|[|[|[|[|e]]]]]; destruct e' as [|[|[|[|[|e']]]]]; try lia; exfalso; cbn [square_edges nth] in S; apply same_pair in S; lia.
Qed.
Example C46_example : proper square_data /\ Forall (fun p => length p = 3%nat) square_nodes /\ exists m fs, mesh_from_gmsh square_edges square_nodes square_data (1 / 10) = Ok (m, fs).
Proof.
  assert (P : proper square_data) by (repeat constructor). split; [exact P|]. split; [repeat constructor|].
  destruct (C46_returns square_edges square_nodes square_data (1 / 10) 2 {| e_width := 3; e_rows := [[0; 1; 2]; [1; 3; 2]]; e_tags := [1; 2] |}%nat P) as [m [fs [E _]]].
  - cbn. repeat constructor; cbn; intuition lia.
  - cbn. auto.
  - intros e E. cbn in E. intuition lia.
  - repeat constructor; discriminate.
  - intros row v R V. cbn in *. decompose [or] R; subst; cbn in V; intuition lia.
  - exists 4%nat. intros v. split; [intros [row [R V]]; cbn in R; decompose [or] R; subst; try contradiction; cbn in V; intuition lia|]. intros L. destruct v as [|[|[|[|v]]]]; [exists [0; 1; 2]%nat|exists [0; 1; 2]%nat|exists [0; 1; 2]%nat|exists [1; 3; 2]%nat|lia]; cbn; auto 8.
  - exact square_numbering.
  - intros l _ I. cbn in I. destruct I as [I|[I|[]]]; [|discriminate I]. injection I as <-. constructor; [|constructor; [|constructor]].
    + exists 0%nat, 1%nat, [0; 1; 2]%nat. cbn. intuition lia.
    + exists 3%nat, 1%nat, [1; 3; 2]%nat. cbn. intuition lia.
  - exists m, fs. exact E.
Qed.
Example C46_numbering_example : ~ numbered_first [[1; 2]; [2; 3]]%nat.
Proof. intros [n H]. assert (L : (1 < n)%nat) by (apply H; exists [1; 2]%nat; cbn; auto). assert (Z : (0 < n)%nat) by lia. apply H in Z. destruct Z as [row [R V]]. cbn in R. decompose [or] R; subst; try contradiction; cbn in V; intuition lia. Qed.
Example C46_tets_example : numbered_first [[0; 1; 2; 3]]%nat.
Proof. exists 4%nat. intros v. split; [intros [row [[<- |[]] V]]; cbn in V; intuition lia|]. intros L. exists [0; 1; 2; 3]%nat. split; [left; reflexivity|]. cbn. lia. Qed.
