(** Specification vocabulary and proofs for GmshModel.v. *)
From Verif Require Import GmshModel GeomProofs LineProofs BaseProofs UnionProofs.
From Coq Require Import Psatz Permutation Sorted.
Local Open Scope R_scope.

(** ** Specification *)
Definition same_set (a b : list nat) : Prop := forall v, In v a <-> In v b.
(** The nodes of the rows are 0, 1, ..., n-1 *)
Definition numbered_first (rows : list (list nat)) : Prop := exists n, forall v, (exists row, In row rows /\ In v row) <-> (v < n)%nat.
(** Cell by cell the points of the elements, in as many coordinates as the mesh has *)
Definition has_elements (nodes : list (list R)) (rows : list (list nat)) (m : gmesh) : Prop :=
  length (g_cells m) = length rows /\
  forall i j, (i < length rows)%nat -> (j < length (nth i rows []))%nat ->
    length (nth i (g_cells m) []) = length (nth i rows []) /\ (nth j (nth i (g_cells m) []) 0 < length (g_x m))%nat /\
    nth (nth j (nth i (g_cells m) []) 0%nat) (g_x m) [] = firstn (g_gdim m) (nth (nth j (nth i rows []) 0%nat) nodes []).
(** The edges of cells in some numbering *)
Definition edge_numbering (cells es : list (list nat)) : Prop :=
  (forall e, In e es -> exists a b c, e = [a; b] /\ a <> b /\ In c cells /\ In a c /\ In b c) /\
  (forall c a b, In c cells -> In a c -> In b c -> a <> b -> exists e, (e < length es)%nat /\ same_set (nth e es []) [a; b]) /\
  (forall e e', (e < length es)%nat -> (e' < length es)%nat -> same_set (nth e es []) (nth e' es []) -> e = e').
(** The tag of an entity is that of the last row with its vertices, 0 if there is none *)
Definition tagged (ents rows : list (list nat)) (tags f : list nat) : Prop :=
  length f = length ents /\ forall e, (e < length ents)%nat ->
    (forall k, (k < length rows)%nat -> same_set (nth k rows []) (nth e ents []) -> (forall l, (k < l < length rows)%nat -> ~ same_set (nth l rows []) (nth e ents [])) -> nth e f 0%nat = nth k tags 0%nat) /\
    ((forall k, (k < length rows)%nat -> ~ same_set (nth k rows []) (nth e ents [])) -> nth e f 0%nat = 0%nat).

(** ** np.unique *)
Lemma in_list_max v l : In v l -> (v <= list_max l)%nat.
Proof. intros I. pose proof (proj1 (list_max_le l (list_max l)) (Nat.le_refl _)) as F. rewrite Forall_forall in F. exact (F v I). Qed.
Lemma unique_In v l : In v (unique l) <-> In v l.
Proof. unfold unique. rewrite filter_In, in_seq, mem_spec. split; [tauto|]. intros I. split; [pose proof (in_list_max v l I); lia|exact I]. Qed.
Lemma unique_NoDup l : NoDup (unique l).
Proof. apply NoDup_filter, seq_NoDup. Qed.
Lemma filter_sorted f l : StronglySorted le l -> StronglySorted le (filter f l).
Proof. induction 1 as [|a l S IH F]; cbn; [constructor|]. destruct (f a); [|exact IH]. constructor; [exact IH|]. apply Forall_forall. intros v V. apply filter_In in V. rewrite Forall_forall in F. apply F, V. Qed.
Lemma unique_initial l n : (forall v, In v l <-> (v < n)%nat) -> unique l = seq 0 n.
Proof. intros H. apply sorted_unique; [apply filter_sorted, seq_sorted|apply seq_sorted|]. apply NoDup_Permutation; [apply unique_NoDup|apply seq_NoDup|]. intros v. rewrite unique_In, H, in_seq. lia. Qed.
Lemma all_below_length l : NoDup l -> (forall v, In v l -> (v < length l)%nat) -> forall v, (v < length l)%nat -> In v l.
Proof. intros N H v V. assert (I : incl (seq 0 (length l)) l). { apply NoDup_length_incl; [exact N|rewrite seq_length; lia|]. intros w W. apply in_seq. specialize (H w W). lia. } apply I, in_seq. lia. Qed.
Lemma initial_concat rows : numbered_first rows <-> exists n, forall v, In v (concat rows) <-> (v < n)%nat.
Proof. unfold numbered_first. split; intros [n H]; exists n; intros v; rewrite <- H, in_concat; reflexivity. Qed.

(** ** node_map *)
Lemma mapM_opt {A} e (l : list A) idx ys : mapM (fun c => opt_res e (nth_error l c)) idx = Ok ys -> Forall (fun c => c < length l)%nat idx.
Proof. revert ys. induction idx as [|c idx IH]; intros ys H; [constructor|]. rewrite mapM_cons in H. destruct (nth_error l c) as [y|] eqn:E; [|discriminate H]. cbn [opt_res bind] in H. destruct (mapM (fun c => opt_res e (nth_error l c)) idx) as [zs|]; [|discriminate H]. constructor; [apply nth_error_Some; congruence|exact (IH zs eq_refl)]. Qed.
Lemma mapM_opt_err {A} e (l : list A) idx : (exists c, In c idx /\ (length l <= c)%nat) -> mapM (fun c => opt_res e (nth_error l c)) idx = Err e.
Proof. induction idx as [|c idx IH]; intros [d [D L]]; [destruct D|]. rewrite mapM_cons. destruct (nth_error l c) as [y|] eqn:E; [|reflexivity]. cbn [opt_res bind]. destruct D as [-> |D]; [apply nth_error_None in L; congruence|]. rewrite IH by (exists d; auto). reflexivity. Qed.
Lemma map_nodes_err vtx rows : (exists c row, In row rows /\ In c row /\ (length vtx <= c)%nat) -> mapM (mapM (node_map vtx)) rows = Err KeyError.
Proof.
  induction rows as [|row rows IH]; intros [c [r [R [C L]]]]; [destruct R|]. rewrite mapM_cons. destruct (Forall_Exists_dec (fun c => c < length vtx)%nat (fun c => lt_dec c (length vtx)) row) as [F|F].
  - unfold node_map at 1. destruct R as [-> |R]; [rewrite Forall_forall in F; specialize (F c C); lia|]. destruct (mapM (fun c => opt_res KeyError (nth_error vtx c)) row) as [y|e] eqn:E.
    + cbn [bind]. rewrite IH by (exists c, r; auto). reflexivity.
    + exfalso. clear - F E. revert e E. induction F as [|c row H F IH]; intros e E; [discriminate E|]. rewrite mapM_cons, (nth_error_nth' vtx 0%nat H) in E. cbn [opt_res bind] in E. destruct (mapM (fun c => opt_res KeyError (nth_error vtx c)) row) as [y|e'] eqn:M; [discriminate E|exact (IH e' eq_refl)].
  - apply Exists_exists in F. destruct F as [d [D N]]. unfold node_map at 1. rewrite mapM_opt_err by (exists d; split; [exact D|lia]). reflexivity.
Qed.
Lemma node_map_seq n row : Forall (fun c => c < n)%nat row -> mapM (node_map (seq 0 n)) row = Ok row.
Proof. induction 1 as [|c row C F IH]; [reflexivity|]. rewrite mapM_cons, IH. unfold node_map. rewrite (nth_error_nth' (seq 0 n) 0%nat) by (rewrite seq_length; exact C). rewrite seq_nth by exact C. reflexivity. Qed.
Lemma node_maps_seq n rows : Forall (Forall (fun c => c < n)%nat) rows -> mapM (mapM (node_map (seq 0 n))) rows = Ok rows.
Proof. induction 1 as [|row rows C F IH]; [reflexivity|]. rewrite mapM_cons, node_map_seq by exact C. cbn [bind]. rewrite IH. reflexivity. Qed.
Lemma initial_rows rows n : (forall v, In v (concat rows) <-> (v < n)%nat) -> Forall (Forall (fun c => c < n)%nat) rows.
Proof. intros H. apply Forall_forall. intros row R. apply Forall_forall. intros c C. apply H, in_concat. exists row. split; assumption. Qed.
(** The map exists only for the numbering 0, ..., n-1, and then changes nothing *)
Lemma node_maps_dec rows : (exists n, (forall v, In v (concat rows) <-> (v < n)%nat) /\ unique (concat rows) = seq 0 n /\ mapM (mapM (node_map (unique (concat rows)))) rows = Ok rows) \/
  (~ numbered_first rows /\ mapM (mapM (node_map (unique (concat rows)))) rows = Err KeyError).
Proof.
  set (vtx := unique (concat rows)). destruct (Forall_Exists_dec (fun c => c < length vtx)%nat (fun c => lt_dec c (length vtx)) (concat rows)) as [F|F].
  - left. exists (length vtx). rewrite Forall_forall in F. assert (H : forall v, In v (concat rows) <-> (v < length vtx)%nat). { intros v. split; [apply F|]. intros V. apply unique_In. apply (all_below_length vtx (unique_NoDup _)); [|exact V]. intros w W. apply F, unique_In, W. } split; [exact H|]. pose proof (unique_initial _ _ H) as U. fold vtx in U. split; [exact U|]. rewrite U at 1. apply node_maps_seq, initial_rows, H.
  - right. apply Exists_exists in F. destruct F as [c [C L]]. split; [|apply map_nodes_err; apply in_concat in C; destruct C as [row [R C]]; exists c, row; split; [exact R|split; [exact C|lia]]]. intros N. apply initial_concat in N. destruct N as [n H]. apply H in C. pose proof (unique_initial _ _ H) as U. fold vtx in U. rewrite U, seq_length in L. lia.
Qed.

(** ** Entities *)
Lemma put_length f : forall i v, length (put i v f) = length f.
Proof. induction f as [|a f IH]; intros [|i] v; cbn; try reflexivity. rewrite IH. reflexivity. Qed.
Lemma put_nth f : forall i v e, (i < length f)%nat -> nth e (put i v f) 0%nat = if Nat.eq_dec e i then v else nth e f 0%nat.
Proof. induction f as [|a f IH]; intros [|i] v e I; cbn in I; try lia; cbn [put]. - destruct e; cbn; [reflexivity|destruct (Nat.eq_dec (S e) 0); [lia|reflexivity]]. - destruct e as [|e]; cbn [nth]; [destruct (Nat.eq_dec 0 (S i)); [lia|reflexivity]|]. rewrite IH by lia. destruct (Nat.eq_dec e i); destruct (Nat.eq_dec (S e) (S i)); try lia; reflexivity. Qed.
Lemma incident_In ents v e : In e (incident ents v) <-> (e < length ents)%nat /\ In v (nth e ents []).
Proof. unfold incident. rewrite filter_In, in_seq, mem_spec. split; intros [A B]; split; try lia; exact B. Qed.
Lemma common_In ents entity l : common ents entity = Ok l -> NoDup l /\ forall e, In e l <-> (e < length ents)%nat /\ forall v, In v entity -> In v (nth e ents []).
Proof.
  unfold common. destruct entity as [|v vs]; [discriminate|]. intros H. injection H as <-.
  assert (G : forall vs acc, NoDup acc -> NoDup (fold_left (fun acc w => filter (fun e => mem e (incident ents w)) acc) vs acc) /\ forall e, In e (fold_left (fun acc w => filter (fun e => mem e (incident ents w)) acc) vs acc) <-> In e acc /\ forall w, In w vs -> In e (incident ents w)).
  { clear. induction vs as [|w vs IH]; intros acc N; cbn [fold_left]; [split; [exact N|intros e; split; [intros I; split; [exact I|intros w []]|tauto]]|]. destruct (IH (filter (fun e => mem e (incident ents w)) acc) (NoDup_filter _ N)) as [A B]. split; [exact A|]. intros e. rewrite B, filter_In, mem_spec. split.
    - intros [[I J] K]. split; [exact I|]. intros u [<- |U]; auto.
    - intros [I K]. split; [split; [exact I|apply K; left; reflexivity]|]. intros u U. apply K. right. exact U. }
  destruct (G vs (incident ents v)) as [A B]; [apply NoDup_filter, seq_NoDup|]. split; [exact A|]. intros e. rewrite B, incident_In. split.
  - intros [[L I] K]. split; [exact L|]. intros w [<- |W]; [exact I|]. specialize (K w W). apply incident_In in K. tauto.
  - intros [L K]. split; [split; [exact L|apply K; left; reflexivity]|]. intros w W. apply incident_In. split; [exact L|]. apply K. right. exact W.
Qed.
Lemma same_facet_set f g : same_facet f g = true <-> same_set f g.
Proof. rewrite same_facet_spec. unfold same_set, incl. split; [intros [A B] v; split; [apply A|apply B]|intros H; split; intros v V; apply H; exact V]. Qed.
Definition last_with (P : nat -> Prop) (n k : nat) : Prop := (k < n)%nat /\ P k /\ forall l, (k < l < n)%nat -> ~ P l.
Lemma same_set_dec a b : {same_set a b} + {~ same_set a b}.
Proof. destruct (same_facet a b) eqn:E; [left; apply same_facet_set, E|right; intros H; apply same_facet_set in H; congruence]. Qed.
Lemma tag_sound n ents rows : forall tags f f', Forall (Forall (fun c => c < n)%nat) rows -> length tags = length rows -> (forall e e', (e < length ents)%nat -> (e' < length ents)%nat -> same_set (nth e ents []) (nth e' ents []) -> e = e') -> length f = length ents ->
  tag_entities (seq 0 n) ents f (combine rows tags) = Ok f' -> length f' = length ents /\ forall e, (e < length ents)%nat ->
    (forall k, last_with (fun k => same_set (nth k rows []) (nth e ents [])) (length rows) k -> nth e f' 0%nat = nth k tags 0%nat) /\
    ((forall k, (k < length rows)%nat -> ~ same_set (nth k rows []) (nth e ents [])) -> nth e f' 0%nat = nth e f 0%nat).
Proof.
  induction rows as [|row rows IH]; intros [|tag tags] f f' FR LT U LF H; try discriminate LT.
  - injection H as <-. split; [exact LF|]. intros e E. split; [intros k [K _]; cbn in K; lia|reflexivity].
  - injection LT as LT. apply Forall_cons_iff in FR. destruct FR as [FR1 FR]. cbn [combine tag_entities] in H. rewrite (node_map_seq n row FR1) in H. cbn [bind] in H. destruct (common ents row) as [es|e0] eqn:C; [|discriminate H]. cbn [bind] in H. destruct es as [|e0 [|e1 es]]; try discriminate H. destruct (same_facet row (nth e0 ents [])) eqn:SF; [|discriminate H]. cbn [py_assert bind] in H. apply same_facet_set in SF. destruct (common_In ents row [e0] C) as [_ CI]. assert (E0 : (e0 < length ents)%nat) by (apply CI; left; reflexivity).
    destruct (IH tags (put e0 tag f) f' FR LT U ltac:(rewrite put_length; exact LF) H) as [L' G]. split; [exact L'|]. intros e E. destruct (G e E) as [G1 G2]. split.
    + intros [|k] [K [P Q]].
      * cbn [nth] in P |- *. rewrite G2, put_nth by (try lia; intros k Hk; exact (Q (S k) ltac:(cbn; lia))). destruct (Nat.eq_dec e e0) as [_|D]; [reflexivity|]. exfalso. apply D. apply U; [exact E|exact E0|]. intros v. rewrite <- (P v), (SF v). reflexivity.
      * cbn [nth] in P |- *. apply G1. split; [cbn in K; lia|]. split; [exact P|]. intros l L. exact (Q (S l) ltac:(cbn; lia)).
    + intros N. rewrite G2, put_nth by (try lia; intros k Hk; exact (N (S k) ltac:(cbn; lia))). destruct (Nat.eq_dec e e0) as [-> |D]; [|reflexivity]. exfalso. apply (N 0%nat ltac:(cbn; lia)). exact SF.
Qed.
Lemma singleton (l : list nat) e : NoDup l -> (forall x, In x l <-> x = e) -> l = [e].
Proof. intros N H. destruct l as [|a [|b l]]; [exfalso; destruct (proj2 (H e) eq_refl)|f_equal; apply H; left; reflexivity|]. exfalso. inversion N as [|? ? NI _]; subst. apply NI. left. rewrite (proj1 (H a)) by (left; reflexivity). apply H. right. left. reflexivity. Qed.
Lemma tag_returns n cells ents rows : forall tags f, edge_numbering cells ents -> length tags = length rows -> Forall (Forall (fun c => c < n)%nat) rows -> Forall (fun row => exists a b c, row = [a; b] /\ a <> b /\ In c cells /\ In a c /\ In b c) rows -> exists f', tag_entities (seq 0 n) ents f (combine rows tags) = Ok f'.
Proof.
  induction rows as [|row rows IH]; intros [|tag tags] f EN LT FR FE; try discriminate LT; [eexists; reflexivity|]. injection LT as LT. apply Forall_cons_iff in FR. destruct FR as [FR1 FR]. apply Forall_cons_iff in FE. destruct FE as [[a [b [c [-> [AB [C [A B]]]]]]] FE]. cbn [combine tag_entities]. rewrite (node_map_seq n _ FR1). cbn [bind]. destruct (common ents [a; b]) as [es|e0] eqn:CE; [|discriminate CE]. cbn [bind]. destruct (common_In ents [a; b] es CE) as [ND CI]. destruct EN as [E1 [E2 E3]]. destruct (E2 c a b C A B AB) as [e [L S]].
  assert (ES : es = [e]). { apply singleton; [exact ND|]. intros x. rewrite CI. split.
    - intros [X H]. apply E3; [exact X|exact L|]. destruct (E1 (nth x ents []) (nth_In _ _ X)) as [a' [b' [c' [EX [AB' _]]]]]. pose proof (H a ltac:(cbn; auto)) as Ha. pose proof (H b ltac:(cbn; auto)) as Hb. rewrite EX in Ha, Hb |- *. intros v. rewrite (S v). cbn in *. intuition (subst; auto; try congruence).
    - intros ->. split; [exact L|]. intros v V. apply S. exact V. }
  rewrite ES. replace (same_facet [a; b] (nth e ents [])) with true by (symmetry; apply same_facet_set; intros v; symmetry; apply S). cbn [py_assert bind]. apply IH; [split; [exact E1|split; assumption]|exact LT|exact FR|exact FE].
Qed.

(** ** The mesh *)
Definition nodes_of_type (elm : nat) : nat := match elm with 1%nat => 2%nat | 2%nat => 3%nat | _ => 4%nat end.
(** What gmsh hands over: rows as long as the element type says, a tag for each *)
Definition proper (data : list (nat * elements)) : Prop :=
  Forall (fun ed => e_width (snd ed) = nodes_of_type (fst ed) /\ Forall (fun row => length row = e_width (snd ed)) (e_rows (snd ed)) /\ length (e_tags (snd ed)) = length (e_rows (snd ed))) data.
Lemma max_key_spec key l : forall best, let m := max_key key best l in (m = best \/ In m l) /\ (key best <= key m)%nat /\ forall a, In a l -> (key a <= key m)%nat.
Proof.
  induction l as [|a l IH]; intros best; cbn [max_key]; [split; [auto|split; [lia|intros a []]]|]. destruct (Nat.ltb_spec (key best) (key a)) as [L|L].
  - destruct (IH a) as [A [B C]]. split; [destruct A as [-> |A]; cbn; auto|]. split; [lia|]. intros b [<- |H]; [exact B|exact (C b H)].
  - destruct (IH best) as [A [B C]]. split; [destruct A as [-> |A]; cbn; auto|]. split; [exact B|]. intros b [<- |H]; [lia|exact (C b H)].
Qed.
Lemma find_elm_In elm data d : find_elm elm data = Ok d -> In (elm, d) data.
Proof. induction data as [|[e d'] data IH]; cbn; [discriminate|]. destruct (Nat.eqb_spec e elm) as [-> |N]; [intros H; injection H as ->; left; reflexivity|intros H; right; exact (IH H)]. Qed.
Lemma build_mesh_ok t g x w cells m : build_mesh t g x w cells = Ok m -> num_vertices t = Ok w /\ g_tdim m = t /\ g_gdim m = g /\ g_x m = x /\ g_cells m = cells /\ Forall (Forall (fun v => v < length x)%nat) cells.
Proof.
  unfold build_mesh. destruct (num_vertices t) as [n|e]; [|discriminate]. cbn [bind]. destruct (Nat.eqb_spec n w) as [-> |]; [|discriminate]. cbn [py_assert bind]. destruct (forallb (forallb (fun v => v <? length x)%nat) cells) eqn:F; [|discriminate]. intros H. injection H as <-. cbn. repeat (split; [reflexivity|]). rewrite forallb_forall in F. apply Forall_forall. intros c C. specialize (F c C). rewrite forallb_forall in F. apply Forall_forall. intros v V. apply Nat.ltb_lt, F, V.
Qed.
Lemma at_norm v l : In v l -> v * v <= rdot l l.
Proof. induction l as [|a l IH]; intros I; [destruct I|]. assert (P : 0 <= rdot l l) by (rewrite <- rnorm_sq; pose proof (rnorm_nonneg l); nra). cbn. change (v * v <= a * a + rdot l l). destruct I as [-> |I]; [nra|]. specialize (IH I). nra. Qed.
Lemma small_norm TOL v l : rnorm l < TOL -> In v l -> Rabs v < TOL.
Proof. intros N I. pose proof (at_norm v l I) as B. pose proof (rnorm_nonneg l) as P. rewrite <- rnorm_sq in B. apply Rle_lt_trans with (rnorm l); [|exact N]. apply Rsqr_le_abs_0 in B. rewrite (Rabs_pos_eq (rnorm l)) in B by exact P. exact B. Qed.
Lemma mesh_sound edges nodes data TOL m fs : proper data -> Forall (fun p => length p = 3%nat) nodes -> mesh_from_gmsh edges nodes data TOL = Ok (m, fs) ->
  exists elm d n, In (elm, d) data /\ find_elm elm data = Ok d /\ py_max elm_tdim (map fst data) = Ok elm /\ (elm = 1%nat \/ elm = 2%nat) /\ g_tdim m = elm /\ (forall e, In e (map fst data) -> elm_tdim e <= elm)%nat /\
  (forall v, In v (concat (e_rows d)) <-> (v < n)%nat) /\ unique (concat (e_rows d)) = seq 0 n /\ g_cells m = e_rows d /\ (n <= length nodes)%nat /\
  has_elements nodes (e_rows d) m /\ (g_gdim m = 2%nat /\ (forall v, (v < n)%nat -> Rabs (nth 2 (nth v nodes []) 0) < TOL) \/ g_gdim m = 3%nat) /\
  exists lo, np_min (e_tags d) = Ok lo /\ entity_functions edges elm (seq 0 n) m (if (0 <? lo)%nat then [(elm, e_tags d)] else []) data = Ok fs.
Proof.
  intros PR N3 H. unfold mesh_from_gmsh in H. destruct (forallb (fun e => mem (fst e) [1; 2; 4]%nat) data) eqn:FK; [|discriminate H]. cbn [py_assert bind] in H. destruct (py_max elm_tdim (map fst data)) as [elm|e] eqn:PM; [|discriminate H]. cbn [bind] in H. destruct (find_elm elm data) as [d|e] eqn:FE; [|discriminate H]. cbn [bind] in H. pose proof (find_elm_In elm data d FE) as ID.
  destruct (mapM (take nodes) (unique (concat (e_rows d)))) as [vertices|e] eqn:MV; [|discriminate H]. cbn [bind] in H. destruct (node_maps_dec (e_rows d)) as [[n [HN [U M]]]|[_ M]]; rewrite M in H; [|discriminate H]. cbn [bind] in H. rewrite U in MV, H. pose proof (mapM_take_ok _ _ _ MV) as RG. rewrite (mapM_take nodes [] _ RG) in MV. injection MV as <-.
  set (vertices := map (fun i => nth i nodes []) (seq 0 n)) in *. destruct (build_mesh (elm_tdim elm) (if flat TOL vertices then 2%nat else 3%nat) (if flat TOL vertices then map (firstn 2) vertices else vertices) (e_width d) (e_rows d)) as [m'|e] eqn:BM; [|discriminate H]. cbn [bind] in H. destruct (np_min (e_tags d)) as [lo|e] eqn:NM; [|discriminate H]. cbn [bind] in H. destruct (entity_functions edges elm (seq 0 n) m' (if (0 <? lo)%nat then [(elm_tdim elm, e_tags d)] else []) data) as [fs'|e] eqn:EF; [|discriminate H]. cbn [bind] in H. injection H as <- <-.
  destruct (build_mesh_ok _ _ _ _ _ _ BM) as [NV [GT [GG [GX [GC GV]]]]].
  rewrite forallb_forall in FK. pose proof (FK _ ID) as KE. cbn [fst] in KE. apply mem_spec in KE. unfold proper in PR. rewrite Forall_forall in PR. destruct (PR _ ID) as [PW [PRW PT]]. cbn [fst snd] in *.
  assert (EL : elm = 1%nat \/ elm = 2%nat) by (destruct KE as [<- |[<- |[<- |[]]]]; [auto|auto|cbn in NV; rewrite PW in NV; discriminate NV]). assert (ED : elm_tdim elm = elm) by (destruct EL as [-> | ->]; reflexivity). rewrite ED in *.
  exists elm, d, n. split; [exact ID|]. split; [exact FE|]. split; [reflexivity|]. split; [exact EL|]. split; [exact GT|]. split.
  { intros e E. unfold py_max in PM. destruct (map fst data) as [|k0 ks] eqn:KS; [discriminate PM|]. injection PM as PM. destruct (max_key_spec elm_tdim ks k0) as [_ [B C]]. rewrite PM, ED in B, C. destruct E as [<- |E]; [exact B|exact (C e E)]. }
  split; [exact HN|]. split; [exact U|]. split; [exact GC|]. assert (NL : (n <= length nodes)%nat). { destruct n as [|n]; [lia|]. rewrite Forall_forall in RG. specialize (RG n). apply RG. apply in_seq. lia. } split; [exact NL|].
  assert (LV : length vertices = n) by (unfold vertices; rewrite map_length, seq_length; reflexivity).
  assert (VN : forall v, (v < n)%nat -> nth v vertices [] = nth v nodes []). { intros v V. unfold vertices. rewrite (nth_indep _ [] ((fun i => nth i nodes []) 0%nat)) by (rewrite map_length, seq_length; exact V). rewrite (map_nth (fun i => nth i nodes [])), seq_nth by exact V. reflexivity. }
  split; [|split; [|exists lo; split; [exact NM|exact EF]]].
  - unfold has_elements. rewrite GC, GX. split; [reflexivity|]. intros i j I J. split; [reflexivity|]. assert (VL : (nth j (nth i (e_rows d) []) 0 < n)%nat). { apply HN, in_concat. exists (nth i (e_rows d) []). split; apply nth_In; assumption. } rewrite GG. destruct (flat TOL vertices).
    + rewrite map_length, LV. split; [exact VL|]. rewrite (nth_indep _ [] (firstn 2 [])) by (rewrite map_length, LV; exact VL). rewrite (map_nth (firstn 2)). rewrite (VN _ VL). reflexivity.
    + rewrite LV. split; [exact VL|]. rewrite (VN _ VL). rewrite Forall_forall in N3. rewrite firstn_all2; [reflexivity|]. rewrite (N3 (nth (nth j (nth i (e_rows d) []) 0%nat) nodes [])); [lia|]. apply nth_In. lia.
  - rewrite GG. unfold flat. destruct (Rlt_dec (rnorm (map (fun p => nth 2 p 0) vertices)) TOL) as [S|S]; [left|right; reflexivity]. split; [reflexivity|]. intros v V. rewrite <- (VN v V). apply (small_norm TOL _ _ S). apply in_map_iff. exists (nth v vertices []). split; [reflexivity|]. apply nth_In. lia.
Qed.
(** With gmsh's other numberings the map of nodes fails *)
Lemma mesh_key_error edges nodes data TOL elm d : Forall (fun ed => In (fst ed) [1; 2; 4]%nat) data -> py_max elm_tdim (map fst data) = Ok elm -> find_elm elm data = Ok d -> Forall (Forall (fun v => v < length nodes)%nat) (e_rows d) -> ~ numbered_first (e_rows d) -> mesh_from_gmsh edges nodes data TOL = Err KeyError.
Proof.
  intros FK PM FE RG N. unfold mesh_from_gmsh. replace (forallb (fun e => mem (fst e) [1; 2; 4]%nat) data) with true by (symmetry; apply forallb_forall; intros e E; apply mem_spec; rewrite Forall_forall in FK; exact (FK e E)). cbn [py_assert bind]. rewrite PM. cbn [bind]. rewrite FE. cbn [bind]. rewrite (mapM_take nodes []).
  - cbn [bind]. destruct (node_maps_dec (e_rows d)) as [[n [HN _]]|[_ M]]; [exfalso; apply N, initial_concat; exists n; exact HN|]. rewrite M. reflexivity.
  - apply Forall_forall. intros v V. apply unique_In, in_concat in V. destruct V as [row [R V]]. rewrite Forall_forall in RG. specialize (RG row R). rewrite Forall_forall in RG. exact (RG v V).
Qed.
Lemma mesh_returns edges nodes data TOL elm d lo : Forall (fun ed => In (fst ed) [1; 2; 4]%nat) data -> py_max elm_tdim (map fst data) = Ok elm -> find_elm elm data = Ok d -> elm = 1%nat \/ elm = 2%nat -> e_width d = nodes_of_type elm -> Forall (Forall (fun v => v < length nodes)%nat) (e_rows d) -> numbered_first (e_rows d) -> np_min (e_tags d) = Ok lo ->
  exists m n, (forall v, In v (concat (e_rows d)) <-> (v < n)%nat) /\ g_tdim m = elm /\ g_cells m = e_rows d /\ forall fs, entity_functions edges elm (seq 0 n) m (if (0 <? lo)%nat then [(elm, e_tags d)] else []) data = Ok fs -> mesh_from_gmsh edges nodes data TOL = Ok (m, fs).
Proof.
  intros FK PM FE EL WD RG NF NM. apply initial_concat in NF. destruct NF as [n HN]. pose proof (unique_initial _ _ HN) as U. set (vertices := map (fun i => nth i nodes []) (seq 0 n)).
  assert (ED : elm_tdim elm = elm) by (destruct EL as [-> | ->]; reflexivity).
  assert (LV : length vertices = n) by (unfold vertices; rewrite map_length, seq_length; reflexivity).
  set (x := if flat TOL vertices then map (firstn 2) vertices else vertices). assert (LX : length x = n) by (unfold x; destruct (flat TOL vertices); [rewrite map_length|]; exact LV).
  exists {| g_tdim := elm; g_gdim := if flat TOL vertices then 2%nat else 3%nat; g_x := x; g_cells := e_rows d |}, n. split; [exact HN|]. split; [reflexivity|]. split; [reflexivity|]. intros fs EF.
  unfold mesh_from_gmsh. replace (forallb (fun e => mem (fst e) [1; 2; 4]%nat) data) with true by (symmetry; apply forallb_forall; intros e E; apply mem_spec; rewrite Forall_forall in FK; exact (FK e E)). cbn [py_assert bind]. rewrite PM. cbn [bind]. rewrite FE. cbn [bind]. rewrite U. rewrite (mapM_take nodes []).
  - cbn [bind]. rewrite (node_maps_seq n _ (initial_rows _ _ HN)). cbn [bind]. fold vertices. fold x. rewrite ED. unfold build_mesh. replace (num_vertices elm) with (Ok (e_width d)) by (rewrite WD; destruct EL as [-> | ->]; reflexivity). cbn [bind]. rewrite Nat.eqb_refl. cbn [py_assert bind]. rewrite LX. replace (forallb (forallb (fun v => v <? n)%nat) (e_rows d)) with true.
    + cbn [bind]. rewrite NM. cbn [bind]. rewrite EF. reflexivity.
    + symmetry. apply forallb_forall. intros c C. apply forallb_forall. intros v V. apply Nat.ltb_lt, HN, in_concat. exists c. split; assumption.
  - apply Forall_forall. intros v V. apply in_seq in V. destruct V as [_ V]. cbn in V. apply HN, in_concat in V. destruct V as [row [R V]]. rewrite Forall_forall in RG. specialize (RG row R). rewrite Forall_forall in RG. exact (RG v V).
Qed.
(** The element types of a proper 2d or 1d data set *)
Lemma shapes (data : list (nat * elements)) : NoDup (map fst data) -> (forall e, In e (map fst data) -> e = 1%nat \/ e = 2%nat) -> data <> [] ->
  (exists a, data = [(1%nat, a)]) \/ (exists b, data = [(2%nat, b)]) \/ (exists a b, data = [(1%nat, a); (2%nat, b)]) \/ (exists a b, data = [(2%nat, b); (1%nat, a)]).
Proof.
  intros N K NE. destruct data as [|[e0 d0] [|[e1 d1] [|[e2 d2] data]]]; [congruence| | |].
  - destruct (K e0 ltac:(cbn; auto)) as [-> | ->]; eauto.
  - destruct (K e0 ltac:(cbn; auto)) as [-> | ->]; destruct (K e1 ltac:(cbn; auto)) as [-> | ->]; cbn in N; try (apply NoDup_cons_iff in N; destruct N as [N _]; exfalso; apply N; cbn; auto; fail); eauto 8.
  - exfalso. cbn in N. apply NoDup_cons_iff in N. destruct N as [N0 N]. apply NoDup_cons_iff in N. destruct N as [N1 _]. cbn in N0, N1. destruct (K e0 ltac:(cbn; auto)); destruct (K e1 ltac:(cbn; auto)); destruct (K e2 ltac:(cbn; auto)); subst; tauto.
Qed.
Lemma np_min_pos l lo : np_min l = Ok lo -> ((0 < lo)%nat <-> Forall (fun t => 0 < t)%nat l).
Proof.
  destruct l as [|a l]; [discriminate|]. intros H. injection H as <-. revert a. induction l as [|b l IH]; intros a; cbn [fold_left]; [split; [intros H; constructor; [exact H|constructor]|intros F; apply Forall_cons_iff in F; tauto]|]. rewrite IH, !Forall_cons_iff. split; [intros [A B]; split; [lia|split; [lia|exact B]]|intros [A [B C]]; split; [lia|exact C]].
Qed.
