(** The mesh of the common cells of two meshes (property C63). *)
From Verif Require Import OverlapModel BaseProofs FillModel EmbedProofs EmbedProps GmshProofs UnionProofs LineProofs EmapProofs.
From Coq Require Import Psatz.
From Verif Require Import GeomProofs OverlapProofs.
Local Open Scope R_scope.
Local Close Scope Q_scope.
Local Close Scope Qc_scope.

Lemma opened submesh mesh1 mesh2 locate tol em vm cm : overlap_mesh submesh mesh1 mesh2 locate tol = Ok (em, (vm, cm)) ->
  o_tdim mesh2 = o_tdim mesh1 /\ o_gdim mesh1 = o_gdim mesh2 /\ exists tag s st, (forall t, (In t (o_marks mesh1) /\ In t (o_marks mesh2)) <-> t = tag) /\
    embedded_mesh submesh (o_tdim mesh1) (o_tdim mesh1) (o_mesh mesh1) (o_marks mesh1) [tag] = Ok em /\ scale (coords (em_mesh em)) = Ok s /\
    overlap_cells (coords (o_mesh mesh2)) (conn (o_mesh mesh2)) locate (coords (em_mesh em)) tol s {| collided := []; vertex_map := repeat None (length (coords (em_mesh em))); cell_map := repeat None (length (conn (em_mesh em))) |} (combine (seq 0 (length (conn (em_mesh em)))) (conn (em_mesh em))) = Ok st /\
    all_found (vertex_map st) = Ok vm /\ all_found (cell_map st) = Ok cm.
Proof.
  unfold overlap_mesh. destruct (o_tdim mesh2 =? o_tdim mesh1)%nat eqn:E1; [cbn [py_assert bind]|discriminate]. destruct (o_gdim mesh1 =? o_gdim mesh2)%nat eqn:E2; [cbn [py_assert bind]|discriminate]. apply Nat.eqb_eq in E1, E2.
  destruct (common_tags _ _) as [|tag [|]] eqn:ET; try discriminate. pose proof (proj1 (common_tags_one _ _ _) ET) as ET'. clear ET. rename ET' into ET.
  destruct (embedded_mesh _ _ _ _ _ _) as [em'|] eqn:EE; [cbn [bind]|discriminate]. destruct (scale _) as [s|] eqn:ES; [cbn [bind]|discriminate]. destruct (overlap_cells _ _ _ _ _ _ _ _) as [st|] eqn:EC; [cbn [bind]|discriminate].
  destruct (all_found (vertex_map st)) as [vm'|] eqn:EV; [cbn [bind]|discriminate]. destruct (all_found (cell_map st)) as [cm'|] eqn:EK; [cbn [bind]|discriminate]. intros H. injection H as -> -> ->.
  split; [exact E1|]. split; [exact E2|]. exists tag, s, st. repeat split; try assumption; apply ET; assumption.
Qed.
Lemma start_ongoing mesh2 locate ex tol s n : ongoing mesh2 locate ex tol s {| collided := []; vertex_map := repeat None (length ex); cell_map := repeat None n |}.
Proof. split; [apply repeat_length|]. split; [intros v m H; discriminate|]. cbn [vertex_map]. intros v w H. exfalso. revert v H. induction (length ex) as [|k IH]; intros [|v] H; cbn in H; try discriminate. exact (IH v H). Qed.
Lemma search_result mesh2 locate em tol s st vm cm : 0 <= s ->
  overlap_cells (coords (o_mesh mesh2)) (conn (o_mesh mesh2)) locate (coords (em_mesh em)) tol s {| collided := []; vertex_map := repeat None (length (coords (em_mesh em))); cell_map := repeat None (length (conn (em_mesh em))) |} (combine (seq 0 (length (conn (em_mesh em)))) (conn (em_mesh em))) = Ok st ->
  all_found (vertex_map st) = Ok vm -> all_found (cell_map st) = Ok cm ->
  length vm = length (coords (em_mesh em)) /\ length cm = length (conn (em_mesh em)) /\ (forall v w, nth_error vm v = Some w -> next_to mesh2 locate (tol * s) (nth v (coords (em_mesh em)) []) w) /\
  forall i vs, nth_error (conn (em_mesh em)) i = Some vs -> exists c, nth_error cm i = Some c /\ fold_left meet (map (fun v => locate (nth v (coords (em_mesh em)) [])) vs) [] = [c] /\ forall v, In v vs -> locate (nth v (coords (em_mesh em)) []) <> [].
Proof.
  intros Hs EC EV EK. apply (cells_sound mesh2 locate (coords (em_mesh em)) tol s) in EC; [|exact Hs|apply start_ongoing|rewrite indexed_keys; apply seq_NoDup|].
  - destruct EC as [[O1 [_ O3]] [L [_ C]]]. cbn [cell_map] in L. rewrite repeat_length in L. apply found_spec in EV, EK. destruct EV as [V1 V2], EK as [K1 K2]. split; [congruence|]. split; [congruence|]. split; [intros v w H; apply O3, V2, H|].
    intros i vs Hi. destruct (C i vs) as [c [C1 [C2 C3]]]; [apply indexed_In; split; [lia|rewrite Nat.sub_0_r; exact Hi]|]. exists c. split; [|split; assumption].
    destruct (nth_error cm i) as [c'|] eqn:E; [apply K2 in E; congruence|]. apply nth_error_None in E. assert (i < length (conn (em_mesh em)))%nat by (apply nth_error_Some; rewrite Hi; discriminate). lia.
  - intros i vs I. apply indexed_In in I. destruct I as [_ I]. rewrite Nat.sub_0_r in I. cbn [cell_map]. rewrite repeat_length. apply nth_error_Some. rewrite I. discriminate.
Qed.
Lemma scale_nonneg x s n : (1 <= n)%nat -> Forall (fun p => length p = n) x -> scale x = Ok s -> widest x s /\ 0 <= s.
Proof.
  intros N F E. assert (NE : x <> []) by (intros ->; discriminate). destruct (scale_spec n x N NE F) as [s' [E' W]]. rewrite E in E'. injection E' as <-. split; [exact W|exact (widest_nonneg x s NE W)].
Qed.

Lemma same_entries {A} (l l' : list A) : (forall i, nth_error l i = nth_error l' i) -> l = l'.
Proof.
  revert l'. induction l as [|a l IH]; intros [|b l'] H; [reflexivity|specialize (H 0%nat); discriminate|specialize (H 0%nat); discriminate|]. assert (H0 := H 0%nat). injection H0 as ->. f_equal. apply IH. intros i. exact (H (S i)).
Qed.

(** ** C63 *)
(** There is one common tag, the new mesh is made of the cells of the first mesh with it,
    every vertex goes to a vertex next to it, and every cell of which all the vertices are
    in some cell of the second mesh goes to such a cell *)
Theorem C63_partial : forall submesh (mesh1 mesh2 : subdomain) (locate : list R -> list nat) (tol : R) (n : nat) em vm cm,
  (0 < o_tdim mesh1)%nat -> (1 <= n)%nat -> Forall (fun p => length p = n) (coords (em_mesh em)) -> marked (o_mesh mesh1) (o_marks mesh1) -> (forall f, length f = length (conn (o_mesh mesh1)) -> submesh_ok (o_mesh mesh1) f (submesh (o_mesh mesh1) f)) ->
  overlap_mesh submesh mesh1 mesh2 locate tol = Ok (em, (vm, cm)) ->
  exists tag s, (forall t, (In t (o_marks mesh1) /\ In t (o_marks mesh2)) <-> t = tag) /\ embeds (o_mesh mesh1) (o_marks mesh1) [tag] em /\ widest (coords (em_mesh em)) s /\
    length vm = length (coords (em_mesh em)) /\ length cm = length (conn (em_mesh em)) /\
    (forall v w, nth_error vm v = Some w -> next_to mesh2 locate (tol * s) (nth v (coords (em_mesh em)) []) w) /\
    forall i vs c c', nth_error (conn (em_mesh em)) i = Some vs -> nth_error cm i = Some c -> around locate (coords (em_mesh em)) vs c' -> c = c' /\ around locate (coords (em_mesh em)) vs c.
Proof.
  intros submesh mesh1 mesh2 locate tol n em vm cm T N F M SO H. destruct (opened _ _ _ _ _ _ _ _ H) as [_ [_ [tag [s [st [ET [EE [ES [EC [EV EK]]]]]]]]]]. exists tag, s. split; [exact ET|].
  destruct (C38_cells_partial submesh (o_tdim mesh1) (o_mesh mesh1) (o_marks mesh1) [tag] T M ltac:(discriminate) SO) as [em' [E' [B _]]]. rewrite EE in E'. injection E' as <-. split; [exact B|].
  destruct (scale_nonneg _ _ _ N F ES) as [W Hs]. split; [exact W|]. destruct (search_result _ _ _ _ _ _ _ _ Hs EC EV EK) as [A1 [A2 [A3 A4]]]. split; [exact A1|]. split; [exact A2|]. split; [exact A3|].
  intros i vs c c' Hi Hc AR. destruct (A4 i vs Hi) as [c1 [C1 [C2 _]]]. rewrite Hc in C1. injection C1 as <-.
  destruct vs as [|v vs]; [discriminate|]. assert (K := meets_all (map (fun v => locate (nth v (coords (em_mesh em)) [])) (v :: vs)) c' ltac:(discriminate)). rewrite C2 in K.
  assert (Q : forall b, In b (map (fun v => locate (nth v (coords (em_mesh em)) [])) (v :: vs)) -> In c' b) by (intros b I; apply in_map_iff in I; destruct I as [w [<- I]]; exact (AR w I)).
  destruct (proj2 (K Q c') Q) as [-> | []]. split; [reflexivity|exact AR].
Qed.
Print Assumptions C63_partial.
(** A mesh of segments is right without more: every cell goes to one with both the vertices *)
Theorem C63_segments : forall submesh (mesh1 mesh2 : subdomain) (locate : list R -> list nat) (tol : R) (n : nat) em vm cm,
  (1 <= n)%nat -> Forall (fun p => length p = n) (coords (em_mesh em)) -> overlap_mesh submesh mesh1 mesh2 locate tol = Ok (em, (vm, cm)) ->
  forall i vs, nth_error (conn (em_mesh em)) i = Some vs -> (length vs <= 2)%nat -> exists c, nth_error cm i = Some c /\ around locate (coords (em_mesh em)) vs c.
Proof.
  intros submesh mesh1 mesh2 locate tol n em vm cm N F H i vs Hi L. destruct (opened _ _ _ _ _ _ _ _ H) as [_ [_ [tag [s [st [ET [EE [ES [EC [EV EK]]]]]]]]]].
  destruct (scale_nonneg _ _ _ N F ES) as [W Hs]. destruct (search_result _ _ _ _ _ _ _ _ Hs EC EV EK) as [_ [_ [_ A4]]]. destruct (A4 i vs Hi) as [c [C1 [C2 C3]]]. exists c. split; [exact C1|]. intros v Hv.
  apply (meets_two _ _) with (b := locate (nth v (coords (em_mesh em)) [])) in C2; [exact C2|rewrite map_length; exact L| |apply in_map_iff; exists v; split; [reflexivity|exact Hv]].
  intros b I. apply in_map_iff in I. destruct I as [w [<- I]]. exact (C3 w I).
Qed.
Print Assumptions C63_segments.
(** ... and one of triangles if no vertex is in a single cell of the second mesh *)
Theorem C63_triangles : forall submesh (mesh1 mesh2 : subdomain) (locate : list R -> list nat) (tol : R) (n : nat) em vm cm,
  (1 <= n)%nat -> Forall (fun p => length p = n) (coords (em_mesh em)) -> overlap_mesh submesh mesh1 mesh2 locate tol = Ok (em, (vm, cm)) ->
  forall i vs, nth_error (conn (em_mesh em)) i = Some vs -> (length vs <= 3)%nat -> (forall v, In v vs -> exists c c', c <> c' /\ In c (locate (nth v (coords (em_mesh em)) [])) /\ In c' (locate (nth v (coords (em_mesh em)) []))) ->
  exists c, nth_error cm i = Some c /\ around locate (coords (em_mesh em)) vs c.
Proof.
  intros submesh mesh1 mesh2 locate tol n em vm cm N F H i vs Hi L TW. destruct (opened _ _ _ _ _ _ _ _ H) as [_ [_ [tag [s [st [ET [EE [ES [EC [EV EK]]]]]]]]]].
  destruct (scale_nonneg _ _ _ N F ES) as [W Hs]. destruct (search_result _ _ _ _ _ _ _ _ Hs EC EV EK) as [_ [_ [_ A4]]]. destruct (A4 i vs Hi) as [c [C1 [C2 C3]]]. exists c. split; [exact C1|]. intros v Hv.
  apply (meets_three _ _) with (b := locate (nth v (coords (em_mesh em)) [])) in C2; [exact C2|rewrite map_length; exact L| |apply in_map_iff; exists v; split; [reflexivity|exact Hv]].
  intros b I. apply in_map_iff in I. destruct I as [w [<- I]]. exact (TW w I).
Qed.
Print Assumptions C63_triangles.
(** It returns, with the right vertices and cells, when the cells of the first mesh with the tag are
    cells of the second one *)
Theorem C63_returns : forall submesh (mesh1 mesh2 : subdomain) (locate : list R -> list nat) (tol s : R) (n tag : nat) (pv pc : nat -> nat) em,
  o_tdim mesh2 = o_tdim mesh1 -> o_gdim mesh1 = o_gdim mesh2 -> (forall t, (In t (o_marks mesh1) /\ In t (o_marks mesh2)) <-> t = tag) ->
  embedded_mesh submesh (o_tdim mesh1) (o_tdim mesh1) (o_mesh mesh1) (o_marks mesh1) [tag] = Ok em -> embeds (o_mesh mesh1) (o_marks mesh1) [tag] em ->
  (1 <= n)%nat -> Forall (fun p => length p = n) (coords (em_mesh em)) -> widest (coords (em_mesh em)) s -> 0 < s -> spread (o_mesh mesh2) (tol * s) -> shared em mesh2 locate (tol * s) pv pc ->
  overlap_mesh submesh mesh1 mesh2 locate tol = Ok (em, (map pv (seq 0 (length (coords (em_mesh em)))), map pc (seq 0 (length (conn (em_mesh em)))))).
Proof.
  intros submesh mesh1 mesh2 locate tol s n tag pv pc em T G ET EE EB N F W S SP SH. unfold overlap_mesh. rewrite T, G, !Nat.eqb_refl. cbn [py_assert bind]. rewrite (proj2 (common_tags_one _ _ tag) ET), EE. cbn [bind].
  assert (NE : coords (em_mesh em) <> []) by (destruct W as [_ [p [q [k [P _]]]]]; intros E; rewrite E in P; destruct P).
  destruct (scale_spec n _ N NE F) as [s' [SE W']]. assert (s' = s) as -> by (destruct W as [U [p [q [k [P [Q E]]]]]], W' as [U' [p' [q' [k' [P' [Q' E']]]]]]; specialize (U p' q' k' P' Q'); specialize (U' p q k P Q); lra).
  rewrite SE. cbn [bind].
  destruct (cells_return em mesh2 locate tol s pv pc S SP SH (combine (seq 0 (length (conn (em_mesh em)))) (conn (em_mesh em)))) with (st := {| collided := []; vertex_map := repeat (@None nat) (length (coords (em_mesh em))); cell_map := repeat (@None nat) (length (conn (em_mesh em))) |}) as [st [EC [AD [AV _]]]].
  { intros i vs I. apply indexed_In in I. destruct I as [_ I]. rewrite Nat.sub_0_r in I. exact I. }
  { assert (Z : forall k v, nth v (repeat (@None nat) k) None = None) by (intros k; induction k as [|k IH]; intros [|v]; cbn; auto). split; [apply repeat_length|]. cbn [collided vertex_map dget]. split; [intros v; rewrite Z; tauto|]. split; [intros v m H; discriminate|intros v w H; rewrite Z in H; discriminate]. }
  rewrite EC. cbn [bind]. destruct AD as [AL [_ [_ AW]]].
  destruct (found_ok (vertex_map st)) as [vm EV].
  { intros v Hv. rewrite AL in Hv. destruct (embeds_vertex _ _ _ _ v EB Hv) as [i [vs [I1 I2]]]. apply (AV i vs v); [apply indexed_In; split; [lia|rewrite Nat.sub_0_r; exact I1]|exact I2]. }
  rewrite EV. cbn [bind].
  assert (EC' := EC). apply (cells_sound mesh2 locate (coords (em_mesh em)) tol s) in EC'; [|lra|apply start_ongoing|rewrite indexed_keys; apply seq_NoDup|].
  2:{ intros i vs I. apply indexed_In in I. destruct I as [_ I]. rewrite Nat.sub_0_r in I. cbn [cell_map]. rewrite repeat_length. apply nth_error_Some. rewrite I. discriminate. }
  destruct EC' as [_ [LC [_ CC]]]. cbn [cell_map] in LC. rewrite repeat_length in LC.
  destruct (found_ok (cell_map st)) as [cm EK].
  { intros i Hi. rewrite LC in Hi. destruct (nth_error (conn (em_mesh em)) i) as [vs|] eqn:E; [|apply nth_error_None in E; lia]. destruct (CC i vs) as [c [C1 _]]; [apply indexed_In; split; [lia|rewrite Nat.sub_0_r; exact E]|]. rewrite C1. discriminate. }
  rewrite EK. cbn [bind]. apply found_spec in EV, EK. destruct EV as [V1 V2], EK as [K1 K2].
  assert (P : forall (f : nat -> nat) l k, length l = k -> (forall i a, nth_error l i = Some a -> a = f i) -> l = map f (seq 0 k)).
  { intros f l k L H. apply same_entries. intros i. rewrite nth_error_map. destruct (nth_error l i) as [a|] eqn:E.
    - assert (i < k)%nat by (rewrite <- L; apply nth_error_Some; rewrite E; discriminate). rewrite (nth_error_nth' (seq 0 k) 0%nat) by (rewrite seq_length; assumption). rewrite seq_nth by assumption. cbn. rewrite (H i a E). reflexivity.
    - apply nth_error_None in E. assert (Z : nth_error (seq 0 k) i = None) by (apply nth_error_None; rewrite seq_length; lia). rewrite Z. reflexivity. }
  rewrite (P pv vm (length (coords (em_mesh em)))); [|congruence|intros v w H; apply AW, V2, H]. rewrite (P pc cm (length (conn (em_mesh em)))); [reflexivity|congruence|].
  intros i c H. assert (H' := H). apply K2 in H'. destruct (nth_error (conn (em_mesh em)) i) as [vs|] eqn:E.
  - destruct (CC i vs) as [c' [C1 [C2 _]]]; [apply indexed_In; split; [lia|rewrite Nat.sub_0_r; exact E]|]. rewrite (shared_meet em mesh2 locate tol s pv pc SP SH i vs E) in C2. injection C2 as <-. congruence.
  - apply nth_error_None in E. assert (i < length cm)%nat by (apply nth_error_Some; rewrite H; discriminate). lia.
Qed.
Print Assumptions C63_returns.
(** Without a common tag or with more of them there is no mesh *)
Theorem C63_tags : forall submesh (mesh1 mesh2 : subdomain) (locate : list R -> list nat) (tol : R),
  (forall t, In t (o_marks mesh1) -> ~ In t (o_marks mesh2)) \/ (exists t t', t <> t' /\ In t (o_marks mesh1) /\ In t' (o_marks mesh1) /\ In t (o_marks mesh2) /\ In t' (o_marks mesh2)) ->
  overlap_mesh submesh mesh1 mesh2 locate tol = Err AssertionError.
Proof.
  intros submesh mesh1 mesh2 locate tol H. unfold overlap_mesh. destruct (_ =? _)%nat; [cbn [py_assert bind]|reflexivity]. destruct (_ =? _)%nat; [cbn [py_assert bind]|reflexivity].
  destruct (common_tags _ _) as [|tag [|]] eqn:E; [reflexivity| |reflexivity]. pose proof (proj1 (common_tags_one _ _ _) E) as K. exfalso. destruct H as [H|[t [t' [N [A [B [C D]]]]]]].
  - destruct (proj2 (K tag) eq_refl) as [A B]. exact (H tag A B).
  - apply N. rewrite (proj1 (K t) (conj A C)), (proj1 (K t') (conj B D)). reflexivity.
Qed.
Print Assumptions C63_tags.
(** The dimensions have to agree *)
Theorem C63_dims : forall submesh (mesh1 mesh2 : subdomain) (locate : list R -> list nat) (tol : R),
  o_tdim mesh1 <> o_tdim mesh2 \/ o_gdim mesh1 <> o_gdim mesh2 -> overlap_mesh submesh mesh1 mesh2 locate tol = Err AssertionError.
Proof.
  intros submesh mesh1 mesh2 locate tol H. unfold overlap_mesh. destruct (Nat.eqb_spec (o_tdim mesh2) (o_tdim mesh1)) as [E|E]; [cbn [py_assert bind]|reflexivity]. destruct (Nat.eqb_spec (o_gdim mesh1) (o_gdim mesh2)) as [E'|E']; [|reflexivity]. destruct H as [H|H]; [symmetry in E|]; contradiction.
Qed.
Print Assumptions C63_dims.

(** A triangle, and the same one divided into four *)
Definition coarse : subdomain := {| o_tdim := 2; o_gdim := 2; o_mesh := Mesh [[0; 0]; [2; 0]; [0; 2]] [[0; 1; 2]]%nat; o_marks := [1]%nat |}.
Definition fine : subdomain := {| o_tdim := 2; o_gdim := 2; o_mesh := Mesh [[0; 0]; [2; 0]; [0; 2]; [1; 0]; [1; 1]; [0; 1]] [[0; 3; 5]; [3; 1; 4]; [5; 4; 2]; [3; 4; 5]]%nat; o_marks := [1; 1; 1; 1]%nat |}.
Definition le (a b : R) : bool := if Rle_dec a b then true else false.
(** The cells with the point, for points of the triangle *)
Definition find_fine (p : list R) : list nat :=
  let a := nth 0 p 0 in let b := nth 1 p 0 in
  (if le (a + b) 1 then [0%nat] else []) ++ (if le 1 a then [1%nat] else []) ++ (if le 1 b then [2%nat] else []) ++ (if le a 1 && le b 1 && le 1 (a + b) then [3%nat] else []).
Lemma le_true a b : a <= b -> le a b = true.
Proof. intros H. unfold le. destruct (Rle_dec a b); [reflexivity|contradiction]. Qed.
Lemma le_false a b : b < a -> le a b = false.
Proof. intros H. unfold le. destruct (Rle_dec a b); [lra|reflexivity]. Qed.
Lemma find_a : find_fine [0; 0] = [0%nat].
Proof. unfold find_fine. cbn [nth]. rewrite (le_true (0 + 0) 1), (le_false 1 0), (le_false 1 (0 + 0)), !andb_false_r by lra. reflexivity. Qed.
Lemma find_b : find_fine [2; 0] = [1%nat].
Proof. unfold find_fine. cbn [nth]. rewrite (le_false (2 + 0) 1), (le_true 1 2), (le_false 1 0), (le_false 2 1) by lra. reflexivity. Qed.
Lemma find_c : find_fine [0; 2] = [2%nat].
Proof. unfold find_fine. cbn [nth]. rewrite (le_false (0 + 2) 1), (le_false 1 0), (le_true 1 2), (le_false 2 1), andb_false_r by lra. reflexivity. Qed.
Definition whole (m : @mesh (list R)) (f : list nat) : @mesh (list R) * list nat * list nat := (m, seq 0 (length (coords m)), seq 0 (length (conn m))).
Lemma at_vertex st v c w (x2 : list (list R)) c2v ex tol s : 0 < tol * s -> 0 < s -> dget v (collided st) = None -> find_fine (nth v ex []) = [c] -> In w (nth c c2v []) -> nth w x2 [] = nth v ex [] ->
  exists w', locate_vertex x2 c2v find_fine ex tol s st v = Ok ({| collided := dset v [c] (collided st); vertex_map := set_nth (vertex_map st) v (Some w'); cell_map := cell_map st |}, [c]).
Proof.
  intros T S D L I X. unfold locate_vertex. rewrite D, L. cbn [hd_error opt_res bind]. destruct (py_min_ok (fun w => rnorm (rsub (nth v ex []) (nth w x2 []))) (nth c c2v [])) as [w' E]; [intros Z; rewrite Z in I; destruct I|]. rewrite E. cbn [bind].
  apply py_min_spec in E. destruct E as [_ E]. specialize (E w I). rewrite !rnorm_dist, X, LineProofs.dist_refl in E.
  assert (C : close_enough tol s (rnorm (rsub (nth v ex []) (nth w' x2 []))) = true) by (apply close_spec; [exact S|rewrite rnorm_dist; lra]). rewrite C. cbn [py_assert bind]. exists w'. reflexivity.
Qed.
(** The triangle goes to the small triangle at its third vertex, far from the second one: the
    search is started again when no cell is left *)
Theorem C63_refuted : exists submesh (mesh1 mesh2 : subdomain) (locate : list R -> list nat) em vm cm,
  overlap_mesh submesh mesh1 mesh2 locate 1 = Ok (em, (vm, cm)) /\ nth_error (conn (em_mesh em)) 0 = Some [0; 1; 2]%nat /\ nth_error cm 0 = Some 2%nat /\
  forall w, In w (nth 2 (conn (o_mesh mesh2)) []) -> 1 < GeomProofs.dist (nth 1 (coords (em_mesh em)) []) (nth w (coords (o_mesh mesh2)) []).
Proof.
  exists whole, coarse, fine, find_fine. unfold overlap_mesh. cbn [o_tdim o_gdim coarse fine Nat.eqb py_assert bind o_marks]. change (common_tags [1%nat] [1; 1; 1; 1]%nat) with [1%nat]. cbv iota beta.
  match goal with |- context [embedded_mesh ?a ?b ?c ?d ?e ?f] => let z := eval cbn in (embedded_mesh a b c d e f) in change (embedded_mesh a b c d e f) with z end. cbn [bind em_mesh coords conn].
  destruct (scale_spec 2 [[0; 0]; [2; 0]; [0; 2]]) as [s [SE W]]; [lia|discriminate|repeat constructor|]. rewrite SE. cbn [bind length seq combine].
  assert (S : 2 <= s). { destruct W as [U _]. specialize (U [2; 0] [0; 0] 0%nat). cbn [nth] in U. specialize (U ltac:(right; left; reflexivity) ltac:(left; reflexivity)). lra. }
  cbn [overlap_cells overlap_vertices]. set (ex := [[0; 0]; [2; 0]; [0; 2]]). cbn [o_mesh coords conn repeat fine]. set (x2 := [[0; 0]; [2; 0]; [0; 2]; [1; 0]; [1; 1]; [0; 1]]). set (c2v := [[0; 3; 5]; [3; 1; 4]; [5; 4; 2]; [3; 4; 5]]%nat).
  destruct (at_vertex {| collided := []; vertex_map := [None; None; None]; cell_map := [None] |} 0 0 0 x2 c2v ex 1 s) as [w0 E0]; [lra|lra|reflexivity|exact find_a|cbn; tauto|reflexivity|]. rewrite E0. cbn [bind fst snd collided vertex_map cell_map dset set_nth].
  destruct (at_vertex {| collided := [(0, [0])]%nat; vertex_map := [Some w0; None; None]; cell_map := [None] |} 1 1 1 x2 c2v ex 1 s) as [w1 E1]; [lra|lra|reflexivity|exact find_b|cbn; tauto|reflexivity|]. rewrite E1. cbn [bind fst snd collided vertex_map cell_map dset set_nth Nat.eqb].
  destruct (at_vertex {| collided := [(0, [0]); (1, [1])]%nat; vertex_map := [Some w0; Some w1; None]; cell_map := [None] |} 2 2 2 x2 c2v ex 1 s) as [w2 E2]; [lra|lra|reflexivity|exact find_c|cbn; tauto|reflexivity|]. rewrite E2. cbn [bind fst snd collided vertex_map cell_map dset set_nth Nat.eqb].
  change (meet (meet (meet [] [0%nat]) [1%nat]) [2%nat]) with [2%nat]. cbn [overlap_cells bind vertex_map cell_map collided set_nth]. 
  change (all_found [Some w0; Some w1; Some w2]) with (Ok [w0; w1; w2]). change (all_found [Some 2%nat]) with (Ok [2%nat]). cbn [bind]. eexists _, _, _. split; [reflexivity|]. cbn [em_mesh conn coords]. split; [reflexivity|]. split; [reflexivity|].
  assert (D : forall a b c d, 1 < (a - c) * (a - c) + (b - d) * (b - d) -> 1 < GeomProofs.dist [a; b] [c; d]).
  { intros a b c d H. unfold GeomProofs.dist. rewrite <- sqrt_1 at 1. apply sqrt_lt_1_alt. split; [lra|]. unfold sq_dist. cbn. lra. }
  unfold x2, c2v, ex. cbn [nth]. intros w [<- | [<- | [<- | []]]]; cbn [nth]; apply D; lra.
Qed.
Print Assumptions C63_refuted.
(** The hypotheses of C63_returns: the triangle with itself *)
Definition same_em : @emesh (list R) := EMesh (o_mesh coarse) [0; 1; 2]%nat [0%nat] [1%nat] [1%nat].
Example C63_example : overlap_mesh whole coarse coarse (fun _ => [0%nat]) (1 / 4) = Ok (same_em, ([0; 1; 2]%nat, [0%nat])).
Proof.
  assert (D : forall a b c d, 4 <= (a - c) * (a - c) + (b - d) * (b - d) -> 2 <= GeomProofs.dist [a; b] [c; d]).
  { intros a b c d H. unfold GeomProofs.dist. rewrite <- (sqrt_square 2) by lra. apply sqrt_le_1_alt. unfold sq_dist. cbn. lra. }
  apply (C63_returns whole coarse coarse (fun _ => [0%nat]) (1 / 4) 2 2 1 (fun v => v) (fun i => i) same_em); try reflexivity.
  - cbn. intros t. split; [intros [[<- | []] _]; reflexivity|intros ->; auto].
  - constructor; cbn.
    + repeat constructor. intros [].
    + intros e. split; [intros [<- | []]; exists 1%nat; auto|]. intros [m [H [<- | []]]]. destruct e as [|[|e]]; [auto|discriminate|discriminate].
    + constructor; [|constructor]. exists [0; 1; 2]%nat, [0; 1; 2]%nat. repeat split; [repeat constructor|apply Permutation.Permutation_refl].
    + repeat constructor.
    + repeat constructor; cbn; lia.
    + intros w. split.
      * intros H. exists 0%nat, [0; 1; 2]%nat. auto.
      * intros [e [vs [[<- | []] [E I]]]]. injection E as <-. exact I.
    + repeat constructor.
  - lia.
  - repeat constructor.
  - split.
    + intros p q k P Q. cbn in P, Q. destruct P as [<- | [<- | [<- | []]]], Q as [<- | [<- | [<- | []]]]; destruct k as [|[|[|]]]; cbn; lra.
    + exists [2; 0], [0; 0], 0%nat. cbn. repeat split; [auto|auto|lra].
  - lra.
  - split; [|split].
    + intros [|[|c]] w H; cbn in H |- *; lia.
    + intros w w' Hw Hw' N. cbn in Hw, Hw'. split; [destruct w as [|[|[|]]], w' as [|[|[|]]]; cbn; lia|]. apply Rle_trans with 2; [lra|]. destruct w as [|[|[|]]], w' as [|[|[|]]]; try lia; cbn [nth coords o_mesh coarse]; apply D; lra.
    + intros [|c] [|c'] _ H H'; cbn in H, H'; lia.
  - intros [|[|i]] vs H; try discriminate. injection H as <-. split; [discriminate|]. split; [cbn; lia|]. split; [intros w; rewrite map_id; reflexivity|]. intros v Hv. split; [cbn in Hv |- *; lia|]. cbn [coords em_mesh same_em]. split; [rewrite LineProofs.dist_refl; lra|]. split; [reflexivity|].
    intros c. split; [intros [<- | []]; split; [cbn; lia|exact Hv]|]. intros [Hc _]. cbn in Hc. left. lia.
Qed.
