(** C38 and C40: embedded meshes and the transfer of markers. *)
From Verif Require Import Base FillModel FillProofs EmbedModel EmbedProofs TransferProofs.
From Coq Require Import Permutation Sorted.
Local Open Scope nat_scope.
Local Close Scope Q_scope.
Local Close Scope Qc_scope.

(** Entities of lower dimension (codimension one or more) *)
Theorem C38_entities {X} submesh mdim tdim (base : @mesh X) values markers : 0 < tdim < mdim -> marked base values -> NoDup markers -> markers <> [] ->
  exists em, embedded_mesh submesh mdim tdim base values markers = Ok em /\ embeds base values markers em /\
    StronglySorted lt (em_vmap em) /\
    Forall2 (fun cell e => exists vs, nth_error (conn base) e = Some vs /\ Forall2 (fun v w => nth_error (em_vmap em) v = Some w) cell vs) (conn (em_mesh em)) (em_cmap em) /\
    (forall m, In m (em_tags em) <-> In m markers).
Proof.
  intros T M N NE. unfold embedded_mesh. destruct (Nat.ltb_spec mdim tdim); [lia|]. destruct (Nat.eqb_spec tdim 0); [lia|]. destruct (Nat.eqb_spec mdim tdim); [lia|].
  destruct (embed_entities_ok base values markers M N NE) as [em G]. exists em. destruct markers; [congruence|exact G].
Qed.
(** Cells: the numbering of the vertices is that of SubMesh *)
Theorem C38_cells_partial {X} submesh tdim (base : @mesh X) values markers : 0 < tdim -> marked base values -> markers <> [] -> (forall f, length f = length (conn base) -> submesh_ok base f (submesh base f)) ->
  exists em, embedded_mesh submesh tdim tdim base values markers = Ok em /\ embeds base values markers em /\ StronglySorted lt (em_cmap em) /\ (forall m, In m (em_tags em) <-> In m markers).
Proof.
  intros T M NE SO. unfold embedded_mesh. rewrite Nat.ltb_irrefl, Nat.eqb_refl. destruct (Nat.eqb_spec tdim 0); [lia|].
  destruct (embed_cells_ok submesh base values markers M NE (SO _ ltac:(unfold marking; rewrite one_length; apply repeat_length))) as [em G]. exists em. destruct markers; [congruence|exact G].
Qed.
Theorem C38_no_markers {X} submesh mdim tdim (base : @mesh X) values : embedded_mesh submesh mdim tdim base values [] = Err AssertionError.
Proof. unfold embedded_mesh. destruct (mdim <? tdim), (tdim =? 0); reflexivity. Qed.
Theorem C38_vertices_rejected {X} submesh mdim (base : @mesh X) values markers : embedded_mesh submesh mdim 0 base values markers = Err AssertionError.
Proof. reflexivity. Qed.

(** SubMesh numbers vertices as it meets them in the cells *)
Fixpoint first_seen (l seen : list nat) : list nat :=
  match l with [] => seen | v :: l' => first_seen l' (if existsb (Nat.eqb v) seen then seen else seen ++ [v]) end.
Definition dolfin_submesh (base : @mesh nat) (f : list nat) : @mesh nat * list nat * list nat :=
  let cells := where_eq f 1 in
  let vs := map (fun c => nth c (conn base) []) cells in
  let vmap := first_seen (concat vs) [] in
  (Mesh (map (fun v => nth v (coords base) 0) vmap) (map (map (fun v => match position v vmap with Ok k => k | Err _ => 0 end)) vs), vmap, cells).
Definition two_triangles : @mesh nat := Mesh [10; 11; 12; 13] [[0; 1; 3]; [1; 2; 3]].
Lemma first_seen_In l seen v : In v (first_seen l seen) <-> In v seen \/ In v l.
Proof.
  revert seen. induction l as [|w l IH]; intros seen; cbn [first_seen]; [cbn; tauto|]. rewrite IH. cbn [In]. destruct (existsb (Nat.eqb w) seen) eqn:E.
  - apply existsb_nat in E. split; [tauto|]. intros [H|[<-|H]]; auto.
  - rewrite in_app_iff. cbn [In]. tauto.
Qed.
Lemma first_seen_NoDup l seen : NoDup seen -> NoDup (first_seen l seen).
Proof.
  revert seen. induction l as [|w l IH]; intros seen N; cbn [first_seen]; [exact N|]. apply IH. destruct (existsb (Nat.eqb w) seen) eqn:E; [exact N|].
  apply (Permutation_NoDup (Permutation_cons_append seen w)). constructor; [|exact N]. intros H. apply existsb_nat in H. congruence.
Qed.
Lemma Forall2_map_same {A B C} (R : B -> C -> Prop) (f : A -> B) (g : A -> C) l : (forall x, In x l -> R (f x) (g x)) -> Forall2 R (map f l) (map g l).
Proof. induction l as [|x l IH]; intros H; cbn; constructor; [apply H; left; reflexivity|apply IH; intros y Y; apply H; right; exact Y]. Qed.
(** This SubMesh meets what is assumed of it. *)
Lemma dolfin_submesh_ok base f : (forall vs v, In vs (conn base) -> In v vs -> v < length (coords base)) -> length f = length (conn base) -> submesh_ok base f (dolfin_submesh base f).
Proof.
  intros WF LF. unfold dolfin_submesh. set (cells := where_eq f 1). set (vs := map (fun c => nth c (conn base) []) cells). set (vmap := first_seen (concat vs) []).
  assert (CB : forall c, In c cells -> nth_error (conn base) c = Some (nth c (conn base) [])). { intros c I. apply where_eq_In in I. apply nth_error_nth'. rewrite <- LF. apply nth_error_Some. congruence. }
  assert (VI : forall w, In w vmap <-> exists c, In c cells /\ In w (nth c (conn base) [])).
  { intros w. unfold vmap. rewrite first_seen_In, in_concat. split; [intros [[]|[l [L I]]]; apply in_map_iff in L; destruct L as [c [<- C]]; exists c; auto|]. intros [c [C I]]. right. exists (nth c (conn base) []). split; [apply in_map_iff; exists c; auto|exact I]. }
  constructor; cbn [fst snd coords conn].
  - apply where_eq_sorted.
  - intros e. apply where_eq_In.
  - unfold vs. rewrite map_map. rewrite <- (map_id cells) at 2. apply Forall2_map_same. intros c C. exists (nth c (conn base) []), (nth c (conn base) []). split; [apply CB; exact C|split; [|apply Permutation_refl]].
    rewrite <- (map_id (nth c (conn base) [])) at 2. apply Forall2_map_same. intros v V. destruct (position_ok v vmap) as [k [K K']]; [apply VI; exists c; auto|]. rewrite K. exact K'.
  - rewrite <- (map_id vmap) at 2. apply Forall2_map_same. intros w W. apply VI in W. destruct W as [c [C I]]. apply nth_error_nth'. eapply WF; [eapply nth_error_In, CB, C|exact I].
  - apply first_seen_NoDup. constructor.
  - intros w. rewrite VI. split; [intros [c [C I]]; exists c, (nth c (conn base) []); auto|]. intros [e [us [A [B D]]]]. exists e. split; [exact A|]. rewrite (CB e A) in B. injection B as <-. exact D.
Qed.
(** so that the vertices of an embedded mesh of cells need not keep their order *)
Theorem C38_vertex_order_refuted : exists (base : @mesh nat) values markers em, marked base values /\ NoDup markers /\
  embedded_mesh dolfin_submesh 2 2 base values markers = Ok em /\ embeds base values markers em /\ ~ StronglySorted lt (em_vmap em).
Proof.
  exists two_triangles, [1; 2], [1; 2]. assert (M : marked two_triangles [1; 2]). { split; [reflexivity|]. intros vs v [<-|[<-|[]]]; cbn; intuition lia. }
  destruct (C38_cells_partial dolfin_submesh 2 two_triangles [1; 2] [1; 2] ltac:(lia) M ltac:(discriminate) (fun f => dolfin_submesh_ok two_triangles f (proj2 M))) as [em [A [B _]]].
  exists em. split; [exact M|split; [repeat (constructor; [cbn; intuition lia|]); constructor|split; [exact A|split; [exact B|]]]].
  vm_compute in A. injection A as <-. cbn. intros S'. inversion S' as [|? ? S1 _]; subst. inversion S1 as [|? ? S2 _]; subst. inversion S2 as [|? ? S3 F]; subst. inversion F. lia.
Qed.
(** A marker given twice doubles the cells (entities), hence "distinct" *)
Theorem C38_repeated_marker : exists (base : @mesh nat) values em, marked base values /\ embedded_mesh dolfin_submesh 2 1 base values [1; 1] = Ok em /\ ~ NoDup (em_cmap em).
Proof.
  exists (Mesh [10; 11; 12] [[0; 1]; [1; 2]]), [1; 0]. eexists. split; [|split; [vm_compute; reflexivity|]].
  - split; [reflexivity|]. intros vs v [<-|[<-|[]]]; cbn; intuition lia.
  - cbn. intros N. inversion N as [|? ? H _]. apply H. left. reflexivity.
Qed.
Example C38_example : exists em, embedded_mesh dolfin_submesh 2 1 (Mesh [10; 11; 12; 13] [[0; 1]; [0; 3]; [1; 2]; [1; 3]; [2; 3]]) [5; 0; 7; 0; 5] [7; 5] = Ok em /\
  em_cmap em = [2; 0; 4] /\ em_vmap em = [0; 1; 2; 3] /\ em_f em = [7; 5; 5] /\ conn (em_mesh em) = [[1; 2]; [0; 1]; [2; 3]].
Proof. eexists. split; [vm_compute; reflexivity|cbn; auto]. Qed.
Example C38_example_meets : marked (Mesh [10; 11; 12; 13] [[0; 1]; [0; 3]; [1; 2]; [1; 3]; [2; 3]]) [5; 0; 7; 0; 5] /\ NoDup [7; 5].
Proof. split; [split; [reflexivity|]|repeat (constructor; [cbn; intuition lia|]); constructor]. intros vs v I J. cbn in I |- *. repeat (destruct I as [<-|I]; [cbn in J; intuition lia|]). destruct I. Qed.

(** The value is one of those to be transferred. *)
Definition requested (tags : option (list nat)) (v : nat) : Prop := match tags with Some t => In v t | None => True end.
Lemma wanted_in tags v : In v tags -> wanted tags v = v.
Proof. intros H. unfold wanted. apply existsb_nat in H. rewrite H. reflexivity. Qed.
Lemma wanted_out tags v : ~ In v tags -> wanted tags v = 0.
Proof. intros H. unfold wanted. destruct (existsb (Nat.eqb v) tags) eqn:E; [apply existsb_nat in E; contradiction|reflexivity]. Qed.

Theorem C40_unique {X} (base : @mesh X) values markers em child parent n np k : embeds base values markers em -> simplicial child (conn (em_mesh em)) n k -> simplicial parent (conn base) np k ->
  forall e, e < n -> exists p, p < np /\ coincide child parent (em_vmap em) e p /\ forall q, q < np -> coincide child parent (em_vmap em) e q -> q = p.
Proof.
  intros EM CH PA e E. set (pv := repeat 0 np). assert (L : length pv = np) by apply repeat_length. rewrite <- L in PA |- *.
  destruct (e_cell base values markers em EM child parent n k pv CH PA e E) as [c [pc [p [_ [_ [_ [P C]]]]]]]. exists p. split; [exact P|split; [exact C|]]. intros q Q D. eapply co_unique_p; eauto.
Qed.
Theorem C40_transfer {X} (base : @mesh X) values markers em child parent n k p_values tags :
  embeds base values markers em -> simplicial child (conn (em_mesh em)) n k -> simplicial parent (conn base) (length p_values) k ->
  exists f, transfer_markers child parent n (em_vmap em) (em_cmap em) p_values tags = Ok f /\ length f = n /\
    forall e p v, e < n -> nth_error p_values p = Some v -> coincide child parent (em_vmap em) e p ->
      (requested tags v -> nth_error f e = Some v) /\ (~ requested tags v -> nth_error f e = Some 0).
Proof.
  intros EM CH PA. unfold transfer_markers. set (ts := match tags with Some m => m | None => _ end).
  destruct (transfer_loop_spec base values markers em EM child parent n k p_values CH PA ts (seq 0 n) None) as [f [F G]]; [intros e I; apply in_seq in I; lia|].
  exists f. split; [exact F|]. pose proof (Forall2_len _ _ _ G) as L. rewrite seq_length in L. split; [congruence|]. intros e p v E P C.
  assert (PB : p < length p_values) by (apply nth_error_Some; congruence). assert (SE : nth_error (seq 0 n) e = Some e). { rewrite (nth_error_nth' _ 0) by (rewrite seq_length; exact E). rewrite seq_nth by exact E. reflexivity. }
  destruct (Forall2_nth_l _ _ _ _ _ G SE) as [y [Y1 Y2]]. specialize (Y2 p PB C). rewrite (nth_error_nth _ _ 0 P) in Y2. rewrite Y1. split; intros R; f_equal; rewrite Y2.
  - unfold ts. destruct tags as [t|]; cbn in R; [apply wanted_in; exact R|]. destruct (Nat.eq_dec v 0) as [->|NZ]; [unfold wanted; destruct (existsb _ _); reflexivity|]. apply wanted_in. apply filter_In. split; [apply nodup_In; eapply nth_error_In; exact P|]. destruct (Nat.eqb_spec v 0); [contradiction|reflexivity].
  - unfold ts. destruct tags as [t|]; cbn in R; [apply wanted_out; exact R|tauto].
Qed.
Theorem C40_translate {X} (base : @mesh X) values markers em child parent n k p_values tags f0 :
  embeds base values markers em -> simplicial child (conn (em_mesh em)) n k -> simplicial parent (conn base) (length p_values) k -> (forall g, f0 = Some g -> length g = n) ->
  exists f, translate_markers child parent n (em_vmap em) (em_cmap em) p_values tags f0 = Ok f /\ length f = n /\
    forall e p v, e < n -> nth_error p_values p = Some v -> coincide child parent (em_vmap em) e p ->
      (requested tags v -> nth_error f e = Some v) /\ (~ requested tags v -> nth_error f e = match f0 with Some g => nth_error g e | None => Some 0 end).
Proof.
  intros EM CH PA LF. unfold translate_markers. set (ts := match tags with Some m => m | None => _ end). set (g := match f0 with Some f => f | None => _ end). rewrite foldM_nested.
  assert (LG : length g = n) by (unfold g; destruct f0 as [g'|]; [apply LF; reflexivity|apply repeat_length]).
  assert (TI : forall p v, nth_error p_values p = Some v -> (In p (concat (map (where_eq p_values) ts)) <-> In v ts)).
  { intros p v P. rewrite tagged_In. split; [intros [m [A B]]; congruence|eauto]. }
  destruct (translate_fold base values markers em EM child parent n k p_values CH PA (concat (map (where_eq p_values) ts)) g LG) as [f [F [L H]]].
  { intros p I. apply tagged_In in I. destruct I as [m [I _]]. apply nth_error_Some. congruence. }
  exists f. split; [exact F|split; [exact L|]]. intros e p v E P C. assert (PB : p < length p_values) by (apply nth_error_Some; congruence). specialize (H e p E PB C). rewrite (nth_error_nth _ _ 0 P) in H.
  rewrite (nth_error_nth' f 0) by lia. rewrite H. split; intros R.
  - assert (I : In p (concat (map (where_eq p_values) ts))). { apply (TI p v P). unfold ts. destruct tags as [t|]; [exact R|]. apply np_unique_In. eapply nth_error_In. exact P. }
    apply existsb_nat in I. rewrite I. reflexivity.
  - destruct (existsb (Nat.eqb p) _) eqn:I; [exfalso; apply existsb_nat in I; apply (TI p v P) in I; apply R; unfold ts in I; destruct tags as [t|]; [exact I|exact Logic.I]|].
    unfold g. destruct f0 as [g'|]; [symmetry; apply nth_error_nth'; rewrite (LF g' eq_refl); exact E|]. rewrite nth_repeat. reflexivity.
Qed.
(** They agree when no function to fill is given *)
Theorem C40_agree {X} (base : @mesh X) values markers em child parent n k p_values tags :
  embeds base values markers em -> simplicial child (conn (em_mesh em)) n k -> simplicial parent (conn base) (length p_values) k ->
  exists f, transfer_markers child parent n (em_vmap em) (em_cmap em) p_values tags = Ok f /\ translate_markers child parent n (em_vmap em) (em_cmap em) p_values tags None = Ok f.
Proof.
  intros EM CH PA. destruct (C40_transfer base values markers em child parent n k p_values tags EM CH PA) as [f [F [L H]]].
  destruct (C40_translate base values markers em child parent n k p_values tags None EM CH PA ltac:(discriminate)) as [f' [F' [L' H']]]. exists f. split; [exact F|]. rewrite F'. f_equal.
  apply (nth_ext _ _ 0 0); [congruence|]. intros e E. rewrite L' in E. destruct (C40_unique base values markers em child parent n (length p_values) k EM CH PA e E) as [p [P [C _]]].
  pose proof (proj2 (nth_error_Some p_values p) P) as Q. destruct (nth_error p_values p) as [v|] eqn:V; [|congruence]. destruct (H e p v E V C) as [A B]. destruct (H' e p v E V C) as [A' B'].
  assert (D : requested tags v \/ ~ requested tags v). { destruct tags as [t|]; cbn; [destruct (in_dec Nat.eq_dec v t); auto|auto]. }
  destruct D as [D|D]; [rewrite (nth_error_nth _ _ 0 (A D)), (nth_error_nth _ _ 0 (A' D)); reflexivity|rewrite (nth_error_nth _ _ 0 (B D)), (nth_error_nth _ _ 0 (B' D)); reflexivity].
Qed.

(** Edges of the two triangles, and of the second alone. *)
Definition p_edges : list (list nat) := [[0; 1]; [0; 3]; [1; 3]; [1; 2]; [2; 3]].
Definition p_conns : conns := Conns (fun e => nth e p_edges []) (fun e => nth e [[0]; [0]; [0; 1]; [1]; [1]] []) (fun c => nth c [[0; 1; 2]; [2; 3; 4]] []).
Definition c_edges : list (list nat) := [[0; 1]; [0; 2]; [1; 2]].
Definition c_conns : conns := Conns (fun e => nth e c_edges []) (fun e => nth e [[0]; [0]; [0]] []) (fun c => nth c [[0; 1; 2]] []).
Definition second : @emesh nat := EMesh (Mesh [11; 12; 13] [[0; 1; 2]]) [1; 2; 3] [1] [7] [7].
Lemma second_is : embedded_mesh dolfin_submesh 2 2 two_triangles [0; 7] [7] = Ok second.
Proof. reflexivity. Qed.
Lemma second_embeds : embeds two_triangles [0; 7] [7] second.
Proof.
  constructor; cbn.
  - repeat (constructor; [cbn; intuition lia|]). constructor.
  - intros e. split; [intros [<-|[]]; exists 7; cbn; auto|]. intros [m [E [<-|[]]]]. destruct e as [|[|[|e]]]; cbn in E; try discriminate; auto.
  - constructor; [|constructor]. exists [1; 2; 3], [1; 2; 3]. split; [reflexivity|split; [repeat constructor|apply Permutation_refl]].
  - repeat constructor.
  - repeat (constructor; [cbn; intuition lia|]). constructor.
  - intros w. split; [intros H; exists 1, [1; 2; 3]; cbn; tauto|]. intros [e [vs [[<-|[]] [E I]]]]. cbn in E. injection E as <-. exact I.
  - repeat constructor.
Qed.
Lemma pair_in (vs : list nat) : length vs = 2 -> NoDup vs -> exists a b, vs = [a; b] /\ a <> b.
Proof. destruct vs as [|a [|b [|]]]; try discriminate. intros _ N. exists a, b. split; [reflexivity|]. inversion N as [|? ? H _]. cbn in H. intuition. Qed.
Lemma incl_bool a b : incl a b -> forallb (fun v => existsb (Nat.eqb v) b) a = true.
Proof. intros H. apply forallb_forall. intros v V. apply existsb_nat, H, V. Qed.
Lemma p_simplicial : simplicial p_conns (conn two_triangles) 5 2.
Proof.
  constructor; cbn [e2v e2c c2e p_conns conn two_triangles length].
  - intros e H. do 5 (destruct e as [|e]; [cbn; split; [repeat (constructor; [cbn; intuition lia|]); constructor|reflexivity]|]). lia.
  - intros e e' H H' S'. do 5 (destruct e as [|e]; [do 5 (destruct e' as [|e']; [try reflexivity; exfalso; apply same_set_spec in S'; vm_compute in S'; discriminate S'|]); lia|]). lia.
  - intros cell vs I N L J. destruct (pair_in vs L N) as [a [b [-> AB]]]. assert (A := J a (or_introl eq_refl)). assert (B := J b (or_intror (or_introl eq_refl))).
    destruct I as [<-|[<-|[]]]; cbn in A, B; destruct A as [<-|[<-|[<-|[]]]], B as [<-|[<-|[<-|[]]]]; try congruence;
      first [exists 0; split; [lia|cbn; intros v; tauto]|exists 1; split; [lia|cbn; intros v; tauto]|exists 2; split; [lia|cbn; intros v; tauto]|exists 3; split; [lia|cbn; intros v; tauto]|exists 4; split; [lia|cbn; intros v; tauto]].
  - intros c cell e E. destruct c as [|[|[|c]]]; cbn in E; try discriminate; injection E as <-; cbn [nth]; (split; [intros I; repeat (destruct I as [<-|I]; [split; [lia|intros v; cbn; tauto]|]); destruct I|]); intros [H I];
      (do 5 (destruct e as [|e]; [try (cbn; tauto); exfalso; apply incl_bool in I; vm_compute in I; discriminate I|])); lia.
  - intros c H. destruct c as [|[|c]]; [| |lia]; cbn; repeat (constructor; [cbn; intuition lia|]); constructor.
  - intros e c H. do 5 (destruct e as [|e]; [destruct c as [|[|[|c]]]; cbn; intuition lia|]). lia.
  - intros e H. do 5 (destruct e as [|e]; [eexists; cbn; left; reflexivity|]). lia.
Qed.
Lemma c_simplicial : simplicial c_conns (conn (em_mesh second)) 3 2.
Proof.
  constructor; cbn [e2v e2c c2e c_conns conn second em_mesh length].
  - intros e H. do 3 (destruct e as [|e]; [cbn; split; [repeat (constructor; [cbn; intuition lia|]); constructor|reflexivity]|]). lia.
  - intros e e' H H' S'. do 3 (destruct e as [|e]; [do 3 (destruct e' as [|e']; [try reflexivity; exfalso; apply same_set_spec in S'; vm_compute in S'; discriminate S'|]); lia|]). lia.
  - intros cell vs I N L J. destruct (pair_in vs L N) as [a [b [-> AB]]]. assert (A := J a (or_introl eq_refl)). assert (B := J b (or_intror (or_introl eq_refl))).
    destruct I as [<-|[]]; cbn in A, B; destruct A as [<-|[<-|[<-|[]]]], B as [<-|[<-|[<-|[]]]]; try congruence;
      first [exists 0; split; [lia|cbn; intros v; tauto]|exists 1; split; [lia|cbn; intros v; tauto]|exists 2; split; [lia|cbn; intros v; tauto]].
  - intros c cell e E. destruct c as [|[|c]]; cbn in E; try discriminate; injection E as <-; cbn [nth]; (split; [intros I; repeat (destruct I as [<-|I]; [split; [lia|intros v; cbn; tauto]|]); destruct I|]); intros [H I];
      (do 3 (destruct e as [|e]; [try (cbn; tauto); exfalso; apply incl_bool in I; vm_compute in I; discriminate I|])); lia.
  - intros c H. destruct c as [|c]; [|lia]; cbn; repeat (constructor; [cbn; intuition lia|]); constructor.
  - intros e c H. do 3 (destruct e as [|e]; [destruct c as [|[|c]]; cbn; intuition lia|]). lia.
  - intros e H. do 3 (destruct e as [|e]; [eexists; cbn; left; reflexivity|]). lia.
Qed.
Example C40_example : transfer_markers c_conns p_conns 3 (em_vmap second) (em_cmap second) [4; 4; 5; 6; 5] (Some [5]) = Ok [0; 5; 5] /\
  translate_markers c_conns p_conns 3 (em_vmap second) (em_cmap second) [4; 4; 5; 6; 5] (Some [5]) None = Ok [0; 5; 5] /\
  transfer_markers c_conns p_conns 3 (em_vmap second) (em_cmap second) [4; 4; 5; 6; 5] None = Ok [6; 5; 5].
Proof. repeat split; reflexivity. Qed.
Example C40_example_meets : exists f, transfer_markers c_conns p_conns 3 (em_vmap second) (em_cmap second) [4; 4; 5; 6; 5] (Some [5]) = Ok f.
Proof. destruct (C40_transfer _ _ _ _ _ _ _ _ [4; 4; 5; 6; 5] (Some [5]) second_embeds c_simplicial p_simplicial) as [f [H _]]. exists f. exact H. Qed.

Print Assumptions C38_entities.
Print Assumptions C38_cells_partial.
Print Assumptions C38_no_markers.
Print Assumptions C38_vertices_rejected.
Print Assumptions C38_vertex_order_refuted.
Print Assumptions C38_repeated_marker.
Print Assumptions C40_unique.
Print Assumptions C40_transfer.
Print Assumptions C40_translate.
Print Assumptions C40_agree.
