(** The maps from trace cells to facets that a trace mesh carries (property C61). *)
From Verif Require Import Base EntityModel EntityProofs.

(** ** C61 *)
(** Whatever is asked of a trace mesh, in any order and whether or not some requests
    fail, all it knows is right, nothing is forgotten *)
Theorem C61_invariant : forall (tdim : nat) (image : nat -> nat -> nat -> nat) (build : nat -> mesh_function -> list nat -> res entity_map) (tm : trace_mesh) (cs : list call),
  searches tdim image build -> right tdim image tm ->
  right tdim image (calls build tm cs) /\ forall mesh dim c e, knows tm mesh dim c e -> knows (calls build tm cs) mesh dim c e.
Proof. intros tdim image build tm cs SE RI. apply calls_spec; assumption. Qed.
Print Assumptions C61_invariant.
(** A request for one mesh does not touch what is known of others *)
Theorem C61_others : forall (tdim : nat) (image : nat -> nat -> nat -> nat) (build : nat -> mesh_function -> list nat -> res entity_map) (tm : trace_mesh) (mesh : nat) (sub : option mesh_function) (tags : option (list nat)) (mesh' dim c e : nat),
  searches tdim image build -> right tdim image tm -> mesh' <> mesh ->
  (knows (fst (get_entity_map build mesh tm sub tags)) mesh' dim c e <-> knows tm mesh' dim c e).
Proof. intros tdim image build tm mesh sub tags mesh' dim c e SE RI N. destruct (call_spec tdim image build SE mesh tm sub tags RI) as (_ & A & B). split; auto. Qed.
Print Assumptions C61_others.
(** After a request that returns all cells with the tags are known, if there was
    no map of the mesh, or if all cells with the remaining tags of the trace mesh were
    mapped before (there may be none) *)
Theorem C61_partial : forall (tdim : nat) (image : nat -> nat -> nat -> nat) (build : nat -> mesh_function -> list nat -> res entity_map) (tm tm' : trace_mesh) (mesh : nat) (f : mesh_function) (tags : list nat),
  searches tdim image build -> right tdim image tm -> mf_dim f = tdim -> get_entity_map build mesh tm (Some f) (Some tags) = (tm', Ok tt) ->
  (t_maps tm = None \/ ~ knows_mesh tm mesh \/
   (forall tagged t c, t_tagged tm = Some tagged -> In t tagged -> ~ In t tags -> nth_error (mf_values f) c = Some t -> exists e, knows tm mesh tdim c e)) ->
  forall c tag, nth_error (mf_values f) c = Some tag -> In tag tags -> knows tm' mesh tdim c (image mesh tdim c).
Proof. intros tdim image build tm tm' mesh f tags SE RI. apply searched; assumption. Qed.
Print Assumptions C61_partial.
(** A trace mesh without any map or tags answers the first request for what the search
    finds *)
Theorem C61_fresh : forall (build : nat -> mesh_function -> list nat -> res entity_map) (mesh : nat) (f : mesh_function) (tags : list nat) (em : entity_map),
  build mesh f tags = Ok em -> get_entity_map build mesh (TraceMesh None None) (Some f) (Some tags) = (TraceMesh (Some [(mesh, em)]) (Some tags), Ok tt).
Proof. intros build mesh f tags em E. unfold get_entity_map. cbn. rewrite E. reflexivity. Qed.
Print Assumptions C61_fresh.
(** Failed searches are handed on and leave the trace mesh as it was *)
Theorem C61_failed : forall (build : nat -> mesh_function -> list nat -> res entity_map) (tm : trace_mesh) (mesh : nat) (f : mesh_function) (tags : list nat) (e : exn),
  (t_maps tm = None \/ t_tagged tm <> None) -> ~ knows_mesh tm mesh -> build mesh f tags = Err e -> get_entity_map build mesh tm (Some f) (Some tags) = (tm, Err e).
Proof.
  intros build tm mesh f tags e H NK E. unfold get_entity_map. cbn [build_map]. rewrite E. destruct (t_maps tm) as [maps|] eqn:TM; [|reflexivity].
  destruct (t_tagged tm) eqn:TT; [|destruct H; congruence]. destruct (lookup mesh maps) as [em|] eqn:L; [|reflexivity]. exfalso. apply NK. exists maps, em. split; [exact TM|]. apply lookup_in, L.
Qed.
Print Assumptions C61_failed.
(** If a cell with a tag of the trace mesh that is not asked for is not known, then
    nothing is searched (the tags are subtracted the wrong way round and the inclusion
    is that of the cells already there): whatever cells are asked for, if they were not
    known they are not known afterwards, and the call returns *)
Theorem C61_refuted : forall (build : nat -> mesh_function -> list nat -> res entity_map) (mesh : nat) (tm : trace_mesh) (f : mesh_function) (tags : list nat) (maps : list (nat * entity_map)) (em : entity_map) (d : list (nat * nat)) (tagged : list nat) (t c : nat),
  t_maps tm = Some maps -> dict maps -> In (mesh, em) maps -> dict em -> In (mf_dim f, d) em -> t_tagged tm = Some tagged ->
  In t tagged -> ~ In t tags -> nth_error (mf_values f) c = Some t -> (forall e, ~ In (c, e) d) ->
  get_entity_map build mesh tm (Some f) (Some tags) = (tm, Ok tt).
Proof. exact skipped. Qed.
Print Assumptions C61_refuted.
(** So it happens with three tags: for any search that finds what it is asked for (and
    only that), asking another mesh for the first tag and then for the second
    leaves the cells of the second unknown, though both calls return *)
Theorem C61_three_tags_refuted : forall (tdim : nat) (image : nat -> nat -> nat -> nat) (build : nat -> mesh_function -> list nat -> res entity_map) (tm : trace_mesh) (mesh : nat) (f : mesh_function) (a b z ca cb cz : nat) (tagged : list nat) (em : entity_map),
  searches tdim image build -> right tdim image tm -> mf_dim f = tdim ->
  (forall em' d c e, build mesh f [a] = Ok em' -> In (tdim, d) em' -> In (c, e) d -> nth_error (mf_values f) c = Some a) ->
  t_maps tm <> None -> ~ knows_mesh tm mesh -> t_tagged tm = Some tagged -> In a tagged -> In b tagged -> In z tagged -> z <> a -> z <> b -> a <> b ->
  nth_error (mf_values f) ca = Some a -> nth_error (mf_values f) cb = Some b -> nth_error (mf_values f) cz = Some z -> build mesh f [a] = Ok em ->
  exists tm1 tm2, get_entity_map build mesh tm (Some f) (Some [a]) = (tm1, Ok tt) /\ get_entity_map build mesh tm1 (Some f) (Some [b]) = (tm2, Ok tt) /\
    knows tm2 mesh tdim ca (image mesh tdim ca) /\ forall e, ~ knows tm2 mesh tdim cb e.
Proof.
  intros tdim image build tm mesh f a b z ca cb cz tagged em SE RI FD ON NM NK TG Ia Ib Iz Za Zb Ab Ca Cb Cz B.
  destruct (t_maps tm) as [maps|] eqn:TM; [|congruence]. pose proof RI as [W V]. destruct (W maps TM) as (D & _ & MO). destruct (SE _ _ _ _ B) as ((DE & KE & VE) & MV & MT).
  destruct (proj2 (KE tdim) (or_intror eq_refl)) as [d Hd].
  assert (G1 : get_entity_map build mesh tm (Some f) (Some [a]) = (TraceMesh (Some (assign mesh em maps)) (Some tagged), Ok tt)).
  { unfold get_entity_map. rewrite TM, TG. destruct (lookup mesh maps) as [old|] eqn:L; [exfalso; apply NK; exists maps, old; split; [exact TM|apply lookup_in, L]|]. cbn [build_map]. rewrite B. reflexivity. }
  exists (TraceMesh (Some (assign mesh em maps)) (Some tagged)), (TraceMesh (Some (assign mesh em maps)) (Some tagged)). split; [exact G1|]. split; [|split].
  - apply (skipped build mesh _ f [b] (assign mesh em maps) em d tagged z cz); try reflexivity; try assumption.
    + apply assign_dict, D.
    + apply assign_in; auto.
    + rewrite FD. exact Hd.
    + intros [E|[]]. congruence.
    + intros e He. pose proof (ON em d cz e B Hd He). congruence.
  - apply (searched tdim image build SE mesh tm f [a] _ RI FD G1) with (tag := a); [right; left; exact NK|exact Ca|left; reflexivity].
  - intros e K. apply knows_assign in K; [|exact D]. destruct K as [(_ & d' & K1 & K2)|(N & _)]; [|congruence]. pose proof (ON em d' cb e B K1 K2). congruence.
Qed.
Print Assumptions C61_three_tags_refuted.

(** A search in three cells with tags 1, 2, 3, the images of which are the facets 10, 11,
    12 in every mesh *)
Definition three_search (mesh : nat) (f : mesh_function) (tags : list nat) : res entity_map :=
  Ok [(0, []); (1, map (fun c => (c, 10 + c)) (filter (fun c => match nth_error (mf_values f) c with Some t => existsb (Nat.eqb t) tags | None => false end) (seq 0 (length (mf_values f)))))].
Definition three_values := MeshFunction 1 [1; 2; 3].
Definition three_image (mesh dim c : nat) : nat := 10 + c.
Definition embedded_three := TraceMesh (Some [(7, [(0, []); (1, [(0, 10); (1, 11); (2, 12)])])]) (Some [1; 2; 3]).
Lemma three_searches : searches 1 three_image three_search.
Proof.
  intros mesh f tags em E. unfold three_search in E. injection E as <-. set (l := filter _ _).
  assert (ND : NoDup l) by (apply NoDup_filter, seq_NoDup). split; [|split].
  - split; [|split].
    + constructor; [intros [H|[]]; discriminate|constructor; [intros []|constructor]].
    + intros dim. split; [intros [d [H|[H|[]]]]; injection H as <- _; auto|]. intros [-> | ->]; eexists; [left; reflexivity|right; left; reflexivity].
    + intros dim d [H|[H|[]]]; injection H as <- <-; [constructor|]. unfold dict. rewrite map_map, map_id. exact ND.
  - intros dim d c e [H|[H|[]]] Hc; injection H as <- <-; [destruct Hc|]. apply in_map_iff in Hc. destruct Hc as (x & E & _). injection E as <- <-. reflexivity.
  - intros d c tag [H|[H|[]]] Hc Ht; [discriminate H|]. injection H as <-. exists (10 + c). apply in_map_iff. exists c. split; [reflexivity|]. apply filter_In. split.
    + apply in_seq. assert (c < length (mf_values f)) by (apply nth_error_Some; congruence). lia.
    + rewrite Hc. apply existsb_exists. exists tag. split; [exact Ht|apply Nat.eqb_refl].
Qed.
Lemma embedded_three_right : right 1 three_image embedded_three.
Proof.
  split.
  - cbn. intros maps E. injection E as <-. split; [constructor; [intros []|constructor]|]. split; [discriminate|]. intros mesh em [H|[]]. injection H as <- <-. split; [|split].
    + constructor; [intros [H|[]]; discriminate|constructor; [intros []|constructor]].
    + intros dim. split; [intros [d [H|[H|[]]]]; injection H as <- _; auto|]. intros [-> | ->]; eexists; [left; reflexivity|right; left; reflexivity].
    + intros dim d [H|[H|[]]]; injection H as <- <-; [constructor|]. cbn. repeat constructor; cbn; intuition discriminate.
  - intros mesh dim c e (maps & em & d & E & H1 & H2 & H3). cbn in E. injection E as <-. destruct H1 as [H1|[]]. injection H1 as <- <-. destruct H2 as [H2|[H2|[]]]; injection H2 as <- <-; [destruct H3|].
    destruct H3 as [H3|[H3|[H3|[]]]]; injection H3 as <- <-; reflexivity.
Qed.
(** The hypotheses of C61_partial and C61_three_tags_refuted are met *)
Example C61_case : exists tm1 tm2, get_entity_map three_search 8 embedded_three (Some three_values) (Some [1]) = (tm1, Ok tt) /\
  get_entity_map three_search 8 tm1 (Some three_values) (Some [2]) = (tm2, Ok tt) /\
  knows tm1 8 1 0 10 /\ (forall e, ~ knows tm2 8 1 1 e) /\
  snd (get_entity_map three_search 7 embedded_three (Some three_values) (Some [2])) = Ok tt.
Proof.
  destruct (C61_three_tags_refuted 1 three_image three_search embedded_three 8 three_values 1 2 3 0 1 2 [1; 2; 3] [(0, []); (1, [(0, 10)])] three_searches embedded_three_right) as (tm1 & tm2 & A & B & C & D); try reflexivity; try discriminate; cbn; auto.
  - intros em' d c e E H1 H2. injection E as <-. destruct H1 as [H1|[H1|[]]]; [discriminate H1|]. injection H1 as <-. destruct H2 as [H2|[]]. injection H2 as <- <-. reflexivity.
  - intros (maps & em & E & H). cbn in E. injection E as <-. destruct H as [H|[]]. discriminate H.
  - exists tm1, tm2. split; [exact A|]. split; [exact B|]. split; [|split; [exact D|reflexivity]].
    change 10 with (three_image 8 1 0). apply (C61_partial 1 three_image three_search embedded_three tm1 8 three_values [1] three_searches embedded_three_right eq_refl A) with (tag := 1); [|reflexivity|left; reflexivity].
    right. left. intros (maps & em & E & H). cbn in E. injection E as <-. destruct H as [H|[]]. discriminate H.
Qed.

(** ** The search of C47 *)
From Verif Require Import EmapModel EmapProofs EmapProps.
From Coq Require Import Reals.
Local Open Scope nat_scope.
(** build_embedding_map of EmapModel.v; a cell function has a value for every cell *)
Definition emap_search (emesh : embedded) (meshes : nat -> parent) (locate : nat -> list R -> list nat) (tol : R) (mesh : nat) (f : mesh_function) (tags : list nat) : res entity_map :=
  if negb (length (mf_values f) =? length (s_cells emesh)) then Err RuntimeError
  else do r <- build_embedding_map emesh (meshes mesh) (locate mesh) (Some (mf_dim f, mf_values f)) (Some tags) tol; Ok [(0, fst r); (s_dim emesh, snd r)].
(** For a trace mesh of segments or triangles that are entities of all the meshes it is
    a search as the theorems above ask for *)
Theorem C61_search : forall (emesh : embedded) (meshes : nat -> parent) (locate : nat -> list R -> list nat) (tol s : R) (n : nat) (pv pe : nat -> nat -> nat),
  s_extract emesh = None -> 0 < s_dim emesh -> Forall (fun vs => length vs <= 3) (s_cells emesh) -> 1 <= n -> Forall (fun p => length p = n) (s_x emesh) -> widest (s_x emesh) s -> (0 < s)%R ->
  (forall m, branching (meshes m) /\ s_dim emesh < p_tdim (meshes m) /\ wf_parent (meshes m) (tol * s)%R /\ made_of emesh (meshes m) (locate m) (tol * s)%R (fun i => i < length (s_cells emesh)) (pv m) (pe m)) ->
  searches (s_dim emesh) (fun m dim => if dim =? 0 then pv m else pe m) (emap_search emesh meshes locate tol).
Proof.
  intros emesh meshes locate tol s n pv pe EX DP L3 N1 DIM W S M mesh f tags em E. unfold emap_search in E.
  destruct (length (mf_values f) =? length (s_cells emesh)) eqn:LE; [|discriminate]. apply Nat.eqb_eq in LE. cbn [negb] in E.
  destruct (build_embedding_map emesh (meshes mesh) (locate mesh) (Some (mf_dim f, mf_values f)) (Some tags) tol) as [[vmap emap]|] eqn:B; [|discriminate]. injection E as <-. cbn [fst snd].
  destruct (M mesh) as (BR & TD & WF & MO).
  destruct (C47_partial _ _ _ _ _ _ n vmap emap EX BR L3 N1 DIM B) as (s' & _ & [EN EK] & [VN VK] & _).
  assert (SD : forall d values, Some (mf_dim f, mf_values f) = Some (d, values) -> d = s_dim emesh).
  { intros d values Q. injection Q as <- <-. unfold build_embedding_map in B. destruct (s_dim emesh <? p_tdim (meshes mesh)); [|discriminate B]. cbn [py_assert bind] in B. destruct (mf_dim f =? s_dim emesh) eqn:Q; [apply Nat.eqb_eq, Q|discriminate B]. }
  destruct (C47_returns emesh (meshes mesh) (locate mesh) (Some (mf_dim f, mf_values f)) (Some tags) tol s n (pv mesh) (pe mesh) EX BR TD L3 N1 DIM W S WF) as (vmap' & emap' & B' & PV & PE & _); try discriminate; [intros i [H _]; apply MO, H|exact SD|].
  rewrite B' in B. injection B as -> ->. assert (Z : (s_dim emesh =? 0) = false) by (apply Nat.eqb_neq; lia). split; [|split].
  - split; [|split].
    + constructor; [intros [H|[]]; cbn in H; rewrite H in DP; inversion DP|constructor; [intros []|constructor]].
    + intros dim. split; [intros [d [H|[H|[]]]]; injection H as <- _; auto|]. intros [-> | ->]; eexists; [left; reflexivity|right; left; reflexivity].
    + intros dim d [H|[H|[]]]; injection H as <- <-; assumption.
  - intros dim d c e [H|[H|[]]] Hc; injection H as <- <-; cbn beta; [exact (PV _ _ Hc)|]. rewrite Z. exact (PE _ _ Hc).
  - intros d c tag [H|[H|[]]] Hc Ht; [injection H as H _; rewrite <- H in DP; inversion DP|]. injection H as <-. apply keys_in, EK. split; [rewrite <- LE; apply nth_error_Some; congruence|]. exists tag. auto.
Qed.
Print Assumptions C61_search.
(** The hypotheses of C61_search are met by the mesh of C47 *)
Example C61_search_case : searches 1 (fun _ dim => if dim =? 0 then corner_pv else corner_pe) (emap_search corner (fun _ => square) (fun _ => square_locate) (1 / 10)%R).
Proof.
  destruct C47_example as (BR & W & WF & MO & SEL & _).
  apply (C61_search corner (fun _ => square) (fun _ => square_locate) (1 / 10)%R 1%R 2 (fun _ => corner_pv) (fun _ => corner_pe)); try reflexivity.
  - cbn. lia.
  - cbn. repeat constructor; cbn; lia.
  - lia.
  - cbn. repeat constructor.
  - exact W.
  - apply Rlt_0_1.
  - intros _. split; [exact BR|]. split; [cbn; lia|]. split; [exact WF|]. intros i Hi. apply MO, SEL. exact Hi.
Qed.
