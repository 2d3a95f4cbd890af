(** Gluing of meshes (property C45). *)
From Verif Require Import UnionModel UnionProofs GeomProofs LineProofs BaseProofs.
From Coq Require Import Psatz Permutation.
Local Open Scope R_scope.

(** ** C45 *)
(** Two meshes: all cells are kept, the second mesh sits in the result one to
    one and within [tol], vertices of the result come from the meshes, and the
    maps are reported (those of the parts, if a mesh was glued itself) *)
Theorem C45_partial : forall (order : nat -> list nat -> list nat) (tol : R) (new_id : nat) (m0 m1 r : umesh), 0 < tol -> any_order order -> wf_mesh m0 -> wf_mesh m1 ->
  union_mesh order tol new_id [m0; m1] = Ok r ->
  exists lg, sits tol r m0 (seq 0 (nv m0)) /\ sits tol r m1 lg /\ u_cells r = u_cells m0 ++ moved lg (u_cells m1) /\
  (forall i, (i < nv m0)%nat -> pt r i = pt m0 i) /\ (forall k, (k < nv m1)%nat -> (nv m0 <= nth k lg 0)%nat -> pt r (nth k lg 0%nat) = pt m1 k) /\
  (forall v, (v < nv r)%nat -> (v < nv m0)%nat \/ In v lg) /\
  u_leafs r = Some (match u_leafs m0 with None => [(u_id m0, seq 0 (nv m0))] | Some l => l end ++
                    match u_leafs m1 with None => [(u_id m1, lg)] | Some l => map (fun im => (fst im, map (fun v => nth v lg 0%nat) (snd im))) l end).
Proof.
  intros order tol new_id m0 m1 r T O W0 W1 H. cbn [union_mesh] in H. destruct (union2 order tol new_id m0 m1) as [[r' m0']|e] eqn:U; [|discriminate H]. cbn [bind fst] in H. injection H as ->.
  destruct (union2_spec order tol new_id m0 m1 r m0' T O W0 W1 U) as [lg [A [B [[more C] [D [E [F _]]]]]]]. exists lg. assert (P : forall i, (i < nv m0)%nat -> pt r i = pt m0 i) by (intros i I; unfold pt; rewrite C; apply app_nth1, I).
  split; [|split; [exact A|split; [exact B|split; [exact P|split; [exact D|split; [exact E|exact F]]]]]]. split; [apply seq_length|]. split; [|apply seq_NoDup]. intros k Hk. rewrite seq_nth by exact Hk. cbn [Nat.add]. rewrite (P k Hk), dist_refl. split; [|exact T]. unfold nv in *. rewrite C, app_length. lia.
Qed.
Print Assumptions C45_partial.
(** For simplices and vertices two [tol] apart in each mesh: exactly the
    boundary vertices nearer than [tol] are identified *)
Theorem C45_glued : forall (order : nat -> list nat -> list nat) (tol : R) (new_id : nat) (m0 m1 r : umesh), any_order order -> wf_mesh m0 -> wf_mesh m1 ->
  simplices (u_cells m0) -> simplices (u_cells m1) -> two_apart tol m0 -> two_apart tol m1 -> u_leafs m0 = None -> u_leafs m1 = None -> union_mesh order tol new_id [m0; m1] = Ok r ->
  exists lg, u_leafs r = Some [(u_id m0, seq 0 (nv m0)); (u_id m1, lg)] /\
  forall i k, (i < nv m0)%nat -> (k < nv m1)%nat -> (nth k lg 0%nat = i <-> boundary_vertex (u_cells m0) i /\ boundary_vertex (u_cells m1) k /\ dist (pt m0 i) (pt m1 k) < tol).
Proof.
  intros order tol new_id m0 m1 r O W0 W1 S0 S1 A0 A1 L0 L1 H. cbn [union_mesh] in H. destruct (union2 order tol new_id m0 m1) as [[r' m0']|e] eqn:U; [|discriminate H]. cbn [bind fst] in H. injection H as ->. destruct (union2_glued order tol new_id m0 m1 r m0' O W0 W1 S0 S1 A0 A1 L1 U) as [lg [E G]]. exists lg. split; [|exact G]. rewrite E. unfold leafs_of. rewrite L0. reflexivity.
Qed.
Print Assumptions C45_glued.
(** It returns if each mesh has a boundary and some boundary vertex of the
    second is not at the boundary of the first *)
Theorem C45_returns : forall (order : nat -> list nat -> list nat) (tol : R) (new_id : nat) (m0 m1 : umesh) (i0 k : nat), any_order order -> wf_mesh m0 -> wf_mesh m1 ->
  u_gdim m0 = u_gdim m1 -> u_tdim m0 = u_tdim m1 -> simplices (u_cells m0) -> simplices (u_cells m1) -> leafs_in_range m1 ->
  boundary_vertex (u_cells m0) i0 -> boundary_vertex (u_cells m1) k -> (k < nv m1)%nat -> (forall i, (i < nv m0)%nat -> boundary_vertex (u_cells m0) i -> tol <= dist (pt m1 k) (pt m0 i)) ->
  exists r, union_mesh order tol new_id [m0; m1] = Ok r.
Proof.
  intros order tol new_id m0 m1 i0 k O W0 W1 EG ET S0 S1 LR BI BK HK F. destruct (union2_returns order tol new_id m0 m1 i0 k O W0 W1 EG ET S0 S1 LR BI BK HK F) as [r [m0' E]]. exists r. cbn [union_mesh]. rewrite E. reflexivity.
Qed.
Print Assumptions C45_returns.
(** Any number of meshes, glued on one after the other by the caller *)
Fixpoint glue_on (order : nat -> list nat -> list nat) (tol : R) (ids : nat -> nat) (acc : umesh) (ms : list umesh) : res umesh :=
  match ms with [] => Ok acc | m :: ms' => do r <- union_mesh order tol (ids (length ms)) [acc; m]; glue_on order tol ids r ms' end.
Theorem C45_one_by_one : forall (order : nat -> list nat -> list nat) (tol : R) (ids : nat -> nat) (ms : list umesh) (m0 r : umesh), 0 < tol -> any_order order -> wf_mesh m0 -> Forall wf_mesh ms -> Forall (fun m => u_leafs m = None) ms ->
  glue_on order tol ids m0 ms = Ok r ->
  exists lgs, Forall2 (sits tol r) ms lgs /\ u_cells r = u_cells m0 ++ concat (map (fun ml => moved (snd ml) (u_cells (fst ml))) (combine ms lgs)) /\
  (exists more, u_x r = u_x m0 ++ more) /\ (forall v, (v < nv r)%nat -> (v < nv m0)%nat \/ exists lg, In lg lgs /\ In v lg) /\
  (ms <> [] -> u_leafs r = Some (match u_leafs m0 with None => [(u_id m0, seq 0 (nv m0))] | Some l => l end ++ combine (map u_id ms) lgs)).
Proof.
  intros order tol ids ms m0 r T O W0 WS LS. revert m0 r W0. induction ms as [|m ms IH]; intros m0 r W0 H.
  - injection H as <-. exists []. split; [constructor|]. split; [cbn; rewrite app_nil_r; reflexivity|]. split; [exists []; rewrite app_nil_r; reflexivity|]. split; [intros v V; left; exact V|congruence].
  - apply Forall_cons_iff in WS. destruct WS as [W1 WS]. apply Forall_cons_iff in LS. destruct LS as [L1 LS]. cbn [glue_on union_mesh] in H. destruct (union2 order tol (ids (length (m :: ms))) m0 m) as [[r1 m0']|e] eqn:U; [|discriminate H]. cbn [bind fst] in H. destruct (union2_spec order tol _ m0 m r1 m0' T O W0 W1 U) as [lg [A [B [[more C] [D [E [F [WR _]]]]]]]].
    destruct (IH WS LS r1 r WR H) as [lgs [A2 [B2 [[more2 C2] [D2 F2]]]]]. exists (lg :: lgs). split; [|split; [|split; [|split]]].
    + constructor; [|exact A2]. destruct A as [A3 [A4 A5]]. split; [exact A3|]. split; [|exact A5]. intros k Hk. destruct (A4 k Hk) as [P1 P2]. unfold nv, pt in *. rewrite C2, app_length, app_nth1 by exact P1. split; [lia|exact P2].
    + rewrite B2, B. cbn [combine map concat fst snd]. rewrite app_assoc. reflexivity.
    + exists (more ++ more2). rewrite C2, C, app_assoc. reflexivity.
    + intros v V. destruct (D2 v V) as [V1|[l [L V1]]]; [|right; exists l; split; [right; exact L|exact V1]]. destruct (E v V1) as [V2|V2]; [left; exact V2|right; exists lg; split; [left; reflexivity|exact V2]].
    + intros _. destruct ms as [|m2 ms2].
      * injection H as <-. inversion A2; subst. rewrite F. unfold leafs_of, second_leafs. rewrite L1. reflexivity.
      * specialize (F2 ltac:(discriminate)). rewrite F in F2. rewrite F2. f_equal. unfold leafs_of, second_leafs. rewrite L1. rewrite <- app_assoc. reflexivity.
Qed.
Print Assumptions C45_one_by_one.
(** Three or more meshes at once always raise *)
Theorem C45_many_refuted : forall (order : nat -> list nat -> list nat) (tol : R) (new_id : nat) (m0 m1 m2 : umesh) (ms : list umesh), union_mesh order tol new_id (m0 :: m1 :: m2 :: ms) = Err TypeError.
Proof. reflexivity. Qed.
Print Assumptions C45_many_refuted.
(** Meshes of different dimensions are refused *)
Theorem C45_dimensions : forall (order : nat -> list nat -> list nat) (tol : R) (new_id : nat) (m0 m1 : umesh), u_gdim m0 <> u_gdim m1 \/ u_tdim m0 <> u_tdim m1 -> union_mesh order tol new_id [m0; m1] = Err ValueError.
Proof. intros order tol new_id m0 m1 H. cbn [union_mesh]. unfold union2. destruct (Nat.eqb_spec (u_gdim m0) (u_gdim m1)); [|reflexivity]. destruct (Nat.eqb_spec (u_tdim m0) (u_tdim m1)); [|reflexivity]. tauto. Qed.
Print Assumptions C45_dimensions.
(** A mesh without boundary cannot be glued *)
Definition ring : umesh := {| u_id := 1; u_tdim := 1; u_gdim := 2; u_x := [[0; 0]; [1; 0]; [0; 1]]; u_cells := [[0; 1]; [1; 2]; [2; 0]]%nat; u_leafs := None |}.
Theorem C45_closed_refuted : forall (order : nat -> list nat -> list nat) (tol : R) (new_id : nat) (m : umesh), u_gdim m = 2%nat -> u_tdim m = 1%nat -> union_mesh order tol new_id [ring; m] = Err ValueError.
Proof. intros order tol new_id m G T. cbn [union_mesh]. unfold union2. rewrite G, T. reflexivity. Qed.
Print Assumptions C45_closed_refuted.
(** A gap filled by a second mesh: its boundary vertices are used up *)
Definition ascending : nat -> list nat -> list nat := fun _ l => map fst (sort_items (map (fun k => (k, 0%nat)) l)).
Lemma ascending_order : any_order ascending.
Proof. intros c l. unfold ascending. rewrite <- sort_perm, map_map. cbn [fst]. rewrite map_id. reflexivity. Qed.
Definition gap : umesh := {| u_id := 1; u_tdim := 1; u_gdim := 1; u_x := [[0]; [1]; [2]; [3]]; u_cells := [[0; 1]; [2; 3]]%nat; u_leafs := None |}.
Definition filler : umesh := {| u_id := 2; u_tdim := 1; u_gdim := 1; u_x := [[1]; [2]]; u_cells := [[0; 1]]%nat; u_leafs := None |}.
Lemma norm_1 a b : rnorm (rsub [a] [b]) = Rabs (a - b).
Proof. unfold rnorm. cbn. rewrite <- sqrt_Rsqr_abs. unfold Rsqr. f_equal. ring. Qed.
Lemma match_skip tol x0 i b0 x1 b1 shared x imin : nth_error x0 i = Some x -> argmin (map (fun y => rnorm (rsub y x)) x1) = Ok imin -> ~ at_ (map (fun y => rnorm (rsub y x)) x1) imin < tol -> match_vertices tol x0 (i :: b0) x1 b1 shared = match_vertices tol x0 b0 x1 b1 shared.
Proof. intros E A L. cbn [match_vertices]. rewrite E. cbn [opt_res bind]. rewrite A. cbn [bind]. destruct (Rlt_dec (at_ (map (fun y => rnorm (rsub y x)) x1) imin) tol); [contradiction|reflexivity]. Qed.
Lemma match_take tol x0 i b0 x1 b1 shared x imin k : nth_error x0 i = Some x -> argmin (map (fun y => rnorm (rsub y x)) x1) = Ok imin -> at_ (map (fun y => rnorm (rsub y x)) x1) imin < tol -> nth_error b1 imin = Some k -> match_vertices tol x0 (i :: b0) x1 b1 shared = match_vertices tol x0 b0 (remove_at imin x1) (remove_at imin b1) (dict_set k i shared).
Proof. intros E A L N. cbn [match_vertices]. rewrite E. cbn [opt_res bind]. rewrite A. cbn [bind]. destruct (Rlt_dec (at_ (map (fun y => rnorm (rsub y x)) x1) imin) tol); [|contradiction]. rewrite N. reflexivity. Qed.
Lemma argmin_2 a b : argmin [a; b] = Ok (if Rlt_dec b a then 1%nat else 0%nat).
Proof. cbn. destruct (Rlt_dec b a); reflexivity. Qed.
Ltac abs_all := repeat match goal with |- context [Rabs ?v] => first [rewrite (Rabs_pos_eq v) by lra | rewrite (Rabs_left1 v) by lra] end.
Ltac dists := cbn [map]; rewrite ?norm_1; abs_all.
Lemma gap_used_up : match_vertices (1 / 2) [[0]; [1]; [2]; [3]] [3; 2; 1; 0]%nat [[1]; [2]] [0; 1]%nat [] = Err ValueError.
Proof.
  rewrite (match_skip _ _ 3 _ _ _ _ [3] 1); [|reflexivity|dists; rewrite argmin_2; destruct (Rlt_dec (- (2 - 3)) (- (1 - 3))); [reflexivity|lra]|dists; cbn; lra].
  rewrite (match_take _ _ 2 _ _ _ _ [2] 1 1); [|reflexivity|dists; rewrite argmin_2; destruct (Rlt_dec (2 - 2) (- (1 - 2))); [reflexivity|lra]|dists; cbn; lra|reflexivity].
  cbn [remove_at dict_set]. rewrite (match_take _ _ 1 _ _ _ _ [1] 0 0); [|reflexivity|reflexivity|dists; cbn; lra|reflexivity]. reflexivity.
Qed.
Theorem C45_hole_refuted : union_mesh ascending (1 / 2) 3 [gap; filler] = Err ValueError.
Proof.
  cbn [union_mesh]. unfold union2. cbn [u_gdim u_tdim gap filler Nat.eqb negb u_cells u_x].
  replace (boundary_vertices (ascending 0%nat) [[0; 1]; [2; 3]]%nat) with (@Ok (list nat) [0; 1; 2; 3]%nat) by reflexivity. replace (boundary_vertices (ascending 1%nat) [[0; 1]]%nat) with (@Ok (list nat) [0; 1]%nat) by reflexivity. cbn [bind].
  replace (mapM (take [[1]; [2]]) [0; 1]%nat) with (Ok [[1]; [2]]) by reflexivity. cbn [bind]. change (rev [0; 1; 2; 3]%nat) with [3; 2; 1; 0]%nat. rewrite gap_used_up. reflexivity.
Qed.
Print Assumptions C45_hole_refuted.
(** A first mesh that was glued before has its own list of parts changed: its
    last entry is then about the second mesh and not about itself *)
Theorem C45_alias_refuted : forall (order : nat -> list nat -> list nat) (tol : R) (new_id : nat) (m0 m1 r m0' : umesh) (l : list (nat * list nat)), any_order order -> wf_mesh m0 -> wf_mesh m1 -> u_leafs m0 = Some l -> u_leafs m1 = None ->
  union2 order tol new_id m0 m1 = Ok (r, m0') -> u_leafs m0' = u_leafs r /\ exists lg, length lg = nv m1 /\ u_leafs m0' = Some (l ++ [(u_id m1, lg)]).
Proof.
  intros order tol new_id m0 m1 r m0' l O W0 W1 L0 L1 H. assert (A : u_leafs m0' = u_leafs r).
  { unfold union2 in H. rewrite L0, L1 in H. repeat match type of H with (if ?c then _ else _) = _ => destruct c; [discriminate H|] | (do x <- ?e; _) = _ => destruct e; [cbn [bind] in H|discriminate H] | match ?e with [] => _ | _ :: _ => _ end = _ => destruct e; [discriminate H|] end. cbn [bind] in H. injection H as <- <-. reflexivity. }
  split; [exact A|]. rewrite A. destruct (union2_inv order tol new_id m0 m1 r m0' O W0 W1 H) as [_ [_ [b0 [b1 [shared [_ [_ [_ [_ [_ [K [V [R [-> _]]]]]]]]]]]]]]. exists (lg_of order m0 m1 shared). split; [exact (proj1 (merge_numbering order m0 m1 shared O K V R))|]. unfold merged, leafs_of, second_leafs. cbn [u_leafs]. rewrite L0, L1. reflexivity.
Qed.
Print Assumptions C45_alias_refuted.

(** Two triangles with a common edge *)
Definition lower : umesh := {| u_id := 7; u_tdim := 2; u_gdim := 2; u_x := [[0; 0]; [1; 0]; [0; 1]]; u_cells := [[0; 1; 2]]%nat; u_leafs := None |}.
Definition upper : umesh := {| u_id := 8; u_tdim := 2; u_gdim := 2; u_x := [[1; 1]; [0; 1]; [1; 0]]; u_cells := [[0; 1; 2]]%nat; u_leafs := None |}.
Lemma lone_boundary a b c v : In v [a; b; c] -> NoDup [a; b; c] -> boundary_vertex [[a; b; c]] v.
Proof.
  intros V N. exists 0%nat. assert (D : a <> b /\ a <> c /\ b <> c) by (apply NoDup_cons_iff in N; destruct N as [A N]; apply NoDup_cons_iff in N; destruct N as [B _]; cbn in A, B; intuition congruence). exists (if Nat.eq_dec v a then b else a). cbn [length nth]. split; [lia|]. split; [destruct (Nat.eq_dec v a); cbn; auto|]. split; [destruct (Nat.eq_dec v a); intuition congruence|]. split; [exact V|]. intros j J. lia.
Qed.
Lemma far2 a b c d : 1 <= (a - c) * (a - c) + (b - d) * (b - d) -> 1 <= dist [a; b] [c; d].
Proof. intros H. unfold dist. rewrite <- sqrt_1 at 1. apply sqrt_le_1_alt. cbn. lra. Qed.
Example C45_example : any_order ascending /\ wf_mesh lower /\ wf_mesh upper /\ simplices (u_cells lower) /\ simplices (u_cells upper) /\ two_apart (1 / 4) lower /\ two_apart (1 / 4) upper /\ exists r, union_mesh ascending (1 / 4) 9 [lower; upper] = Ok r.
Proof.
  assert (WL : wf_mesh lower) by (split; cbn; repeat constructor; lia). assert (WU : wf_mesh upper) by (split; cbn; repeat constructor; lia).
  assert (SI : forall c, c = [0; 1; 2]%nat -> simplices [c]). { intros c ->. exists 3%nat. split; [lia|]. constructor; [|constructor]. split; [|reflexivity]. repeat constructor; cbn; lia. }
  split; [exact ascending_order|]. split; [exact WL|]. split; [exact WU|]. split; [apply SI; reflexivity|]. split; [apply SI; reflexivity|].
  assert (ND : NoDup [0; 1; 2]%nat) by (repeat constructor; cbn; lia).
  split; [|split].
  - intros i j I J D. unfold nv, pt in *. cbn in I, J. destruct i as [|[|[|i]]]; destruct j as [|[|[|j]]]; try lia; cbn [nth lower u_x]; match goal with |- _ <= dist [?a; ?b] [?c; ?d] => pose proof (far2 a b c d ltac:(lra)) end; lra.
  - intros i j I J D. unfold nv, pt in *. cbn in I, J. destruct i as [|[|[|i]]]; destruct j as [|[|[|j]]]; try lia; cbn [nth upper u_x]; match goal with |- _ <= dist [?a; ?b] [?c; ?d] => pose proof (far2 a b c d ltac:(lra)) end; lra.
  - apply (C45_returns ascending (1 / 4) 9 lower upper 0 0); try assumption; try reflexivity; try (apply SI; reflexivity); [exact ascending_order|discriminate|apply lone_boundary; [cbn; auto|exact ND]|apply lone_boundary; [cbn; auto|exact ND]|unfold nv; cbn; lia|].
    intros i I _. unfold nv, pt in *. cbn in I. destruct i as [|[|[|i]]]; try lia; cbn [nth lower upper u_x]; match goal with |- _ <= dist [?a; ?b] [?c; ?d] => pose proof (far2 a b c d ltac:(lra)) end; lra.
Qed.
(** The hypotheses of C45_alias_refuted hold for a glued mesh and another one *)
Example C45_alias_example : any_order ascending /\ wf_mesh upper /\ u_leafs upper = None /\ exists g, union_mesh ascending (1 / 4) 9 [lower; upper] = Ok g /\ wf_mesh g /\ exists l, u_leafs g = Some l.
Proof.
  destruct C45_example as [O [WL [WU [_ [_ [_ [_ [g E]]]]]]]]. split; [exact O|]. split; [exact WU|]. split; [reflexivity|]. exists g. split; [exact E|]. cbn [union_mesh] in E. destruct (union2 ascending (1 / 4) 9 lower upper) as [[r' m0']|e] eqn:U; [|discriminate E]. cbn [bind fst] in E. injection E as ->. destruct (union2_spec ascending (1 / 4) 9 lower upper g m0' ltac:(lra) O WL WU U) as [lg [_ [_ [_ [_ [_ [L [W _]]]]]]]]. split; [exact W|]. eexists. exact L.
Qed.
