(** C103: the cross refinement of sandbox/cross_grid_refine.py *)
From Verif Require Import Base BaseProofs MakeMeshModel MakeMeshProps GeomModel CrossGridModel CrossGridProofs.
From Coq Require Import Reals Lra.
Local Open Scope nat_scope.

(** Every mesh of intervals, triangles or tetrahedra is refined: the old vertices keep their numbers and places, each
    cell gets its barycenter, and for each of its facets there is one new cell, of the facet and the barycenter *)
Theorem C103_cells : forall m, simplicial m ->
  exists fine parents, cross_grid_refine (m_tdim m + 1) m = Ok (fine, parents) /\ m_tdim fine = m_tdim m /\ m_gdim fine = m_gdim m /\
    (forall v, v < length (m_vertices m) -> nth_error (m_vertices fine) v = nth_error (m_vertices m) v) /\
    length (m_vertices fine) = length (m_vertices m) + length (m_cells m) /\
    length (m_cells fine) = (m_tdim m + 1) * length (m_cells m) /\ length parents = length (m_cells fine) /\
    forall i cell, nth_error (m_cells m) i = Some cell ->
      (exists c, nth_error (m_vertices fine) (length (m_vertices m) + i) = Some c /\ barycenter (m_gdim m) (points m cell) c) /\
      forall j, j <= m_tdim m -> nth_error (m_cells fine) (i * (m_tdim m + 1) + (m_tdim m - j)) = Some (without j cell ++ [length (m_vertices m) + i]) /\
        nth_error parents (i * (m_tdim m + 1) + (m_tdim m - j)) = Some i.
Proof.
  intros m [T [G [X C]]]. set (n := m_tdim m + 1) in *. assert (N : n = 2 \/ n = 3 \/ n = 4) by (unfold n; lia).
  unfold cross_grid_refine. replace ((n =? 2) || (n =? 3) || (n =? 4) && (m_tdim m =? 3)) with true.
  2: { symmetry. destruct T as [T | [T | T]]; unfold n; rewrite T; reflexivity. }
  cbn [py_assert bind].
  assert (M : exists xnew, mapM (cell_mean (m_gdim m) (m_vertices m)) (m_cells m) = Ok xnew /\ length xnew = length (m_cells m) /\ Forall (fun x => length x = m_gdim m) xnew /\
    forall i cell, nth_error (m_cells m) i = Some cell -> exists c, nth_error xnew i = Some c /\ barycenter (m_gdim m) (points m cell) c).
  { clear - C. induction C as [| cell cells [L V] F IH]; [exists []; repeat split; [constructor | intros [|]; discriminate] |]. destruct IH as [xn [E [Ln [Fn H]]]].
    destruct (cell_mean_ok (m_gdim m) (m_vertices m) cell) as [c [Ec [Lc Hc]]]; [intros ->; cbn in L; lia | exact V |]. exists (c :: xn). rewrite mapM_cons, Ec. cbn [bind]. rewrite E. cbn [bind].
    split; [reflexivity |]. split; [cbn; lia |]. split; [constructor; assumption |]. intros [| i] cell' Hi; cbn [nth_error] in *.
    - injection Hi as <-. exists c. split; [reflexivity |]. exists (/ INR (length cell))%R. unfold points. rewrite map_map. exact Hc.
    - apply H. exact Hi. }
  destruct M as [xnew [-> [Ln [Fn Hn]]]]. cbn [bind].
  assert (B : length (combos (seq 0 n) (n - 1)) = n /\ Forall (fun b => length b = m_tdim m) (combos (seq 0 n) (n - 1))).
  { unfold n. destruct T as [T | [T | T]]; rewrite T; (split; [reflexivity | repeat constructor]). }
  destruct B as [Lb Fb]. pose proof (split_rows (m_tdim m) _ (m_cells m) 0 (length (m_vertices m)) Fb) as RW. pose proof (split_length (combos (seq 0 n) (n - 1)) (m_cells m) 0 (length (m_vertices m))) as [L1 L2].
  pose proof (split_nth (combos (seq 0 n) (n - 1)) (m_cells m) 0 (length (m_vertices m))) as SN.
  destruct (split_cells _ _ _ _) as [fc c2p]. cbn [fst snd] in *. eexists. exists c2p. split; [reflexivity |].
  rewrite C89_mesh; [| exact G | apply Forall_app; split; assumption | exact RW]. cbn [m_tdim m_gdim m_vertices m_cells]. split; [reflexivity |]. split; [reflexivity |].
  split; [intros v Hv; apply nth_error_app1; exact Hv |]. split; [rewrite app_length; lia |]. split; [rewrite L1, Lb; lia |]. split; [congruence |].
  intros i cell Hi. split.
  - destruct (Hn i cell Hi) as [c [Ec Hc]]. exists c. split; [| exact Hc]. rewrite nth_error_app2 by lia. replace (length (m_vertices m) + i - length (m_vertices m)) with i by lia. exact Ec.
  - intros j Hj. assert (Lc : length cell = n) by (rewrite Forall_forall in C; apply (C cell); eapply nth_error_In; exact Hi).
    assert (E : exists base, nth_error (combos (seq 0 n) (n - 1)) (m_tdim m - j) = Some base /\ map (fun i => nth i cell 0) base = without j cell).
    { destruct (nth_error (combos (seq 0 n) (n - 1)) (m_tdim m - j)) as [base |] eqn:E; [| apply nth_error_None in E; lia]. exists base. split; [reflexivity |].
      pose proof (basis_without n N cell Lc) as BW. apply (f_equal (fun l => nth_error l (m_tdim m - j))) in BW. rewrite (map_nth_error _ _ _ E) in BW.
      rewrite (map_nth_error (fun k => without (n - 1 - k) cell) (m_tdim m - j) (seq 0 n) (d := m_tdim m - j)) in BW.
      - injection BW as ->. f_equal. lia.
      - rewrite (nth_error_nth' _ 0) by (rewrite seq_length; lia). rewrite seq_nth by lia. reflexivity. }
    destruct E as [base [Eb Ew]]. destruct (SN i cell _ base Hi Eb) as [H1 H2]. rewrite Lb in H1, H2. rewrite Ew in H1. split; assumption.
Qed.
Print Assumptions C103_cells.

(** The new cells fill the old one: a point is in it exactly if it is in one of them *)
Theorem C103_cover : forall gdim pts c p, pts <> [] -> barycenter gdim pts c ->
  (in_simplex gdim pts p <-> exists j, j < length pts /\ in_simplex gdim (without j pts ++ [c]) p).
Proof.
  intros gdim pts c p NE [w B]. split.
  - intros [ws [H F]]. destruct (least ws) as [j [Hj Fj]]; [intros ->; destruct H as [L _]; destruct pts; [contradiction | discriminate] |]. assert (Jp : j < length pts) by (destruct H as [L _]; lia).
    exists j. split; [exact Jp |]. eexists. split; [exact (to_child gdim pts c w B ws p j H Jp) |]. apply Forall_app. split.
    + apply without_Forall with (j := j) in Fj. rewrite Forall_map. eapply Forall_impl; [| exact Fj]. cbn beta. intros u Hu. lra.
    + constructor; [| constructor]. apply Rmult_le_pos; [apply pos_INR |]. rewrite Forall_forall in F. apply F. apply nth_In. exact Hj.
  - intros [j [Jp [ws [H F]]]]. destruct (split_last ws) as [us [t ->]]; [intros ->; destruct H as [L _]; rewrite app_length in L; cbn in L; lia |].
    eexists. split; [exact (to_parent gdim pts c w B us t p j H Jp) |]. apply Forall_app in F. destruct F as [Fu Ft]. inversion Ft as [| ? ? Ht _]. subst.
    rewrite Forall_map. pose proof (w_pos gdim pts c w B NE) as W. eapply Forall_impl; [| apply put_Forall; [apply Rle_refl | exact Fu] ]. cbn beta. intros u Hu. pose proof (Rmult_le_pos t w Ht (Rlt_le _ _ W)). lra.
Qed.
Print Assumptions C103_cover.
(** ... and do not overlap, if the old one is not degenerate *)
Theorem C103_disjoint : forall gdim pts c p i j, barycenter gdim pts c -> independent gdim pts -> i < length pts -> j < length pts ->
  inside_simplex gdim (without i pts ++ [c]) p -> inside_simplex gdim (without j pts ++ [c]) p -> i = j.
Proof.
  assert (K : forall gdim pts c w p i, combination gdim (map (fun _ => w) pts) pts c -> i < length pts -> inside_simplex gdim (without i pts ++ [c]) p ->
    exists ws, combination gdim ws pts p /\ forall k, k <> i -> k < length pts -> (nth i ws 0 < nth k ws 0)%R).
  { intros gdim pts c w p i B Hi [ws [H F]]. destruct (split_last ws) as [us [t ->]]; [intros ->; destruct H as [L _]; rewrite app_length in L; cbn in L; lia |].
    eexists. split; [exact (to_parent gdim pts c w B us t p i H Hi) |]. intros k N Hk. apply Forall_app in F. destruct F as [Fu _].
    assert (LU : S (length us) = length pts) by (destruct H as [L _]; rewrite !app_length in L; cbn [length] in L; pose proof (without_length i pts Hi); lia).
    rewrite !(nth_indep (map _ _) 0%R ((fun u => (u + t * w)%R) 0%R)) by (rewrite map_length, put_length; lia). rewrite !(map_nth (fun u => (u + t * w)%R)). rewrite put_nth by lia.
    pose proof (put_other (fun u => (0 < u)%R) i 0%R 0%R us k ltac:(lia) Fu N ltac:(lia)). cbn beta in *. lra. }
  intros gdim pts c p i j [w B] I Hi Hj P1 P2. destruct (K _ _ _ _ _ _ B Hi P1) as [ws [C1 H1]]. destruct (K _ _ _ _ _ _ B Hj P2) as [ws' [C2 H2]]. rewrite (I _ _ _ C2 C1) in H2.
  destruct (Nat.eq_dec i j) as [E | N]; [exact E |]. specialize (H1 j ltac:(congruence) Hj). specialize (H2 i N Hi). lra.
Qed.
Print Assumptions C103_disjoint.
(** Quadrilaterals and hexahedra are refused *)
Theorem C103_refused : forall nv m, nv <> 2 -> nv <> 3 -> nv <> 4 \/ m_tdim m <> 3 -> cross_grid_refine nv m = Err AssertionError.
Proof.
  intros nv m N2 N3 H. unfold cross_grid_refine. apply Nat.eqb_neq in N2, N3. rewrite N2, N3. replace ((nv =? 4) && (m_tdim m =? 3)) with false; [reflexivity |].
  symmetry. apply andb_false_iff. rewrite !Nat.eqb_neq. exact H.
Qed.
Print Assumptions C103_refused.

(** A case: a square of two triangles *)
Definition two_triangles : mesh (R := R) := Mesh 2 2 [[0%R; 0%R]; [1%R; 0%R]; [1%R; 1%R]; [0%R; 1%R]] [[0; 1; 2]; [0; 2; 3]].
Example C103_ex : simplicial two_triangles /\ exists fine parents, cross_grid_refine 3 two_triangles = Ok (fine, parents) /\
  m_cells fine = [[0; 1; 4]; [0; 2; 4]; [1; 2; 4]; [0; 2; 5]; [0; 3; 5]; [2; 3; 5]] /\ parents = [0; 0; 0; 1; 1; 1].
Proof.
  split.
  - split; [right; left; reflexivity |]. split; [cbn; lia |]. split; repeat constructor.
  - do 2 eexists. split; [reflexivity |]. split; reflexivity.
Qed.
Example C103_independent : independent 2 (points two_triangles [0; 1; 2]).
Proof.
  intros ws ws' p [L [S H]] [L' [S' H']]. destruct ws as [| a [| b [| c [|]]]]; try discriminate L. destruct ws' as [| a' [| b' [| c' [|]]]]; try discriminate L'.
  pose proof (eq_trans (eq_sym (H 0 ltac:(lia))) (H' 0 ltac:(lia))) as E0. pose proof (eq_trans (eq_sym (H 1 ltac:(lia))) (H' 1 ltac:(lia))) as E1. cbn in *.
  assert (c = c') by lra. assert (b = b') by lra. assert (a = a') by lra. congruence.
Qed.
