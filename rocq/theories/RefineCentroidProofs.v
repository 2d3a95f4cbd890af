(** Centroids, dual meshes and when refinement returns: proofs for RefineModel.v *)
From Verif Require Import RefineModel GeomProofs RefineProofs BaseProofs.
From Coq Require Import Psatz Permutation Sorted.
Local Open Scope R_scope.

(** ** Centroids lie in their cells *)
Lemma centroid_length gdim cell : length (centroid gdim cell) = gdim.
Proof. unfold centroid. rewrite map_length, seq_length. reflexivity. Qed.
Lemma centroid_nth gdim cell i : (i < gdim)%nat -> nth i (centroid gdim cell) 0 = lsum (map (fun p => at_ p i) cell) / INR (length cell).
Proof. intros H. unfold centroid. rewrite (nth_map _ _ _ 0%nat) by (rewrite seq_length; exact H). rewrite seq_nth by exact H. reflexivity. Qed.
Lemma weighted_repeat c l i : weighted (repeat c (length l)) l i = lsum (map (fun p => at_ p i) l) * c.
Proof. unfold lsum, at_. induction l as [|p l IH]; cbn; [ring|]. rewrite IH. ring. Qed.
Lemma centroid_in gdim cell : cell <> [] -> in_simplex gdim cell (centroid gdim cell).
Proof.
  intros NE. assert (P : 0 < INR (length cell)) by (apply lt_0_INR; destruct cell; [congruence|cbn; lia]). split; [apply centroid_length|]. exists (repeat (/ INR (length cell)) (length cell)). split; [apply repeat_length|]. split; [|split].
  - assert (E : forall c n, total (repeat c n) = INR n * c). { intros c n. induction n as [|n IH]; [cbn; ring|]. rewrite S_INR. cbn [repeat total]. rewrite IH. ring. } rewrite E. apply Rinv_r. lra.
  - apply Forall_forall. intros a A. apply repeat_spec in A. subst a. apply Rlt_le, Rinv_0_lt_compat, P.
  - intros i Hi. rewrite centroid_nth, weighted_repeat by exact Hi. reflexivity.
Qed.
Lemma centroids_one_per_cell tdim gdim : one_per_cell tdim gdim centroids.
Proof. intros m [_ [G _]]. unfold centroids. split; [apply map_length|]. apply Forall_forall. intros x X. apply in_map_iff in X. destruct X as [c [<- _]]. rewrite G. apply centroid_length. Qed.
Lemma centroids_inside tdim gdim : inside_cells tdim gdim centroids.
Proof.
  intros m c [_ [G [_ [_ F]]]] H. unfold centroids. rewrite (nth_map _ _ _ []) by exact H. rewrite G. apply centroid_in. rewrite Forall_forall in F. destruct (F (nth c (m_cells m) [])) as [L _]; [apply nth_In, H|]. unfold pts. destruct (nth c (m_cells m) []); [discriminate L|discriminate].
Qed.

(** ** Dual meshes *)
(** What the connectivity of a mesh of triangles provides *)
Definition triangle_facets (gdim : nat) (c2f : mesh -> nat -> list nat) (f2v : mesh -> list (list nat)) : Prop :=
  forall m c, mesh_ok 2 gdim m -> (c < length (m_cells m))%nat -> length (c2f m c) = 3%nat /\
    forall f, In f (c2f m c) -> (f < length (f2v m))%nat /\ length (nth f (f2v m) []) = 2%nat /\ incl (nth f (f2v m) []) (nth c (m_cells m) []).
Section Dual.
Variables (order : list nat -> list nat) (gdim : nat) (c2f : mesh -> nat -> list nat) (f2v : mesh -> list (list nat)) (centers : mesh -> list (list R)).
Hypothesis ORD : reorders order.
Hypothesis FAC : triangle_facets gdim c2f f2v.
Hypothesis ONE : one_per_cell 2 gdim centers.
Definition dual_children (m : mesh) (cell : nat) : list (list nat) :=
  flat_map (fun f => map (fun v => [length (m_x m) + cell; length (m_x m) + length (m_cells m) + f; v])%nat (nth f (f2v m) [])) (c2f m cell).
Lemma dual_children_length m c : mesh_ok 2 gdim m -> (c < length (m_cells m))%nat -> length (dual_children m c) = 6%nat.
Proof.
  intros OK H. destruct (FAC m c OK H) as [L F]. unfold dual_children. destruct (c2f m c) as [|f0 [|f1 [|f2 [|]]]]; try discriminate L. cbn [flat_map]. rewrite !app_length, !map_length. cbn [length].
  rewrite (proj1 (proj2 (F f0 (or_introl eq_refl)))), (proj1 (proj2 (F f1 (or_intror (or_introl eq_refl))))), (proj1 (proj2 (F f2 (or_intror (or_intror (or_introl eq_refl)))))). reflexivity.
Qed.
Lemma dual_children_in m c d : mesh_ok 2 gdim m -> (c < length (m_cells m))%nat -> In d (dual_children m c) -> exists f v, d = [length (m_x m) + c; length (m_x m) + length (m_cells m) + f; v]%nat /\ (f < length (f2v m))%nat /\ length (nth f (f2v m) []) = 2%nat /\ incl (nth f (f2v m) []) (nth c (m_cells m) []) /\ In v (nth c (m_cells m) []).
Proof.
  intros OK H D. unfold dual_children in D. apply in_flat_map in D. destruct D as [f [F D]]. apply in_map_iff in D. destruct D as [v [<- V]]. destruct (FAC m c OK H) as [_ Q]. destruct (Q f F) as [A [B C]]. exists f, v. repeat split; auto.
Qed.
Lemma dual_once_inv m m' mp : mesh_ok 2 gdim m -> dual_once order c2f f2v centers m = Ok (m', mp) ->
  m' = make_mesh order (m_x m ++ centers m ++ map (midpoint gdim (m_x m)) (f2v m)) (flat_map (dual_children m) (seq 0 (length (m_cells m)))) 2 gdim /\
  mp = {| vmap := enumerate (seq 0 (length (m_x m))); cmap := enumerate (flat_map (fun c => repeat c 6) (seq 0 (length (m_cells m)))) |}.
Proof.
  intros [T [G _]] E. unfold dual_once in E. rewrite T in E. destruct (if (length (m_cells m) =? 0)%nat then _ else _) as [[]|]; [|discriminate]. cbn [bind] in E. rewrite G in E. injection E as <- <-. auto.
Qed.
Lemma dual_once_tracks m m' mp : mesh_ok 2 gdim m -> dual_once order c2f f2v centers m = Ok (m', mp) -> mesh_ok 2 gdim m' /\ tracks 6 m m' mp.
Proof.
  intros OK E. destruct (dual_once_inv m m' mp OK E) as [-> ->]. destruct (ONE m OK) as [PL PF]. assert (LC : length (flat_map (dual_children m) (seq 0 (length (m_cells m)))) = (length (m_cells m) * 6)%nat) by (apply length_blocks; intros; apply dual_children_length; [exact OK|lia]). split.
  - pose proof OK as [_ [_ [_ [FX FC]]]]. unfold mesh_ok, make_mesh. cbn [m_tdim m_gdim m_nvtx m_x m_cells]. repeat (split; [reflexivity|]). split.
    + apply Forall_app. split; [exact FX|]. apply Forall_app. split; [exact PF|]. apply Forall_forall. intros p P. apply in_map_iff in P. destruct P as [f [<- _]]. apply centroid_length.
    + apply Forall_forall. intros c C. apply in_map_iff in C. destruct C as [d [<- D]]. pose proof (ORD d) as PD. apply in_flat_map in D. destruct D as [k [K D]]. apply in_seq in K. destruct (dual_children_in m k d OK ltac:(lia) D) as [f [v [-> [HF [_ [_ HV]]]]]]. rewrite <- (Permutation_length PD). split; [reflexivity|].
      apply Forall_forall. intros u U. apply (Permutation_in _ (Permutation_sym PD)) in U. rewrite !app_length, map_length, PL. rewrite Forall_forall in FC. destruct (FC (nth k (m_cells m) [])) as [_ FK]; [apply nth_In; lia|]. rewrite Forall_forall in FK. specialize (FK v HV). destruct U as [<-|[<-|[<-|[]]]]; lia.
  - unfold tracks, make_mesh. cbn [m_cells m_x cmap vmap]. rewrite map_length, LC. split; [reflexivity|]. split; [rewrite blocks_div by lia; apply enumerate_map|]. split; [apply enumerate_seq|]. rewrite firstn_app, Nat.sub_diag, firstn_all, firstn_O, app_nil_r. reflexivity.
Qed.
Hypothesis IN : inside_cells 2 gdim centers.
Lemma dual_once_contained m m' mp : mesh_ok 2 gdim m -> dual_once order c2f f2v centers m = Ok (m', mp) -> contained 6 gdim m m'.
Proof.
  intros OK E. destruct (dual_once_inv m m' mp OK E) as [-> _]. destruct (ONE m OK) as [PL PF]. set (x := m_x m ++ _). set (cs := flat_map _ _). assert (LC : length cs = (length (m_cells m) * 6)%nat) by (apply length_blocks; intros; apply dual_children_length; [exact OK|lia]).
  intros i y Hi. cbn [make_mesh m_cells] in Hi. rewrite map_length in Hi. rewrite (corners_make order x cs 2 gdim i Hi). apply in_simplex_trans. apply Forall_forall. intros p I. apply in_map_iff in I. destruct I as [v [<- V]]. apply (Permutation_in _ (Permutation_sym (ORD _))) in V.
  rewrite LC in Hi. assert (D : (i / 6 < length (m_cells m))%nat) by (apply Nat.div_lt_upper_bound; lia). unfold cs in V. rewrite (nth_blocks (dual_children m) 6) in V; [|lia|intros; apply dual_children_length; [exact OK|lia]|exact Hi].
  assert (IC : In (nth (i mod 6) (dual_children m (i / 6)) []) (dual_children m (i / 6))) by (apply nth_In; rewrite dual_children_length by assumption; apply Nat.mod_upper_bound; lia).
  destruct (dual_children_in _ _ _ OK D IC) as [f [u [E1 [HF [LF [IF HU]]]]]]. rewrite E1 in V. clear E1 IC. pose proof OK as [_ [_ [_ [FX FC]]]]. rewrite Forall_forall in FC. destruct (FC (nth (i / 6) (m_cells m) [])) as [_ FK]; [apply nth_In, D|]. rewrite Forall_forall in FK, FX.
  assert (GC : Forall (fun q => length q = gdim) (corners m (i / 6))). { apply Forall_forall. intros q J. apply in_map_iff in J. destruct J as [w [<- W]]. apply FX, nth_In, FK, W. }
  destruct V as [<-|[<-|[<-|[]]]].
  - fold (at_vertex x (length (m_x m) + i / 6)). unfold x. rewrite at_new, app_nth1 by lia. apply IN; assumption.
  - fold (at_vertex x (length (m_x m) + length (m_cells m) + f)). rewrite <- Nat.add_assoc. unfold x. rewrite at_new, app_nth2 by lia. rewrite PL. replace (length (m_cells m) + f - length (m_cells m))%nat with f by lia. rewrite (nth_map _ _ _ []) by exact HF. unfold midpoint. eapply in_simplex_trans; [|apply centroid_in; unfold pts; destruct (nth f (f2v m) []); [discriminate LF|discriminate]].
    apply Forall_forall. intros q J. unfold pts in J. apply in_map_iff in J. destruct J as [w [<- W]]. apply corner_in; [exact GC|]. unfold corners. apply in_map_iff. exists w. split; [reflexivity|apply IF, W].
  - fold (at_vertex x u). unfold x. rewrite at_old by (apply FK, HU). apply corner_in; [exact GC|]. unfold corners. apply in_map_iff. exists u. auto.
Qed.
End Dual.

(** ** Parts cut off by the centroid *)
Definition supported (n gdim : nat) : Prop := (n = 2 /\ 1 <= gdim <= 3 \/ n = 3 /\ 2 <= gdim <= 3 \/ n = 4 /\ gdim = 3)%nat.
Lemma sqrt_scaled k a b : 0 <= k -> a = k * k * b -> sqrt a = k * sqrt b.
Proof. intros K ->. rewrite sqrt_mult_alt by nra. rewrite sqrt_square by exact K. reflexivity. Qed.
Lemma abs_scaled s k a b : (s = 1 \/ s = -1) -> 0 <= k -> a = s * k * b -> Rabs a = k * Rabs b.
Proof. intros S K ->. rewrite !Rabs_mult, (Rabs_right k) by lra. destruct S as [-> | ->]; [rewrite Rabs_R1|rewrite (Rabs_left (-1)) by lra]; ring. Qed.
Definition splits (n gdim : nat) (cell : list (list R)) : Prop :=
  forall a, simplex_area cell = Ok a -> Forall (fun base => simplex_area (map (fun j => nth j cell []) base ++ [centroid gdim cell]) = Ok (a / INR n) /\ simplex_area (centroid gdim cell :: map (fun j => nth j cell []) base) = Ok (a / INR n)) (basis n).
Lemma split_2_1 a b : splits 2 1 [[a]; [b]].
Proof.
  intros m E. injection E as <-. replace (centroid 1 [[a]; [b]]) with [(a + b) / 2] by (unfold centroid, at_; cbn; f_equal; field). cbn [basis seq combos Nat.sub map app nth]. unfold rnorm.
  repeat (apply Forall_cons; [split; cbn [map app nth simplex_area]; unfold rnorm; f_equal; replace (INR 2) with 2 by (cbn; lra); unfold Rdiv; match goal with |- _ = ?s * _ => rewrite (Rmult_comm s) end; (apply sqrt_scaled; [lra|cbn; field])|]). constructor.
Qed.
Lemma split_2_2 a b c d : splits 2 2 [[a; b]; [c; d]].
Proof.
  intros m E. injection E as <-. replace (centroid 2 [[a; b]; [c; d]]) with [(a + c) / 2; (b + d) / 2] by (unfold centroid, at_; cbn; f_equal; [field|f_equal; field]). cbn [basis seq combos Nat.sub map app nth]. unfold rnorm.
  repeat (apply Forall_cons; [split; cbn [map app nth simplex_area]; unfold rnorm; f_equal; replace (INR 2) with 2 by (cbn; lra); unfold Rdiv; match goal with |- _ = ?s * _ => rewrite (Rmult_comm s) end; (apply sqrt_scaled; [lra|cbn; field])|]). constructor.
Qed.
Lemma split_2_3 a b c d e f : splits 2 3 [[a; b; c]; [d; e; f]].
Proof.
  intros m E. injection E as <-. replace (centroid 3 [[a; b; c]; [d; e; f]]) with [(a + d) / 2; (b + e) / 2; (c + f) / 2] by (unfold centroid, at_; cbn; f_equal; [field|f_equal; [field|f_equal; field]]). cbn [basis seq combos Nat.sub map app nth]. unfold rnorm.
  repeat (apply Forall_cons; [split; cbn [map app nth simplex_area]; unfold rnorm; f_equal; replace (INR 2) with 2 by (cbn; lra); unfold Rdiv; match goal with |- _ = ?s * _ => rewrite (Rmult_comm s) end; (apply sqrt_scaled; [lra|cbn; field])|]). constructor.
Qed.
Lemma Ok_inj {A} (a b : A) : Ok a = Ok b -> a = b.
Proof. congruence. Qed.
Lemma split_3_2 a b c d e f : splits 3 2 [[a; b]; [c; d]; [e; f]].
Proof.
  intros m E. cbn [simplex_area length Nat.eqb map app] in E. apply Ok_inj in E. subst m. replace (centroid 2 [[a; b]; [c; d]; [e; f]]) with [(a + c + e) / 3; (b + d + f) / 3] by (unfold centroid, at_; cbn; f_equal; [field|f_equal; field]). cbn [basis seq combos Nat.sub map app nth].
  repeat (apply Forall_cons; [split; cbn [map app nth simplex_area length Nat.eqb]; f_equal; replace (INR 3) with 3 by (cbn; lra); unfold Rdiv; match goal with |- _ = ?s * _ => rewrite (Rmult_comm s) end; (first [apply (abs_scaled 1); [left; reflexivity|lra|rewrite !det3; field] | apply (abs_scaled (-1)); [right; reflexivity|lra|rewrite !det3; field]])|]). constructor.
Qed.
Lemma split_3_3 a b c d e f g h i : splits 3 3 [[a; b; c]; [d; e; f]; [g; h; i]].
Proof.
  intros m E. cbn [simplex_area length Nat.eqb map app] in E. apply Ok_inj in E. subst m. replace (centroid 3 [[a; b; c]; [d; e; f]; [g; h; i]]) with [(a + d + g) / 3; (b + e + h) / 3; (c + f + i) / 3] by (unfold centroid, at_; cbn; f_equal; [field|f_equal; [field|f_equal; field]]). cbn [basis seq combos Nat.sub map app nth]. unfold rnorm.
  repeat (apply Forall_cons; [split; cbn [map app nth simplex_area length Nat.eqb]; unfold rnorm; f_equal; replace (INR 3) with 3 by (cbn; lra); unfold Rdiv; match goal with |- sqrt ?p * _ = sqrt ?q * _ * _ => rewrite (sqrt_scaled (/ 3) p q); [ring|lra|unfold rcross, at_; cbn; field] end|]). constructor.
Qed.
Lemma split_4_3 a b c d e f g h i j k l : splits 4 3 [[a; b; c]; [d; e; f]; [g; h; i]; [j; k; l]].
Proof.
  intros m E. cbn [simplex_area length Nat.eqb map app] in E. apply Ok_inj in E. subst m. replace (centroid 3 [[a; b; c]; [d; e; f]; [g; h; i]; [j; k; l]]) with [(a + d + g + j) / 4; (b + e + h + k) / 4; (c + f + i + l) / 4] by (unfold centroid, at_; cbn; f_equal; [field|f_equal; [field|f_equal; field]]). cbn [basis seq combos Nat.sub map app nth].
  repeat (apply Forall_cons; [split; cbn [map app nth simplex_area length Nat.eqb]; f_equal; replace (INR 4) with 4 by (cbn; lra); unfold Rdiv; match goal with |- _ = ?s * _ => rewrite (Rmult_comm s) end; rewrite !det4_ones; (first [apply (abs_scaled 1); [left; reflexivity|lra|unfold det4e; field] | apply (abs_scaled (-1)); [right; reflexivity|lra|unfold det4e; field]])|]). constructor.
Qed.
Lemma split_all n gdim cell : supported n gdim -> is_cell n gdim cell -> splits n gdim cell.
Proof.
  intros [[-> G]|[[-> G]|[-> ->]]] IC.
  - assert (C : (gdim = 1 \/ gdim = 2 \/ gdim = 3)%nat) by lia. destruct IC as [LN F]. destruct cell as [|p [|q [|]]]; try discriminate LN. apply Forall_cons_iff in F. destruct F as [FP F]. apply Forall_cons_iff in F. destruct F as [FQ _]. destruct C as [-> |[-> | ->]].
    + destruct p as [|? [|]]; try discriminate FP. destruct q as [|? [|]]; try discriminate FQ. apply split_2_1.
    + destruct p as [|? [|? [|]]]; try discriminate FP. destruct q as [|? [|? [|]]]; try discriminate FQ. apply split_2_2.
    + destruct p as [|? [|? [|? [|]]]]; try discriminate FP. destruct q as [|? [|? [|? [|]]]]; try discriminate FQ. apply split_2_3.
  - assert (C : (gdim = 2 \/ gdim = 3)%nat) by lia. destruct C as [-> | ->].
    + apply cell_3_2 in IC. destruct IC as [? [? [? [? [? [? ->]]]]]]. apply split_3_2.
    + apply cell_3_3 in IC. destruct IC as [? [? [? [? [? [? [? [? [? ->]]]]]]]]]. apply split_3_3.
  - apply cell_4_3 in IC. destruct IC as [? [? [? [? [? [? [? [? [? [? [? [? ->]]]]]]]]]]]]. apply split_4_3.
Qed.
Lemma area_defined n gdim cell : supported n gdim -> is_cell n gdim cell -> exists a, simplex_area cell = Ok a.
Proof.
  intros S [LN F]. destruct S as [[-> G]|[[-> G]|[-> ->]]].
  - destruct cell as [|p [|q [|]]]; try discriminate LN. eexists. reflexivity.
  - destruct cell as [|p [|q [|r [|]]]]; try discriminate LN. apply Forall_cons_iff in F. destruct F as [FP _]. cbn [simplex_area]. rewrite FP. assert (C : (gdim = 2 \/ gdim = 3)%nat) by lia. destruct C as [-> | ->]; eexists; reflexivity.
  - destruct cell as [|p [|q [|r [|s [|]]]]]; try discriminate LN. apply Forall_cons_iff in F. destruct F as [FP _]. cbn [simplex_area]. rewrite FP. eexists. reflexivity.
Qed.
