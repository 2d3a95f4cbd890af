(** C74: means are integrals divided by the size of the domain. *)
From Verif Require Import Base Mat MatProofs MeanModel MeanProofs.

(** What Mean computes: the integral of the function times the weight over
    the domain of the measure (the mesh if there is none). *)
Theorem C74_mean V mesh weight measure u a :
  integral (fun x => (value V u x * match weight with Some w => w x | None => 1 end)%Qc) (match measure with Some d => d | None => mesh end) a ->
  mv (mean_mat V mesh weight measure) u = [a].
Proof.
  intros H. set (d := match measure with Some d => d | None => mesh end) in *. set (w := match weight with Some w => w | None => fun _ => q1 end).
  rewrite (integral_fun _ _ _ _ H (assembled_integral d _)). clear H.
  unfold mv, mean_mat. cbn [nr nc ent]. unfold vtab. cbn [seq map Nat.eqb]. f_equal. symmetry.
  transitivity (assembled d (fun x => sumn (s_dim V) (fun j => (vnth u j * (basis V j x * w x))%Qc))).
  - apply assembled_ext. intros x. unfold value. rewrite Qcmult_comm, <- sumn_scal. apply sumn_ext. intros j _. unfold w. destruct weight; unfold q1; ring.
  - rewrite assembled_sum. apply sumn_ext. intros j Hj. rewrite assembled_scal. fold d w.
    assert (E : vnth (map (fun j => assembled d (fun x => (basis V j x * w x)%Qc)) (seq 0 (s_dim V))) j = assembled d (fun x => (basis V j x * w x)%Qc)).
    { unfold vnth. rewrite (nth_indep _ q0 ((fun j => assembled d (fun x => (basis V j x * w x)%Qc)) 0)) by (rewrite map_length, seq_length; exact Hj).
      rewrite (map_nth (fun j => assembled d (fun x => (basis V j x * w x)%Qc))), seq_nth by exact Hj. reflexivity. }
    rewrite E. ring.
Qed.
Print Assumptions C74_mean.

(** One cell of size two with two points; two basis functions. *)
Definition dom := [MCell (qz 2) [(0, q1); (1, q1)]].
Definition W := SSpace 2 (fun j x => if j =? x then q1 else q0).
Example C74_mean_ex :
  mv (mean_mat W dom (Some (fun x => if x =? 0 then qz 3 else q1)) None) [qz 1; qz 5] = [qz 8] /\ exact dom /\ size dom = qz 2.
Proof. repeat split. repeat constructor. Qed.

(** So the mean "|domain|^{-1} \int v" of the documentation is what is
    computed when the weight is the inverse of the size of the domain. *)
Theorem C74_mean_partial V mesh u a b :
  let weight := Some (fun _ : nat => (1 / size mesh)%Qc) in
  size mesh <> 0%Qc -> integral (value V u) mesh a -> mv (mean_mat V mesh weight None) u = [b] -> (b * size mesh)%Qc = a.
Proof.
  intros weight Hs Ha Hb.
  pose proof (C74_mean V mesh weight None u _ (assembled_integral mesh _)) as H. rewrite Hb in H. injection H as ->.
  rewrite (integral_fun _ _ _ _ Ha (assembled_integral mesh _)).
  transitivity ((1 / size mesh * assembled mesh (value V u)) * size mesh)%Qc.
  - f_equal. rewrite <- assembled_scal. apply assembled_ext. intros x. unfold weight. ring.
  - field. exact Hs.
Qed.
Print Assumptions C74_mean_partial.
Example C74_mean_partial_ex : size dom <> 0%Qc /\ mv (mean_mat W dom (Some (fun _ => (1 / size dom)%Qc)) None) [qz 1; qz 5] = [qz 3].
Proof. split; [discriminate |]. unfold mv, vtab. cbn [mean_mat nr seq map]. f_equal. apply Qc_is_canon. vm_compute. reflexivity. Qed.

(** Without a weight the mean of the constant one is the size of the domain. *)
Theorem C74_unweighted V mesh u c :
  exact mesh -> (forall x, value V u x = c) -> mv (mean_mat V mesh None None) u = [(c * size mesh)%Qc].
Proof.
  intros He Hc. apply C74_mean. rewrite <- (assembled_const mesh c He).
  rewrite (assembled_ext mesh _ (fun x => (value V u x * 1)%Qc)); [apply assembled_integral |]. intros x. rewrite Hc. ring.
Qed.
Print Assumptions C74_unweighted.
Theorem C74_mean_refuted :
  exists V mesh u, exact mesh /\ (forall x, In x (flat_map (fun c => map fst (rule c)) mesh) -> value V u x = 1%Qc) /\
    size mesh <> 0%Qc /\ mv (mean_mat V mesh None None) u <> [1%Qc].
Proof.
  exists W, dom, [q1; q1]. split; [repeat constructor |]. split.
  - intros x Hx. cbn in Hx. destruct Hx as [<- | [<- | []]]; reflexivity.
  - split; discriminate.
Qed.
Print Assumptions C74_mean_refuted.

(** Means over surfaces: the integral of the trace divided by the area. *)
Theorem C74_surface TV surface T u a b :
  nr T = s_dim TV -> size surface <> 0%Qc -> integral (value TV (mv T u)) surface a -> mv (surface_mean_matrix TV surface T) u = [b] ->
  (b * size surface)%Qc = a.
Proof.
  intros Hn Hs Ha Hb. unfold surface_mean_matrix in Hb. set (M := Mat 1 _ _) in Hb.
  assert (Hm : mv (mmul M T) u = mv M (mv T u)) by (apply mv_mmul; cbn [M nc]; symmetry; exact Hn).
  rewrite Hm in Hb. unfold mv at 1 in Hb. cbn [M nr nc ent] in Hb. unfold vtab in Hb. cbn [seq map] in Hb. injection Hb as Hb.
  change (fold_right Qcplus q0 (map volume surface)) with (size surface) in Hb.
  rewrite (integral_fun _ _ _ _ Ha (assembled_integral surface _)), <- Hb.
  transitivity ((1 / size surface * assembled surface (value TV (mv T u))) * size surface)%Qc; [| field; exact Hs]. f_equal.
  unfold value. rewrite assembled_sum, <- sumn_scal. apply sumn_ext. intros j _. rewrite !assembled_scal. unfold q1. ring.
Qed.
Print Assumptions C74_surface.

(** The mean of a function with constant trace is that constant: the unit of
    the function is preserved. *)
Theorem C74_surface_constant TV surface T u c :
  nr T = s_dim TV -> size surface <> 0%Qc -> exact surface -> (forall x, value TV (mv T u) x = c) ->
  mv (surface_mean_matrix TV surface T) u = [c].
Proof.
  intros Hn Hs He Hc. destruct (mv (surface_mean_matrix TV surface T) u) as [| b [| b' l]] eqn:E;
    pose proof (f_equal (@length Qc) E) as L; unfold mv, vtab in L; rewrite map_length, seq_length in L; try discriminate L.
  pose proof (C74_surface TV surface T u _ b Hn Hs (assembled_integral surface _) E) as H.
  rewrite (assembled_ext surface _ (fun _ => c) Hc), (assembled_const surface c He) in H. f_equal.
  replace b with ((b * size surface) / size surface)%Qc by (field; exact Hs). rewrite H. field. exact Hs.
Qed.
Print Assumptions C74_surface_constant.
Example C74_surface_ex :
  mv (surface_mean_matrix W dom (Mat 2 1 (fun i _ => if i =? 0 then qz 3 else qz 5))) [qz 2] = [qz 8] /\
  mv (surface_mean_matrix (SSpace 1 (fun _ _ => q1)) dom (Mat 1 1 (fun _ _ => q1))) [qz 7] = [qz 7].
Proof. split; unfold mv, vtab; cbn [surface_mean_matrix mmul nr seq map]; f_equal; apply Qc_is_canon; vm_compute; reflexivity. Qed.
