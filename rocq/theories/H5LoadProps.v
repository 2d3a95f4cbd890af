(** C138: the mesh and the functions read by load_mesh *)
From Coq Require Import String Lia.
From Verif Require Import H5LoadModel H5LoadProofs.
Local Open Scope string_scope.
Local Open Scope list_scope.

(** When it returns: the mesh is the one of the file; there is one entry for each data set asked for, in order; it is
    None exactly for data sets that are not in the file, and otherwise a function of the dimension asked for whose
    value on each entity is the one of the file *)
Theorem C138_loaded : forall file ds m fs, load_mesh file ds = Ok (m, fs) ->
  says file "mesh" (DMesh m) /\ length fs = length ds /\
  forall i dim name, nth_error ds i = Some (dim, name) ->
    (nth_error fs i = Some None <-> silent file name) /\
    forall f, nth_error fs i = Some (Some f) -> exists vals, says file name (DFun dim vals) /\ mf_dim f = dim /\
      length (mf_vals f) = length (m dim) /\ forall j e v, nth_error (m dim) j = Some e -> nth_error (mf_vals f) j = Some v -> value_of vals e v.
Proof.
  intros file ds m fs E. unfold load_mesh in E.
  destruct (read_mesh file "mesh") as [m'|] eqn:E1; [|discriminate]. cbn [bind] in E.
  destruct (mapM (load_one file m') ds) as [fs'|] eqn:E2; [|discriminate]. cbn [bind] in E. injection E as -> ->.
  unfold read_mesh in E1. destruct (h5_get file "mesh") as [[m'|]|] eqn:E3; try discriminate. injection E1 as ->.
  apply h5_get_some in E3. apply mapM_nth in E2. destruct E2 as [L H].
  split; [exact E3|split; [exact L|]]. intros i dim name I.
  assert (exists o, nth_error fs i = Some o) as [o O].
  { destruct (nth_error fs i) eqn:N; [eauto|]. apply nth_error_None in N. assert (i < length ds) by (apply nth_error_Some; congruence). lia. }
  specialize (H _ _ _ I O). unfold load_one, has_dataset in H. cbn [fst snd] in H. rewrite O. split.
  - rewrite <- h5_get_none. destruct (h5_get file name); [|injection H as <-; tauto].
    destruct (read_function _ _ _ _); [|discriminate]. injection H as <-. split; discriminate.
  - intros f [= ->]. destruct (h5_get file name) as [d|] eqn:G; [|discriminate].
    unfold read_function in H. rewrite G in H. destruct d as [|d vals]; [discriminate|]. cbn [mf_dim new_function mf_vals] in H.
    destruct (Nat.eqb_spec d dim) as [->|]; [|discriminate]. rewrite read_zeros in H. injection H as <-.
    exists vals. apply h5_get_some in G. split; [exact G|]. split; [reflexivity|]. cbn [mf_vals]. split; [apply map_length|].
    intros j e v J V. rewrite nth_error_map, J in V. injection V as <-. apply lookup_value.
Qed.
Print Assumptions C138_loaded.

(** It returns exactly if there is a mesh and no data set asked for is of another kind or dimension *)
Theorem C138_returns : forall file ds, (exists r, load_mesh file ds = Ok r) <->
  (exists m, says file "mesh" (DMesh m)) /\
  forall dim name, In (dim, name) ds -> silent file name \/ exists vals, says file name (DFun dim vals).
Proof.
  intros file ds. split.
  - intros ((m & fs) & E). destruct (C138_loaded _ _ _ _ E) as (M & L & H). split; [eauto|].
    intros dim name I. apply In_nth_error in I. destruct I as (i & I). destruct (H _ _ _ I) as [H1 H2].
    destruct (nth_error fs i) as [[f|]|] eqn:O.
    + right. destruct (H2 f eq_refl) as (vals & S & _). eauto.
    + left. apply H1. reflexivity.
    + apply nth_error_None in O. assert (i < length ds) by (apply nth_error_Some; congruence). lia.
  - intros [(m & M) H]. unfold load_mesh, read_mesh. rewrite (proj2 (h5_get_some _ _ _) M). cbn [bind].
    assert (exists fs, mapM (load_one file m) ds = Ok fs) as [fs ->]; [|cbn [bind]; eauto].
    clear M. induction ds as [|[dim name] ds IH]; [simpl; eauto|].
    destruct IH as [fs E]; [intros; apply H; right; assumption|]. cbn [mapM]. rewrite E.
    assert (exists o, load_one file m (dim, name) = Ok o) as [o ->]; [|cbn [bind]; eauto].
    unfold load_one, has_dataset, read_function. cbn [fst snd]. destruct (H dim name (or_introl eq_refl)) as [S|(vals & S)].
    + rewrite (proj2 (h5_get_none _ _) S). eauto.
    + rewrite (proj2 (h5_get_some _ _ _) S). cbn [mf_dim new_function]. rewrite Nat.eqb_refl. cbn [bind]. eauto.
Qed.
Print Assumptions C138_returns.

(** The call of __main__ (xii/meshing/tikz.py:186): volumes and surfaces of two triangles; the surfaces are not there *)
Definition C138_mesh : h5mesh := fun d => match d with 2 => [[0; 1; 2]; [1; 2; 3]] | 1 => [[0; 1]; [0; 2]; [1; 2]; [1; 3]; [2; 3]] | _ => [] end.
Definition C138_file : h5file := [("mesh", DMesh C138_mesh); ("volumes", DFun 2 [([3; 2; 1], 7); ([0; 2; 1], 5)])].
Example C138_ex : load_mesh C138_file [(2, "volumes"); (1, "surfaces")] = Ok (C138_mesh, [Some (MeshFun 2 [5; 7]); None]) /\
  load_mesh C138_file [(1, "volumes")] = Err RuntimeError.
Proof. split; reflexivity. Qed.
