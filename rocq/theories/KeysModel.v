(** The keys of the caches of extensions (xii/assembler/extension_matrix.py:15-30), patch averages
    (patch_average_matrix.py:14-26) and interpolations (interpolation_matrix.py:8-19); the caches
    themselves are those of CacheModel.v *)
From Verif Require Export Base CacheModel.
Local Open Scope nat_scope.

(** The data of a patch average: vertex_f and patch_f are hashed by identity, [pd_values] stands for
    the values they have at the time of the request, which the key does not show; nor does it show
    the colouring *)
Record patch_data := PatchData { pd_vertex : nat; pd_patch : option nat; pd_coloring : option nat; pd_values : nat }.
Definition patch_key (r : request patch_data) : list katom :=
  [space_key (q_V r); space_key (q_TV r); KObj (pd_vertex (q_data r)); onum (pd_patch (q_data r))].

(** The data of an extension: the type and a dictionary or None; [sum(list(items), key)] appends
    names and values in turn *)
Record ext_data := ExtData { e_type : nat; e_items : option (list (nat * katom)) }.
Definition ext_key (r : request ext_data) : list katom :=
  [space_key (q_V r); space_key (q_TV r); KStr (e_type (q_data r))] ++
  match e_items (q_data r) with
  | None => []
  | Some items => flat_map (fun kv => [KStr (fst kv); snd kv]) items
  end.

(** Interpolation from V to Q, with the numbers of cells their meshes have at the time *)
Record interp := Interp { i_V : space; i_Vcells : nat; i_Q : space; i_Qcells : nat }.
Definition interp_key (r : interp) : list katom :=
  [space_key (i_V r); KNum (Z.of_nat (i_Vcells r)); space_key (i_Q r); KNum (Z.of_nat (i_Qcells r))].
