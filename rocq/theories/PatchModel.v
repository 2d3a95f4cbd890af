(** Patch averages, assembled patch by patch or one colour group at a time.
    xii/assembler/patch_average_matrix.py

    A cell of the bulk mesh is given by its mark in [patch_f], its volume and its
    contributions to the vector of [v*dx], one (dof, integral of the basis
    function) pair for each of its dofs.  The values of [vertex_f] and the keys of
    [patch_coloring] are natural numbers (the code stores them as floats and casts
    them to uintp in line 132).  A vanishing patch volume divides to 0.
    The compatibility assertions on spaces and meshes (44-55, 115-127) are not
    modelled. *)
From Verif Require Import Base Mat FillModel.
Local Open Scope nat_scope.
Local Close Scope Q_scope.
Local Close Scope Qc_scope.

Record pcell := PCell { pc_mark : nat; pc_vol : Qc; pc_ints : list (nat * Qc) }.

(** assemble(v*dx(1)) with the marker function [chi] (87, 177): one value per dof *)
Definition contribution (c : pcell) (d : nat) : Qc := qplus_list (map (fun dv => if fst dv =? d then snd dv else q0) (pc_ints c)).
Definition assemble_chi (cells : list pcell) (chi : list bool) (d : nat) : Qc :=
  qplus_list (map (fun cb : pcell * bool => if snd cb then contribution (fst cb) d else q0) (combine cells chi)).
(** chi_array[patch_cells] = 1 where patch_cells are those with the color *)
Definition mark_patch (cells : list pcell) (color : nat) (chi : list bool) : list bool :=
  map (fun cb : pcell * bool => (pc_mark (fst cb) =? color) || snd cb) (combine cells chi).
Definition patch (cells : list pcell) (color : nat) : list pcell := filter (fun c => pc_mark c =? color) cells.
Definition patch_volume (cells : list pcell) (color : nat) : Qc := qplus_list (map pc_vol (patch cells color)).
(** np.unique(np.hstack(...)); hstack of no arrays raises.  The order of the
    columns is not modelled: the first occurrences are kept. *)
Definition patch_dofs (cells : list pcell) (color : nat) : res (list nat) :=
  match patch cells color with
  | [] => Err ValueError
  | p => Ok (nodup Nat.eq_dec (flat_map (fun c => map fst (pc_ints c)) p))
  end.
Definition no_chi (cells : list pcell) : list bool := map (fun _ => false) cells.

(** patch_avg_mat 76-99: the triples of one row *)
Definition plain_row (cells : list pcell) (rc : nat * nat) : res (list triple) :=
  let (row, color) := rc in
  if color =? 0 then Ok []
  else
    let volume := patch_volume cells color in
    let chi := mark_patch cells color (no_chi cells) in
    do columns <- patch_dofs cells color;
    Ok (map (fun d => (row, d, (assemble_chi cells chi d / volume)%Qc)) columns).
Definition plain_matrix (m n : nat) (cells : list pcell) (color_ids : list nat) : res mat :=
  do rows <- mapM (plain_row cells) (combine (seq 0 (length color_ids)) color_ids);
  Ok (coo m n (concat rows)).

(** patch_avg_mat_coloring 130-137: the colours of each group, groups in order of
    appearance (a dict keeps the order of insertion) *)
Fixpoint group_add (groups : list (nat * list nat)) (g color : nat) : list (nat * list nat) :=
  match groups with
  | [] => [(g, [color])]
  | (g', cs) :: groups' => if g' =? g then (g', cs ++ [color]) :: groups' else (g', cs) :: group_add groups' g color
  end.
Fixpoint assoc (l : list (nat * nat)) (k : nat) : option nat :=
  match l with [] => None | (k', v) :: l' => if k' =? k then Some v else assoc l' k end.
Definition make_groups (coloring : list (nat * nat)) (color_ids : list nat) : list (nat * list nat) :=
  fold_left (fun groups color => match assoc coloring color with None => groups | Some g => group_add groups g color end) color_ids [].
(** 170-174: the first row with that colour *)
Fixpoint index_of (color : nat) (ids : list nat) : res nat :=
  match ids with [] => Err AssertionError | c :: ids' => if c =? color then Ok 0 else (do k <- index_of color ids'; Ok (S k)) end.
(** 155-184: one group.  [chi] is reset after each group (187) *)
Definition group_rows (cells : list pcell) (color_ids : list nat) (group_colors : list nat) : res (list triple) :=
  let chi := fold_left (fun chi color => mark_patch cells color chi) group_colors (no_chi cells) in
  do info <- mapM (fun color => do dofs <- patch_dofs cells color; do row <- index_of color color_ids; Ok (row, dofs, patch_volume cells color)) group_colors;
  Ok (flat_map (fun rdv => map (fun d => (fst (fst rdv), d, (assemble_chi cells chi d / snd rdv)%Qc)) (snd (fst rdv))) info).
Definition coloring_matrix (m n : nat) (cells : list pcell) (coloring : list (nat * nat)) (color_ids : list nat) : res mat :=
  do rows <- mapM (group_rows cells color_ids) (map snd (make_groups coloring color_ids));
  Ok (coo m n (concat rows)).

(** patch_avg_mat 36-42 (patch_f given) *)
Definition patch_avg (m n : nat) (cells : list pcell) (coloring : option (list (nat * nat))) (color_ids : list nat) : res mat :=
  match coloring with
  | None => plain_matrix m n cells color_ids
  | Some coloring => coloring_matrix m n cells coloring color_ids
  end.

(** dirac_avg_mat 200-241 (no patch_f): the nearest dof of V must coincide with the
    dof of TV up to 1e-10; [sqdists] lists for a row the squared distances to the
    dofs of V.  argmin is the first minimum; of no distances it raises. *)
Fixpoint argmin_from (k best : nat) (bv : Qc) (l : list Qc) : nat * Qc :=
  match l with [] => (best, bv) | x :: l' => if qltb x bv then argmin_from (S k) k x l' else argmin_from (S k) best bv l' end.
Definition dirac_row (rd : nat * list Qc) : res triple :=
  match snd rd with
  | [] => Err ValueError
  | x :: l => let bc := argmin_from 1 0 x l in
              if qltb (snd bc) (q1 / qz (10 ^ 20))%Qc then Ok (fst rd, fst bc, q1) else Err AssertionError
  end.
Definition dirac_matrix (m n : nat) (sqdists : list (list Qc)) : res mat :=
  do rows <- mapM dirac_row (combine (seq 0 (length sqdists)) sqdists);
  Ok (coo m n rows).
