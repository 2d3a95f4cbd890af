(** Drawings of meshes, xii/meshing/tikz.py:27-155

    The drawing is a list of commands instead of a string; styles and the texts of nodes are nat.
    Midpoints of marked domains (lines 37-41, integrals) come as an argument.  A mesh function has
    the mesh it lives on.  The order of Python's sets is the one of the numbers. *)
From Verif Require Export Mat.
Local Open Scope nat_scope.

Record tmesh := TMesh { t_gdim : nat; t_coords : list vec; t_cells : list (list nat); t_edges : list (list nat) }.
Inductive comment := Mid (c : nat) | Isect (ci cj : nat) | LowerLeft | UpperRight | Bif.
Inductive command :=
| Fill (style : nat) (points : list vec)
| Draw (style : nat) (points : list vec)
| Node (style : nat) (point : vec) (text : nat)
| Coordinate (label : nat * nat) (point : vec) (c : comment)
| Mark (label : nat * nat).

Definition point (m : tmesh) (v : nat) : res vec := opt_res IndexError (nth_error (t_coords m) v).
(** the templates have as many places as coordinates in 2d, and three per point otherwise *)
Definition template_fits (gdim places : nat) (points : list vec) : bool :=
  Nat.eqb (length (concat points)) (places * (if Nat.eqb gdim 2 then 2 else 3)).
Definition emit (gdim places : nat) (points : list vec) (c : command) : res command :=
  if template_fits gdim places points then Ok c else Err TypeError.

Fixpoint lookup {A} (k : nat) (d : list (nat * A)) : option A :=
  match d with [] => None | (k', a) :: d' => if Nat.eqb k k' then Some a else lookup k d' end.

(** 44-54 *)
Definition fill_cells (m : tmesh) (markers : list nat) (styles : list (nat * nat)) : res (list command) :=
  mapM (fun ic => let '(idx, cell) := ic in
    do mk <- opt_res IndexError (nth_error markers idx);
    do style <- opt_res KeyError (lookup mk styles);
    do ps <- mapM (point m) cell;
    emit (t_gdim m) 3 ps (Fill style ps))
  (combine (seq 0 (length (t_cells m))) (t_cells m)).

(** where_equal, 75, 77, 92: the facets of a colour *)
Definition where_equal (m : tmesh) (markers : list nat) (c : nat) : list (list nat) :=
  map snd (filter (fun p => Nat.eqb (fst p) c) (combine markers (t_edges m))).
Definition nubn := nodup Nat.eq_dec.
Definition vertices_of (m : tmesh) (markers : list nat) (c : nat) : list nat := nubn (concat (where_equal m markers c)).
(** 73: the colours but 0 *)
Fixpoint insert (x : nat) (l : list nat) : list nat :=
  match l with [] => [x] | y :: l' => if x <=? y then x :: l else y :: insert x l' end.
Definition facet_colors (markers : list nat) : list nat :=
  fold_right insert [] (nubn (filter (fun c => negb (Nat.eqb c 0)) markers)).
(** 74-81: pairs of colours and their common vertices *)
Fixpoint pairs (l : list nat) : list (nat * nat) :=
  match l with [] => [] | c :: l' => map (pair c) l' ++ pairs l' end.
Definition corners (m : tmesh) (markers : list nat) : list (nat * (nat * nat)) :=
  flat_map (fun cc => map (fun v => (v, cc))
    (filter (fun v => existsb (Nat.eqb v) (vertices_of m markers (snd cc))) (vertices_of m markers (fst cc))))
  (pairs (facet_colors markers)).
Definition corner_points (m : tmesh) (markers : list nat) : res (list (vec * comment)) :=
  mapM (fun vc => do x <- point m (fst vc); Ok (x, Isect (fst (snd vc)) (snd (snd vc)))) (corners m markers).
(** 87-94 *)
Definition draw_facets (m : tmesh) (markers : list nat) (styles : list (nat * option nat)) : res (list command) :=
  do cs <- mapM (fun s => match snd s with
      | None => Ok []
      | Some style => mapM (fun e => do ps <- mapM (point m) e; emit (t_gdim m) 2 ps (Draw style ps)) (where_equal m markers (fst s))
      end) styles;
  Ok (concat cs).

(** 96-97: coordinates().min(axis=0), max(axis=0) *)
Definition axis (pick : Qc -> Qc -> Qc) (m : tmesh) : res vec :=
  match t_coords m with
  | [] => Err ValueError
  | x :: xs => Ok (fold_left (fun acc y => map (fun p => pick (fst p) (snd p)) (combine acc y)) xs x)
  end.
Definition qmin (a b : Qc) : Qc := if Qclt_le_dec b a then b else a.
Definition qmax (a b : Qc) : Qc := if Qclt_le_dec a b then b else a.

(** 99-121 *)
Definition draw_vertices (m : tmesh) (markers : list nat) (styles : list (nat * (option nat * nat))) : res (list command) :=
  do cs <- mapM (fun iv => let '(idx, vtx) := iv in
      do mk <- opt_res IndexError (nth_error markers idx);
      match lookup mk styles with
      | None => Ok []
      | Some (None, _) => Ok []
      | Some (Some style, text) => do c <- emit (t_gdim m) 1 [vtx] (Node style vtx text); Ok [c]
      end)
    (combine (seq 0 (length (t_coords m))) (t_coords m));
  Ok (concat cs).

(** 123-130: the vertices of the marked facets (the vertices of the embedded mesh) with more than
    two of them *)
Definition bifurcations (m : tmesh) (markers : list nat) (tags : list nat) : res (list (vec * comment)) :=
  let marked := map snd (filter (fun p => existsb (Nat.eqb (fst p)) tags) (combine markers (t_edges m))) in
  mapM (fun v => do x <- point m v; Ok (x, Bif))
    (filter (fun v => 2 <? length (filter (fun e => existsb (Nat.eqb v) e) marked)) (nubn (concat marked))).

(** 134-143: chr of 65+j and 65+k, 1114112 numbers are characters *)
Definition char (c : nat) : res nat := if (Z.of_nat c <? 1114112)%Z then Ok c else Err ValueError.
Definition name_point (gdim i : nat) (pc : vec * comment) : res (list command) :=
  do a <- char (65 + i mod 26);
  do b <- char (65 + i / 26);
  if (if Nat.eqb gdim 2 then 2 else 3) <=? length (fst pc) then
    let p := firstn (if Nat.eqb gdim 2 then 2 else 3) (fst pc) in
    Ok (Coordinate (a, b) p (snd pc) :: match snd pc with Bif => [Mark (a, b)] | _ => [] end)
  else Err IndexError.
Definition name_points (gdim : nat) (l : list (vec * comment)) : res (list command) :=
  do cs <- mapM (fun ip => name_point gdim (fst ip) (snd ip)) (combine (seq 0 (length l)) l);
  Ok (concat cs).

(** 27-155: cell_info with its midpoints; facet_info as a list (a pair is a list of one); the mesh
    and the facet function of the last one are what is left in the variables [mesh],
    [facet_markers]; [gdim] is the one of the last of all *)
Record facet_data := FacetData { fd_mesh : tmesh; fd_markers : list nat; fd_styles : list (nat * option nat) }.
Record cell_data := CellData { cd_mesh : tmesh; cd_markers : list nat; cd_mids : list (vec * comment); cd_styles : option (list (nat * nat)) }.
Record vertex_data := VertexData { vd_mesh : tmesh; vd_markers : list nat; vd_styles : list (nat * (option nat * nat)) }.
Definition last_mesh (cell_info : option cell_data) (facet_info : list facet_data) : res tmesh :=
  match rev facet_info, cell_info with
  | f :: _, _ => Ok (fd_mesh f)
  | [], Some c => Ok (cd_mesh c)
  | [], None => Err UnboundLocalError
  end.
Definition tikzify_2d_mesh (facet_info : list facet_data) (cell_info : option cell_data) (vertex_info : list vertex_data)
  (bifurcation_nodes_for : option (list nat)) : res (list command) :=
  do fills <- match cell_info with
              | Some c => match cd_styles c with Some st => fill_cells (cd_mesh c) (cd_markers c) st | None => Ok [] end
              | None => Ok [] end;
  do isects <- mapM (fun f => corner_points (fd_mesh f) (fd_markers f)) facet_info;
  do draws <- mapM (fun f => draw_facets (fd_mesh f) (fd_markers f) (fd_styles f)) facet_info;
  do m <- last_mesh cell_info facet_info;
  do ll <- axis qmin m;
  do ur <- axis qmax m;
  do nodes <- mapM (fun v => draw_vertices (vd_mesh v) (vd_markers v) (vd_styles v)) vertex_info;
  do bifs <- match bifurcation_nodes_for with
             | None => Ok []
             | Some tags => match rev facet_info with
                            | f :: _ => bifurcations (fd_mesh f) (fd_markers f) tags
                            | [] => Err UnboundLocalError
                            end
             end;
  let gdim := match rev vertex_info with v :: _ => t_gdim (vd_mesh v) | [] => t_gdim m end in
  do names <- name_points gdim (match cell_info with Some c => cd_mids c | None => [] end ++ concat isects ++ [(ll, LowerLeft); (ur, UpperRight)] ++ bifs);
  Ok (fills ++ concat draws ++ concat nodes ++ names).
