(** Branches of 1d meshes, xii/meshing/branching.py:14-160

    A 1d mesh is the list of the end vertices of its cells and the number of
    vertices.  Sets are lists without repetition; which element set.pop() takes is
    not known: [pop i s] is the choice for the i-th branch.  Loops have fuel. *)
From Verif Require Import Base FillModel EmbedModel.
Local Open Scope nat_scope.

Notation graph := (list (nat * nat)) (only parsing).
(** mesh.topology()(0, 1) and (1, 0) *)
Definition c2v (g : graph) (c : nat) : nat * nat := nth c g (0, 0).
Definition v2c (g : graph) (v : nat) : list nat := filter (fun c => (fst (c2v g c) =? v) || (snd (c2v g c) =? v)) (seq 0 (length g)).
(** 14-21 *)
Definition is_loop (nv : nat) (g : graph) : bool := forallb (fun v => length (v2c g v) =? 2) (seq 0 nv).
(** 37-39, 41-43 *)
Definition next_vertex (g : graph) (c v : nat) : nat := if v =? fst (c2v g c) then snd (c2v g c) else fst (c2v g c).
Definition next_cell (g : graph) (v c : nat) : res nat := match v2c g v with [c0; c1] => Ok (if c =? c0 then c1 else c0) | _ => Err ValueError end.

(** terminals, a dict in the order of vertices (31) *)
Notation tdict := (list (nat * list nat)) (only parsing).
Definition terminals_of (nv : nat) (g : graph) : tdict := map (fun v => (v, v2c g v)) (filter (fun v => negb (length (v2c g v) =? 2)) (seq 0 nv)).
Fixpoint get (d : tdict) (v : nat) : option (list nat) := match d with [] => None | (w, s) :: d' => if w =? v then Some s else get d' v end.
Fixpoint put (d : tdict) (v : nat) (s : list nat) : tdict := match d with [] => [] | (w, t) :: d' => if w =? v then (w, s) :: d' else (w, t) :: put d' v s end.
Definition is_in (x : nat) (s : list nat) : bool := existsb (Nat.eqb x) s.
(** 50: max with sets as keys; a > b for sets is "proper superset" *)
Definition supset (a b : list nat) : bool := forallb (fun x => is_in x a) b && negb (forallb (fun x => is_in x b) a).
Definition max_terminal (d : tdict) : option (nat * list nat) :=
  match d with [] => None | t :: d' => Some (fold_left (fun m t => if supset (snd t) (snd m) then t else m) d' t) end.

(** 57-66 *)
Fixpoint walk (fuel : nat) (g : graph) (terms : tdict) (branch : list nat) (v0 link : nat) : res (list nat * nat * nat) :=
  match fuel with
  | 0 => Err OutOfFuel
  | S fuel => let v1 := next_vertex g link v0 in
              match get terms v1 with
              | Some _ => Ok (branch, v1, link)
              | None => do link' <- next_cell g v1 link; walk fuel g terms (branch ++ [link']) v1 link'
              end
  end.

Record bstate := BState { b_values : list nat; b_terms : tdict; b_color : nat; b_branch : list nat; b_loop : list nat }.
Section Color.
Variable pop : nat -> list nat -> nat * list nat.
(** 79, 82: remove if present *)
Definition discard (d : tdict) (v link : nat) : tdict := match get d v with Some s => put d v (remove Nat.eq_dec link s) | None => d end.
(** 55-82 *)
Definition branch_step (g : graph) (vertex : nat) (s : bstate) : res bstate :=
  match get (b_terms s) vertex with
  | None => Err KeyError
  | Some cells =>
      let '(link, rest) := pop (b_color s) cells in
      let terms := put (b_terms s) vertex rest in
      do w <- walk (length g) g terms [link] vertex link;
      let '(branch, v0, link) := w in
      let color := S (b_color s) in
      Ok (BState (set_all_at (b_values s) branch color) (discard (discard terms vertex link) v0 link) color
            (if v0 =? vertex then b_branch s else b_branch s ++ [color]) (if v0 =? vertex then b_loop s ++ [color] else b_loop s))
  end.
Fixpoint leave (fuel : nat) (g : graph) (vertex : nat) (s : bstate) : res bstate :=
  match fuel with
  | 0 => Err OutOfFuel
  | S fuel => match get (b_terms s) vertex with
              | None => Err KeyError
              | Some [] => Ok s
              | Some _ => do s' <- branch_step g vertex s; leave fuel g vertex s'
              end
  end.
(** 48-55 *)
Fixpoint exhaust (fuel : nat) (g : graph) (s : bstate) : res bstate :=
  match fuel with
  | 0 => Err OutOfFuel
  | S fuel => match max_terminal (b_terms s) with
              | None => Err ValueError
              | Some (_, []) => Ok s
              | Some (vertex, _) => do s' <- leave (S (length g)) g vertex s; exhaust fuel g s'
              end
  end.
(** 24-84: values of the cell function, colours of branches and of loops *)
Definition color_branches (nv : nat) (g : graph) : res (list nat * list nat * list nat) :=
  let terms := terminals_of nv g in
  match terms with
  | [] => Ok (map (fun _ => 1) g, [], [1])
  | _ => do s <- exhaust (S (length g)) g (BState (map (fun _ => 0) g) terms 0 [] []);
         Ok (b_values s, b_branch s, b_loop s)
  end.
End Color.

(** ** Walking the cells of a colour (115-160) *)
Section Walk.
(** In which order a set is unpacked is not known: [arr s] *)
Variable arr : list nat -> list nat.
(** lv2c = imap(lc2v) (6-11, 117-120): its keys as they were met, and its sets *)
Fixpoint first_seen (l : list nat) : list nat := match l with [] => [] | v :: l' => v :: filter (fun w => negb (w =? v)) (first_seen l') end.
Definition lv_keys (g : graph) (cells : list nat) : list nat := first_seen (flat_map (fun c => [fst (c2v g c); snd (c2v g c)]) cells).
Definition lv2c (g : graph) (cells : list nat) (v : nat) : list nat := filter (fun c => (fst (c2v g c) =? v) || (snd (c2v g c) =? v)) cells.
(** 128-130 *)
Definition next_lcell (g : graph) (cells : list nat) (v c : nat) : res nat := match arr (lv2c g cells v) with [c0; c1] => Ok (if c =? c0 then c1 else c0) | _ => Err ValueError end.
(** 153-160 *)
Fixpoint walk_on (fuel : nat) (g : graph) (cells : list nat) (last v0 link : nat) : res (list (nat * bool)) :=
  match fuel with
  | 0 => Err OutOfFuel
  | S fuel => let v1 := next_vertex g link v0 in
              if v1 =? last then Ok []
              else do link' <- next_lcell g cells v1 link;
                   do out <- walk_on fuel g cells last v1 link';
                   Ok ((link', fst (c2v g link') =? v1) :: out)
  end.
(** 117-160: all that the generator yields; an exception drops what was yielded before *)
Definition walk_cells (values : list nat) (tag : nat) (g : graph) (loop : bool) : res (list (nat * bool)) :=
  let cells := where_eq values tag in
  do s <- (if loop then match cells with
                        | [] => Err IndexError
                        | link :: _ => Ok (link, fst (c2v g link), fst (c2v g link), snd (c2v g link))
                        end
           else match filter (fun v => length (lv2c g cells v) =? 1) (lv_keys g cells) with
                | [v; w] => let '(start, last) := if length (v2c g v) <? length (v2c g w) then (w, v) else (v, w) in
                            match lv2c g cells start with
                            | [link] => match filter (fun u => negb (u =? start)) (first_seen [fst (c2v g link); snd (c2v g link)]) with
                                        | [v1] => Ok (link, start, last, v1)
                                        | _ => Err ValueError
                                        end
                            | _ => Err ValueError
                            end
                | _ => Err ValueError
                end);
  let '(link, start, last, v1) := s in
  do out <- walk_on (length cells) g cells last start link;
  Ok ((link, snd (c2v g link) =? v1) :: out).
(** 87-112.  [arg] is a mesh function with its values, or a mesh, which has no array();
    the mesh has geometric dimension above one (97). *)
Definition walk_vertices (arg : option (list nat)) (tag : nat) (g : graph) (loop : bool) : res (list nat) :=
  do _ <- py_assert (1 <? length g);
  do values <- match arg with Some values => Ok values | None => Err AttributeError end;
  do cells <- walk_cells values tag g loop;
  match cells with
  | [] => Err RuntimeError
  | (c, o) :: cells' => Ok ((if o then [fst (c2v g c); snd (c2v g c)] else [snd (c2v g c); fst (c2v g c)]) ++
                            map (fun t : nat * bool => if snd t then snd (c2v g (fst t)) else fst (c2v g (fst t))) cells')
  end.
End Walk.
