(** Random curves of edges: [fun] of apps/enumath/meshing.py:98-158 and apps/d123/meshing.py:143-168

    The choices of the module random are an argument, a list which is used up; a run which needs
    more of them is OutOfFuel.  nx.shortest_path is an argument too.  Which vertices are on the
    surface (that bc.get_boundary_values finds them) is an argument of [fun_3d]; [surface] below is
    the condition of 114.  Vertices are numbers. *)
From Verif Require Export Base.
From Verif Require Import ShapeModel.
From Coq Require Export Reals.
Local Open Scope nat_scope.

(** tuple(sorted(e.entities(0).tolist())) *)
Definition sorted (e : nat * nat) : nat * nat := if snd e <? fst e then (snd e, fst e) else e.
Definition same (e g : nat * nat) : bool := (fst e =? fst g) && (snd e =? snd g).

(** 108-109 edge_indices[edge]: of equal keys the dictionary has the last *)
Fixpoint edge_index (edges : list (nat * nat)) (k : nat) (edge : nat * nat) (found : option nat) : option nat :=
  match edges with
  | [] => found
  | e :: edges' => edge_index edges' (S k) edge (if same (sorted e) edge then Some k else found)
  end.

(** edge_f[i] = 1 *)
Fixpoint mark (f : list nat) (i : nat) : res (list nat) :=
  match f, i with
  | [], _ => Err IndexError
  | _ :: f', O => Ok (1 :: f')
  | x :: f', S i' => do g <- mark f' i'; Ok (x :: g)
  end.

(** 150-152: for v0, v1 in zip(path[:-1], path[1:]) *)
Fixpoint mark_path (edges : list (nat * nat)) (path : list nat) (f : list nat) : res (list nat) :=
  match path with
  | v0 :: ((v1 :: _) as path') =>
      let edge := if v0 <? v1 then (v0, v1) else (v1, v0) in
      do i <- opt_res KeyError (edge_index edges 0 edge None);
      do f <- mark f i;
      mark_path edges path' f
  | _ => Ok f
  end.

Section Fun.
Variable on_surface : nat -> bool.
Variable shortest_path : nat -> nat -> res (list nat).
Variable edges : list (nat * nat).

(** 127-129: the next vertex *)
Fixpoint pick (start : nat) (choices : list nat) : res (nat * list nat) :=
  match choices with
  | [] => Err OutOfFuel
  | stop :: choices' => if negb (start =? stop) && negb (on_surface stop) then Ok (stop, choices') else pick start choices'
  end.

(** 137-144: clean_path and first from the reversed path *)
Fixpoint walk_back (path : list nat) : list nat * option nat :=
  match path with
  | [] => ([], None)
  | p :: path' => if on_surface p then ([p], Some p) else let (c, first) := walk_back path' in (p :: c, first)
  end.

(** 125-154; the assignment of 145 is followed by that of 153 *)
Fixpoint loop (fuel npoints start : nat) (first : option nat) (f choices : list nat) : res (list nat * option nat) :=
  match npoints with
  | O => Ok (f, first)
  | S npoints' =>
      match fuel with
      | O => Err OutOfFuel
      | S fuel =>
          do sc <- pick start choices;
          let (stop, choices) := sc in
          do path <- shortest_path start stop;
          match first with
          | None =>
              let (path, first) := walk_back (rev path) in
              do f <- mark_path edges path f;
              loop fuel npoints' stop first f choices
          | Some _ =>
              if existsb on_surface path then loop fuel npoints start first f choices
              else do f <- mark_path edges path f; loop fuel npoints' stop first f choices
          end
      end
  end.

(** 98-158; of X[first] the index *)
Definition fun_3d (npoints start : nat) (choices : list nat) : res (list nat * option nat) :=
  loop (length choices) npoints start None (repeat 0 (length edges)) choices.

(** 158-166 of apps/d123/meshing.py; a sample is a pair *)
Fixpoint fun_loop (samples : list (nat * nat)) (f : list nat) : res (list nat) :=
  match samples with
  | [] => Ok f
  | (v0, v1) :: samples' =>
      if v0 =? v1 then fun_loop samples' f
      else do path <- shortest_path v0 v1; do f <- mark_path edges path f; fun_loop samples' f
  end.
Definition fun_2d (samples : list (nat * nat)) : res (list nat) := fun_loop samples (repeat 0 (length edges)).
End Fun.

(** 114 near(max(|x|, |y|, |z|), 1, TOL) *)
Definition surface (tol : R) (x : v3) : bool := if Rle_dec (Rabs (Rmax (Rmax (Rabs (vx x)) (Rabs (vy x))) (Rabs (vz x)) - 1)) tol then true else false.
(** 120 np.argmin(np.sum((X - np.array([-1, -1, -1]))**2, axis=1)): the first of the least *)
Definition to_corner (x : v3) : R := ((vx x - -1) ^ 2 + (vy x - -1) ^ 2 + (vz x - -1) ^ 2)%R.
Fixpoint argmin (k best : nat) (least : R) (X : list v3) : nat :=
  match X with
  | [] => best
  | x :: X' => if Rlt_dec (to_corner x) least then argmin (S k) k (to_corner x) X' else argmin (S k) best least X'
  end.
Definition start_vertex (X : list v3) : res nat :=
  match X with [] => Err ValueError | x :: X' => Ok (argmin 1 0 (to_corner x) X') end.
