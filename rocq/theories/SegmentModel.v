(** Distance of points from segments, sandbox/line_distance.py:4-45

    Arithmetic is exact (real numbers) but a quotient of two zeros is nan, here [None]; both
    comparisons with nan are false.  Arrays of one number, which numpy would broadcast, are not
    modelled. *)
From Verif Require Export Base GeomModel.
From Verif Require Import EmbedModel.
Local Open Scope R_scope.

(** np.cross; for vectors of the plane it is a number *)
Definition np_cross (u v : list R) : res (list R) :=
  match u, v with
  | [u0; u1], [v0; v1] => Ok [u0 * v1 - u1 * v0]
  | [u0; u1; u2], [v0; v1; v2] => Ok [u1 * v2 - u2 * v1; u2 * v0 - u0 * v2; u0 * v1 - u1 * v0]
  | _, _ => Err ValueError
  end.

(** 4-20 segment_distance *)
Definition segment_distance (P A B : list R) : res (option R) :=
  if negb (Nat.eqb (length A) (length B) && Nat.eqb (length A) (length P)) then Err ValueError else
  let u := rsub B A in
  let v := rsub P A in
  let l := rnorm (rsub B A) in
  if Req_EM_T l 0 then do _ <- np_cross u v; Ok None else
  let t := rdot u v / l ^ 2 in
  if Rlt_dec t 0 then Ok (Some (rnorm (rsub A P)))
  else if Rlt_dec 1 t then Ok (Some (rnorm (rsub B P)))
  else do c <- np_cross u v; Ok (Some (rnorm c / l)).

(** np.minimum: nan is kept *)
Definition np_minimum (a b : option R) : option R :=
  match a, b with Some x, Some y => Some (Rmin x y) | _, _ => None end.
(** 36-43 with the segments [segs] and the coordinates [xs] of the dofs: the values of the function *)
Definition distance_field (segs : list (list R * list R)) (xs : list (list R)) : res (list (option R)) :=
  foldM (fun distance s =>
           do d <- mapM (fun x => segment_distance x (fst s) (snd s)) xs;
           Ok (map (fun p => np_minimum (fst p) (snd p)) (combine distance d)))
        segs (map (fun _ => Some (0 + 3)) xs).
