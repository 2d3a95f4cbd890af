(** The maps C, D, RB and S of sandbox/transforms.py:5-82

    Arithmetic is exact, but a quotient of zeros is nan, here [None]; the comparisons with nan are
    false.  cos and sin of multiples of pi/2 are 0, 1, -1.  RB and S have the same lines as the
    squares of average_shape.py and share the model of their corners (ShapeModel). *)
From Verif Require Export ShapeModel.
Local Open Scope R_scope.

(** n / np.linalg.norm(n) *)
Definition unit3 (n : v3) : option v3 := if Req_EM_T (norm3 n) 0 then None else Some (vmul (/ norm3 n) n).

(** 14-16, 31-33: y = x - n*dot(x, n), divided by sqrt(norm - dot(x, n)**2) *)
Definition projected (x n : v3) : option v3 :=
  let y := vminus x (vmul (vdot3 x n) n) in
  let d := sqrt (vdot3 x x - vdot3 x n ^ 2) in
  if Req_EM_T d 0 then None else Some (vmul (/ d) y).

(** 5-19 C *)
Definition circle_map (x0 n : v3) (r : R) (x : v3) : res (option v3) :=
  if Rlt_dec (Rabs (vdot3 x x - 1)) tol13 then
    if Rlt_dec (Rabs (vz x)) tol13 then
      Ok (match unit3 n with
          | None => None
          | Some n => match projected x n with None => None | Some y => Some (vplus x0 (vmul r y)) end
          end)
    else Err AssertionError
  else Err AssertionError.

(** 22-36 D *)
Definition disk_map (x0 n : v3) (r : R) (x : v3) : res (option v3) :=
  if Rlt_dec (vdot3 x x) (1 + tol13) then
    if Rlt_dec (Rabs (vz x)) tol13 then
      Ok (match unit3 n with
          | None => None
          | Some n => match projected x n with None => None | Some y => Some (vplus x0 (vmul (r * sqrt (vdot3 x x)) y)) end
          end)
    else Err AssertionError
  else Err AssertionError.

(** 39-62 RB *)
Definition rim (x0 n P : v3) (x : R) : res (list v3) :=
  do AC <- square_corners x0 n P;
  rim_map [P; fst AC; vminus x0 (vminus P x0); snd AC] x.

(** 65-82 S *)
Definition square (x0 n P : v3) (xy : R * R) : res v3 :=
  do AC <- square_corners x0 n P;
  square_map P (fst AC) (snd AC) xy.
