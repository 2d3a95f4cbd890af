(** The curve [boring] of apps/d123/meshing.py:105-140 on the faces 1 to 4 of a cube and the line of apps/d123/domain.geo.
    Simplifications: coordinates and the tolerance are rational; the C++ text of a condition is a tree [cond] and a
    CompiledSubDomain is made of tokens, so that only the brackets and the ' || ' of [union] are seen as text. *)
From Coq Require Import List QArith Qabs Bool.
From Verif Require Import Base.

Definition point : Type := (Q * Q * Q)%type.
Definition x0 (p : point) : Q := fst (fst p).
Definition x1 (p : point) : Q := snd (fst p).
Definition x2 (p : point) : Q := snd p.
Definition coord (i : nat) (p : point) : Q := match i with O => x0 p | S O => x1 p | _ => x2 p end.

(** The terms and conditions of the strings, 125-130 *)
Inductive term := X (i : nat) | MinusX (i : nat) | PlusA | MinusA.
Inductive cond := Near (a b : term) | And (c d : cond).
Definition term_val (A : Q) (t : term) (p : point) : Q :=
  match t with X i => coord i p | MinusX i => - coord i p | PlusA => A | MinusA => - A end.
(** dolfin's near(x, x0, eps): x0 - eps <= x <= x0 + eps *)
Fixpoint cond_val (A tol : Q) (c : cond) (p : point) : bool :=
  match c with
  | Near a b => Qle_bool (term_val A b p - tol) (term_val A a p) && Qle_bool (term_val A a p) (term_val A b p + tol)
  | And c d => cond_val A tol c p && cond_val A tol d p
  end.

(** 114-123 union: a string (None is the empty one) or a list of such *)
Inductive dom := Str (c : option cond) | Many (l : list dom).
Inductive tok := Brackets (c : cond) | Or.
(** ' || '.join *)
Fixpoint join (l : list (list tok)) : list tok :=
  match l with [] => [] | [s] => s | s :: l' => s ++ Or :: join l' end.
Fixpoint body (d : dom) : list tok :=
  match d with
  | Str (Some c) => [Brackets c]
  | Str None => []
  | Many l => join (map body l)
  end.
(** the C++ compiler: conditions with || between them; anything else is an error *)
Fixpoint compile (l : list tok) : res (list cond) :=
  match l with
  | [Brackets c] => Ok [c]
  | Brackets c :: Or :: l' => do cs <- compile l'; Ok (c :: cs)
  | _ => Err RuntimeError
  end.
Definition union (d : dom) : res (list cond) := compile (body d).
Definition inside (A tol : Q) (cs : list cond) (p : point) : bool := existsb (fun c => cond_val A tol c p) cs.

(** 125-130 the dictionary in its order *)
Definition lines : list (nat * dom) :=
  [(4, Str (Some (And (Near (X 1) PlusA) (Near (X 2) PlusA))));
   (3, Str (Some (Near (X 2) (MinusX 0))));
   (2, Str (Some (Near (X 2) (X 1))));
   (1, Many [Str (Some (And (Near (X 0) MinusA) (Near (X 2) MinusA)));
             Str (Some (And (Near (X 1) PlusA) (Near (X 0) MinusA)));
             Str (Some (And (Near (X 1) MinusA) (Near (X 0) MinusA)))])]%nat.

(** The embedded surface mesh: edges with their end points, cells with the tag of marking_function and their edges *)
Record surface := { edges : list (point * point); cells : list (nat * list nat) }.
Definition midpoint (e : point * point) : point :=
  (((x0 (fst e) + x0 (snd e)) / 2, (x1 (fst e) + x1 (snd e)) / 2), (x2 (fst e) + x2 (snd e)) / 2).
(** 134-136 the edges of the cells with the tag (a set; here in the order of the cells, perhaps repeated) *)
Definition candidates (m : surface) (tag : nat) : list nat :=
  flat_map snd (filter (fun c => Nat.eqb (fst c) tag) (cells m)).
Fixpoint set_nth (l : list nat) (i v : nat) : list nat :=
  match l, i with [], _ => [] | _ :: l', O => v :: l' | x :: l', S i' => x :: set_nth l' i' v end.
(** 137-139 *)
Definition mark_line (m : surface) (A tol : Q) (line : list cond) (f : list nat) (fs : list nat) : list nat :=
  fold_left (fun f j => match nth_error (edges m) j with
                        | Some e => if inside A tol line (midpoint e) then set_nth f j 1%nat else f
                        | None => f
                        end) fs f.
(** 105-141 boring; tol is 1E-10 *)
Definition boring (m : surface) (A tol : Q) : res (list nat) :=
  do ls <- mapM (fun td => do cs <- union (snd td); Ok (fst td, cs)) lines;
  Ok (fold_left (fun f tl => mark_line m A tol (snd tl) f (candidates m (fst tl))) ls (repeat 0%nat (length (edges m)))).

(** * domain.geo *)
(** The points 1 to 8 and the lines 1 to 12 of Box(1) as OpenCASCADE numbers them (an assumption about gmsh), for the cube
    [-A, A]^3 of domain.geo:6 *)
Definition box_point (A : Q) (k : nat) : option point :=
  nth_error [((-A, -A), A); ((-A, -A), -A); ((-A, A), A); ((-A, A), -A); ((A, -A), A); ((A, -A), -A); ((A, A), A); ((A, A), -A)] (k - 1)%nat.
Definition box_line (k : nat) : option (nat * nat) :=
  nth_error [(2, 1); (1, 3); (4, 3); (2, 4); (6, 5); (5, 7); (8, 7); (6, 8); (2, 6); (1, 5); (4, 8); (3, 7)]%nat (k - 1)%nat.
(** domain.geo:12-19: Line(l) = {1, 6}, Line(l+1) = {7, 6}, Physical Line(1) = {l, l+1, 1, 3, 4, 12} *)
Inductive geo_line := New (a b : nat) | Old (k : nat).
Definition physical_line : list geo_line := [New 1 6; New 7 6; Old 1; Old 3; Old 4; Old 12]%nat.
Definition geo_segment (A : Q) (g : geo_line) : option (point * point) :=
  match (match g with New a b => Some (a, b) | Old k => box_line k end) with
  | Some (a, b) => match box_point A a, box_point A b with Some p, Some q => Some (p, q) | _, _ => None end
  | None => None
  end.
(** domain.geo:26-28: Physical Surface(i) = {i} for i in 1..4; the faces of the box in OpenCASCADE's order *)
Definition on_face (A : Q) (i : nat) (p : point) : Prop :=
  (match i with 1%nat => x0 p == - A | 2%nat => x0 p == A | 3%nat => x1 p == - A | 4%nat => x1 p == A | 5%nat => x2 p == - A | 6%nat => x2 p == A | _ => False end)%Q
  /\ (- A <= x0 p <= A)%Q /\ (- A <= x1 p <= A)%Q /\ (- A <= x2 p <= A)%Q.
