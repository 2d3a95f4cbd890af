(** Manufactured solutions of demos on the unit square: setup_mms and the forms of setup_problem of
    demo/poisson_babuska.py:12-82, demo/poisson_babuska_bc.py:14-109, demo/grad_div_babuska.py:12-79,
    demo/curl_curl_babuska.py:12-80, demo/sym_grad_babuska.py:14-124 and
    demo/mixed_poisson_babuska.py:15-100.

    UFL expressions of the coordinates are trees (CalcModel.v), their derivatives are those trees
    have; ulfy.Expression is the function of the tree, without interpolation to a degree.  A form is
    its integrand, as a function of the values and first derivatives ("jets") of trial and test
    functions at a point, apart for each measure: one for dx and one for each tag of ds and dx_.
    Meshes, elements and assembly are not modelled here.  Trace is the value, OuterNormal(bmesh,
    [0.5, 0.5]) and FacetNormal are the outer normal of the side.  The model of a row of the system
    is what the left hand side minus the right hand side integrates. *)
From Verif Require Export Base.
From Verif Require Export CalcModel.
From Coq Require Export Reals QArith.
From Coq Require Import Qreals.
Local Close Scope Q_scope.
Local Open Scope nat_scope.

(** SpatialCoordinate, pi; further symbols are parameters *)
Definition X : expr := Sym 0.
Definition Y : expr := Sym 1.
Definition Pi : expr := Sym 2.
Definition Neg (a : expr) : expr := Times (Num (-1)) a.
Definition Minus (a b : expr) : expr := Plus a (Neg b).
Definition Half (a : expr) : expr := Times (Num (1 # 2)) a.

(** Vectors and 2 x 2 tensors, by rows; UFL's grad, div, curl, sym and dot *)
Notation vec2 := (expr * expr)%type.
Notation ten2 := ((expr * expr) * (expr * expr))%type.
Definition grad (a : expr) : vec2 := (diff a 0, diff a 1).
Definition grad_v (u : vec2) : ten2 := (grad (fst u), grad (snd u)).
Definition div (u : vec2) : expr := Plus (diff (fst u) 0) (diff (snd u) 1).
Definition div_t (s : ten2) : vec2 := (div (fst s), div (snd s)).
Definition curl_v (u : vec2) : expr := Minus (diff (snd u) 0) (diff (fst u) 1).
Definition curl_s (a : expr) : vec2 := (diff a 1, Neg (diff a 0)).
Definition sym (s : ten2) : ten2 :=
  ((Half (Plus (fst (fst s)) (fst (fst s))), Half (Plus (snd (fst s)) (fst (snd s)))),
   (Half (Plus (fst (snd s)) (snd (fst s))), Half (Plus (snd (snd s)) (snd (snd s))))).
Definition neg_v (u : vec2) : vec2 := (Neg (fst u), Neg (snd u)).
Definition add_v (u v : vec2) : vec2 := (Plus (fst u) (fst v), Plus (snd u) (snd v)).
Definition dot_e (u v : vec2) : expr := Plus (Times (fst u) (fst v)) (Times (snd u) (snd v)).
Definition dot_t (s : ten2) (n : vec2) : vec2 := (dot_e (fst s) n, dot_e (snd s) n).
(** Constant(((0, 1), (-1, 0))) *)
Definition Rot : ten2 := ((Num 0, Num 1), (Num (-1), Num 0)).
(** Constants for the normals of the sides 1, 2, 3, 4 (poisson_babuska_bc.py:93, sym_grad_babuska.py:36) *)
Definition normals : list vec2 := [(Num (-1), Num 0); (Num 1, Num 0); (Num 0, Num (-1)); (Num 0, Num 1)].

(** Values and derivatives at a point *)
Record jet := Jet { va : R; da : R; db : R }.
Notation field := (R -> R -> jet).
(** Symbols: the point, pi and the parameters *)
Definition env (par : list R) (x y : R) (s : nat) : R :=
  match s with 0 => x | 1 => y | 2 => PI | S (S (S k)) => nth k par 0%R end.
Fixpoint value (x : nat -> R) (e : expr) : R :=
  match e with
  | Num q => Q2R q
  | Sym s => x s
  | Plus a b => value x a + value x b
  | Times a b => value x a * value x b
  | Power a n => value x a ^ n
  | Sin a => sin (value x a)
  | Cos a => cos (value x a)
  | Exp a => exp (value x a)
  end%R.
Definition at_ (par : list R) (e : expr) (x y : R) : R := value (env par x y) e.
Definition at_v (par : list R) (u : vec2) (x y : R) : R * R := (at_ par (fst u) x y, at_ par (snd u) x y).
Definition jet_of (par : list R) (e : expr) : field := fun x y => Jet (at_ par e x y) (at_ par (diff e 0) x y) (at_ par (diff e 1) x y).
Definition jet_v (par : list R) (u : vec2) : R -> R -> jet * jet := fun x y => (jet_of par (fst u) x y, jet_of par (snd u) x y).

(** UFL on jets *)
Local Open Scope R_scope.
Definition dot (a b : R * R) : R := fst a * fst b + snd a * snd b.
Definition jgrad (u : jet) : R * R := (da u, db u).
Definition jval (u : jet * jet) : R * R := (va (fst u), va (snd u)).
Definition jdiv (u : jet * jet) : R := da (fst u) + db (snd u).
Definition jcurl (u : jet * jet) : R := da (snd u) - db (fst u).
(** inner(sym(grad(u)), sym(grad(v))) *)
Definition jsym (u : jet * jet) : (R * R) * (R * R) :=
  ((da (fst u), (db (fst u) + da (snd u)) / 2), ((da (snd u) + db (fst u)) / 2, db (snd u))).
Definition inner2 (s t : (R * R) * (R * R)) : R := dot (fst s) (fst t) + dot (snd s) (snd t).
(** dot(Constant(((0, 1), (-1, 0))), n) *)
Definition rot (n : R * R) : R * R := (0 * fst n + 1 * snd n, -1 * fst n + 0 * snd n).
(** OuterNormal(bmesh, [0.5, 0.5]), FacetNormal(mesh) on a side *)
Definition n_ (tag : nat) : R * R := match tag with 1 => (-1, 0) | 2 => (1, 0) | 3 => (0, -1) | _ => (0, 1) end.
Local Open Scope nat_scope.
Definition among (tags : list nat) (tag : nat) : bool := existsb (Nat.eqb tag) tags.
Definition lookup {A} (l : list A) (tag : nat) : res A := match nth_error l (pred tag) with Some a => if tag =? 0 then Err KeyError else Ok a | None => Err KeyError end.
(** dict(enumerate(l, 1))[tag], for tags the dictionary has *)
Definition pick (l : list expr) (tag : nat) : expr := match lookup l tag with Ok a => a | Err _ => Num 0 end.
Definition pick_v (l : list vec2) (tag : nat) : vec2 := match lookup l tag with Ok a => a | Err _ => (Num 0, Num 0) end.

(** * poisson_babuska.py *)
(** 70-75 *)
Definition PB_u : expr := Cos (Times (Times (Times (Times Pi X) (Minus (Num 1) X)) Y) (Minus (Num 1) Y)).
Definition PB_p : expr := Num 0.
Definition PB_f : expr := Plus (Neg (div (grad PB_u))) PB_u.
Definition PB_g : expr := PB_u.
Local Open Scope R_scope.
(** 53-61 *)
Definition PB_a00 (u v : jet) : R := dot (jgrad u) (jgrad v) + va u * va v.
Definition PB_a01 (v p : jet) : R := va v * va p.
Definition PB_a10 (u q : jet) : R := va u * va q.
Definition PB_L0 (f : R) (v : jet) : R := f * va v.
Definition PB_L1 (g : R) (q : jet) : R := g * va q.
Definition PB_row0_dx (u v : jet) (f : R) : R := PB_a00 u v - PB_L0 f v.
Definition PB_row0_side (v p : jet) : R := PB_a01 v p.
Definition PB_row1_side (u q : jet) (g : R) : R := PB_a10 u q - PB_L1 g q.
Local Close Scope R_scope.

(** * poisson_babuska_bc.py *)
(** 88-99 *)
Definition PBC_u : expr := Sin (Times Pi (Plus X Y)).
Definition PBC_lms : list expr := map (fun n => Neg (dot_e (grad PBC_u) n)) normals.
Definition PBC_f : expr := Neg (div (grad PBC_u)).
Definition PBC_g_u : list expr := repeat PBC_u 4.
Definition PBC_g_sigma : list expr := map (fun n => dot_e (grad PBC_u) n) normals.
(** 20-27 *)
Inductive PBC_setup := PBC_dir_neu | PBC_dir | PBC_neu.
Definition PBC_lm_tags (s : PBC_setup) : list nat := match s with PBC_dir_neu => [2; 4] | PBC_dir => [2; 4] | PBC_neu => [2; 4] end.
Definition PBC_dir_tags (s : PBC_setup) : list nat := match s with PBC_dir_neu => [1] | PBC_dir => [1; 3] | PBC_neu => [] end.
Definition PBC_neu_tags (s : PBC_setup) : list nat := match s with PBC_dir_neu => [3] | PBC_dir => [] | PBC_neu => [1; 3] end.
Local Open Scope R_scope.
(** 46-57 *)
Definition PBC_row0_dx (u v : jet) (f : R) : R := dot (jgrad u) (jgrad v) - f * va v.
Definition PBC_row0_side (s : PBC_setup) (tag : nat) (v p : jet) (neumann : R) : R :=
  (if among (PBC_lm_tags s) tag then va v * va p else 0) - (if among (PBC_neu_tags s) tag then neumann * va v else 0).
Definition PBC_row1_side (s : PBC_setup) (tag : nat) (u q : jet) (dirichlet : R) : R :=
  if among (PBC_lm_tags s) tag then va u * va q - dirichlet * va q else 0.
(** 60: values on the tags of dir_tags *)
Definition PBC_V_bcs (s : PBC_setup) : list (nat * expr) := map (fun tag => (tag, pick PBC_g_u tag)) (PBC_dir_tags s).
(** 66-71: points of the multiplier's mesh, the sides 2 and 4, with a condition, and the value there; its boundary are the ends (1, 0) and (0, 1) *)
Definition PBC_Q_bcs (s : PBC_setup) : list ((R * R) * R) := match s with PBC_dir_neu => [((0, 1), 0)] | PBC_dir => [((1, 0), 0); ((0, 1), 0)] | PBC_neu => [] end.
Local Close Scope R_scope.

(** * grad_div_babuska.py *)
(** 24-33 *)
Definition GD_u : vec2 := (Sin (Times Pi (Plus X Y)), Cos (Times Pi (Minus X Y))).
Definition GD_p : expr := Neg (div GD_u).
Definition GD_f : vec2 := add_v (neg_v (grad (div GD_u))) GD_u.
Definition GD_g_u : list vec2 := repeat GD_u 4.
Local Open Scope R_scope.
(** 69-77 *)
Definition GD_row0_dx (u v : jet * jet) (f : R * R) : R := dot (jval u) (jval v) + jdiv u * jdiv v - dot f (jval v).
Definition GD_row0_side (tag : nat) (v : jet * jet) (p : jet) : R := va p * dot (jval v) (n_ tag).
Definition GD_row1_side (tag : nat) (u : jet * jet) (q : jet) (g : R * R) : R := va q * dot (jval u) (n_ tag) - dot g (n_ tag) * va q.
Local Close Scope R_scope.

(** * curl_curl_babuska.py *)
(** 24-33 *)
Definition CC_u : vec2 := (Sin (Times Pi (Plus X Y)), Cos (Times Pi (Minus X Y))).
Definition CC_p : expr := curl_v CC_u.
Definition CC_f : vec2 := add_v (curl_s (curl_v CC_u)) CC_u.
Definition CC_g_u : list vec2 := repeat CC_u 4.
Local Open Scope R_scope.
(** 66 *)
Definition CC_t_ (tag : nat) : R * R := rot (n_ tag).
(** 70-78 *)
Definition CC_row0_dx (u v : jet * jet) (f : R * R) : R := dot (jval u) (jval v) + jcurl u * jcurl v - dot f (jval v).
Definition CC_row0_side (tag : nat) (v : jet * jet) (p : jet) : R := va p * dot (jval v) (CC_t_ tag).
Definition CC_row1_side (tag : nat) (u : jet * jet) (q : jet) (g : R * R) : R := va q * dot (jval u) (CC_t_ tag) - dot g (CC_t_ tag) * va q.
Local Close Scope R_scope.

(** * sym_grad_babuska.py *)
(** 26-41 *)
Definition SG_u : vec2 := (Sin (Times Pi (Minus X (Times (Num 2) Y))), Cos (Times (Times (Num 2) Pi) (Plus X Y))).
Definition SG_sigma : ten2 := sym (grad_v SG_u).
Definition SG_f : vec2 := add_v (neg_v (div_t SG_sigma)) SG_u.
Definition SG_lm : list vec2 := map (fun n => neg_v (dot_t SG_sigma n)) normals.
Definition SG_lm_n : list expr := map (fun ln => dot_e (fst ln) (snd ln)) (combine SG_lm normals).
Definition SG_lm_t : list expr := map (fun ln => dot_e (fst ln) (dot_t Rot (snd ln))) (combine SG_lm normals).
(** 59-61 *)
Definition SG_dirichlet : list vec2 := repeat SG_u 4.
Definition SG_neumann : list vec2 := map (fun n => dot_t SG_sigma n) normals.
Local Open Scope R_scope.
(** 69-77 *)
Definition SG_t_ (tag : nat) : R * R := rot (n_ tag).
(** 98-99 *)
Definition SG_row0_dx (u v : jet * jet) (f : R * R) : R := inner2 (jsym u) (jsym v) + dot (jval u) (jval v) - dot f (jval v).
(** 104-122; the multiplier is a vector for full and has one component otherwise *)
Definition SG_row0_full (v : jet * jet) (p : R * R) : R := dot (jval v) p.
Definition SG_row1_full (u : jet * jet) (q g_u : R * R) : R := dot (jval u) q - dot g_u q.
Definition SG_row0_normal (tag : nat) (v : jet * jet) (p : R) (g_sigma : R * R) : R := dot (jval v) (n_ tag) * p - dot g_sigma (SG_t_ tag) * dot (jval v) (SG_t_ tag).
Definition SG_row1_normal (tag : nat) (u : jet * jet) (q : R) (g_u : R * R) : R := dot (jval u) (n_ tag) * q - dot g_u (n_ tag) * q.
Definition SG_row0_tangent (tag : nat) (v : jet * jet) (p : R) (g_sigma : R * R) : R := dot (jval v) (SG_t_ tag) * p - dot g_sigma (n_ tag) * dot (jval v) (n_ tag).
Definition SG_row1_tangent (tag : nat) (u : jet * jet) (q : R) (g_u : R * R) : R := dot (jval u) (SG_t_ tag) * q - dot g_u (SG_t_ tag) * q.
Local Close Scope R_scope.

(** * mixed_poisson_babuska.py *)
(** 27-36 *)
Definition MP_u : expr := Sin (Times Pi (Plus X Y)).
Definition MP_sigma : vec2 := neg_v (grad MP_u).
Definition MP_p : expr := MP_u.
Definition MP_f : expr := div MP_sigma.
Definition MP_g_u : list expr := repeat MP_u 4.
Definition MP_g_sigma : list vec2 := repeat MP_sigma 4.
(** 53 *)
Definition MP_lm_tags : list nat := [2; 4].
Definition MP_pressure_tags : list nat := [1].
Definition MP_flux_tags : list nat := [3].
Local Open Scope R_scope.
(** 78-91 *)
Definition MP_row0_dx (sigma tau : jet * jet) (u : jet) : R := dot (jval sigma) (jval tau) + - (va u * jdiv tau).
Definition MP_row0_side (tag : nat) (tau : jet * jet) (p : jet) (pressure : R) : R :=
  (if among MP_lm_tags tag then va p * dot (jval tau) (n_ tag) else 0) - - (if among MP_pressure_tags tag then pressure * dot (jval tau) (n_ tag) else 0).
Definition MP_row1_dx (v : jet) (sigma : jet * jet) (f : R) : R := - (va v * jdiv sigma) - - (f * va v).
Definition MP_row2_side (tag : nat) (q : jet) (sigma : jet * jet) (flux : R * R) : R :=
  if among MP_lm_tags tag then va q * dot (jval sigma) (n_ tag) - dot flux (n_ tag) * va q else 0.
(** 94 *)
Definition MP_S_bcs : list (nat * vec2) := map (fun tag => (tag, pick_v MP_g_sigma tag)) MP_flux_tags.
Local Close Scope R_scope.
