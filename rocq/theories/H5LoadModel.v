(** load_mesh of xii/meshing/tikz.py:158-177

    An HDF5 file is a list of named data sets: a mesh, or the values of a mesh function, each with the vertices of
    its entity, of a topological dimension.  Meaning of dolfin that is trusted here: has_dataset says whether the
    name is there; reading a mesh function compares the dimension, then finds the value of each entity of the mesh by
    the set of its vertices, and an entity that is not in the file keeps the value of the function; an entity that is
    in the file more than once has its last value; reading what is not there, or not of this kind, raises.
    Simplification: the numbers of vertices in the mesh that was read are those in the file. *)
From Coq Require Import String.
From Verif Require Export Base.
Local Open Scope nat_scope.

(** A mesh: for each dimension the entities as lists of vertices *)
Definition h5mesh := nat -> list (list nat).
Inductive dataset := DMesh (m : h5mesh) | DFun (dim : nat) (vals : list (list nat * nat)).
Definition h5file := list (string * dataset).
Record meshfun := MeshFun { mf_dim : nat; mf_vals : list nat }.

Fixpoint h5_get (f : h5file) (name : string) : option dataset :=
  match f with [] => None | (n, d) :: f' => if String.eqb n name then Some d else h5_get f' name end.
(** h5.has_dataset *)
Definition has_dataset (f : h5file) (name : string) : bool := match h5_get f name with Some _ => true | None => false end.
(** h5.read(mesh, name, False) *)
Definition read_mesh (f : h5file) (name : string) : res h5mesh := match h5_get f name with Some (DMesh m) => Ok m | _ => Err RuntimeError end.
Definition subset (a b : list nat) : bool := forallb (fun x => existsb (Nat.eqb x) b) a.
Definition same_entity (a b : list nat) : bool := subset a b && subset b a.
(** The value of an entity in the file, v if it is not there *)
Definition lookup (vals : list (list nat * nat)) (e : list nat) (v : nat) : nat :=
  fold_left (fun acc kv => if same_entity (fst kv) e then snd kv else acc) vals v.
(** MeshFunction('size_t', mesh, dim, 0) *)
Definition new_function (m : h5mesh) (dim : nat) : meshfun := MeshFun dim (repeat 0 (length (m dim))).
(** h5.read(f, name) *)
Definition read_function (file : h5file) (m : h5mesh) (f : meshfun) (name : string) : res meshfun :=
  match h5_get file name with
  | Some (DFun d vals) =>
    if d =? mf_dim f then Ok (MeshFun (mf_dim f) (map (fun ev => lookup vals (fst ev) (snd ev)) (combine (m (mf_dim f)) (mf_vals f))))
    else Err RuntimeError
  | _ => Err RuntimeError
  end.
(** 168-175 *)
Definition load_one (file : h5file) (m : h5mesh) (ds : nat * string) : res (option meshfun) :=
  if has_dataset file (snd ds) then
    do f <- read_function file m (new_function m (fst ds)) (snd ds);
    Ok (Some f)
  else Ok None.
(** 158-177 *)
Definition load_mesh (file : h5file) (data_sets : list (nat * string)) : res (h5mesh * list (option meshfun)) :=
  do m <- read_mesh file "mesh"%string;
  do fs <- mapM (load_one file m) data_sets;
  Ok (m, fs).
