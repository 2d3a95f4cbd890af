(** Model of the memo decorators in xii/assembler/*_matrix.py and of the data
    that the reduction operators put into a request.

    A function space is what the keys show of it (UFL element, mesh id) and the
    rest (dof numbering, mesh coordinates, ...), which they do not show.
    Objects that are hashed by identity (normals, shapes, measures, mesh
    functions) are numbers; mesh ids are never reused by dolfin. *)
From Verif Require Import Base.

Record space := Space { s_elem : nat; s_mesh : nat; s_rest : nat }.
Record request (D : Type) := Req { q_V : space; q_TV : space; q_mesh : nat; q_data : D }.
Arguments Req {D}. Arguments q_V {D}. Arguments q_TV {D}. Arguments q_mesh {D}. Arguments q_data {D}.

(** The items of a key (a Python tuple). *)
Inductive katom := KSpace (elem mesh : nat) | KMesh (id : nat) | KNum (z : Z) | KNone | KStr (n : nat) | KObj (n : nat) | KTuple (l : list nat).
Definition katom_eq_dec (x y : katom) : {x = y} + {x <> y}.
Proof. decide equality; try apply Nat.eq_dec; try apply Z.eq_dec. apply (list_eq_dec Nat.eq_dec). Defined.
Definition key_eqb (k l : list katom) : bool := if list_eq_dec katom_eq_dec k l then true else false.

(** The decorator, e.g. trace_matrix.py:18-30: the cache is a closure variable
    of the decorated function; an exception leaves it unchanged. *)
Section Memo.
Context {Rq Val : Type}.
Variable key : Rq -> list katom.
Variable compute : Rq -> res Val.
Fixpoint lookup (k : list katom) (cache : list (list katom * Val)) : option Val :=
  match cache with [] => None | (k', v) :: c => if key_eqb k k' then Some v else lookup k c end.
Definition cached (cache : list (list katom * Val)) (r : Rq) : list (list katom * Val) * res Val :=
  match lookup (key r) cache with
  | Some v => (cache, Ok v)
  | None => match compute r with Ok v => ((key r, v) :: cache, Ok v) | Err e => (cache, Err e) end
  end.
(** Answers to a sequence of requests. *)
Fixpoint serve (cache : list (list katom * Val)) (h : list Rq) : list (res Val) :=
  match h with [] => [] | r :: h' => let (c, a) := cached cache r in a :: serve c h' end.
End Memo.

Definition space_key (V : space) : katom := KSpace (s_elem V) (s_mesh V).
Definition onum (o : option nat) : katom := match o with Some n => KObj n | None => KNone end.

(** trace_matrix.py:18-30.  [tags] is a Python set; [order] is the iteration
    order chosen by tuple(set). *)
Record trace_data := TraceData { t_restriction : nat; t_normal : option nat; t_fun : option nat; t_tags : list nat }.
Definition trace_key (order : list nat -> list nat) (r : request trace_data) : list katom :=
  [space_key (q_V r); space_key (q_TV r); KStr (t_restriction (q_data r)); onum (t_normal (q_data r)); KTuple (order (t_tags (q_data r)))].

(** The operator Trace (trace_form.py:82-131) and reduction_matrix_data
    (trace_assembly.py:28-34); restriction 0 is the empty string.
    [marking mesh] is mesh.marking_function (its identity, its values). *)
Definition subset (a b : list nat) : bool := forallb (fun x => existsb (Nat.eqb x) b) a.
Definition trace_operator (marking : nat -> option (nat * list nat)) (mmesh restriction : nat) (normal : option nat) (tag : option (list nat)) : res trace_data :=
  if 4 <? restriction then Err AssertionError
  else
    do td <- match tag with
             | Some t => match marking mmesh with
                         | Some (f, vals) => if subset t vals then Ok (Some f, t) else Err AssertionError
                         | None => Err AssertionError
                         end
             | None => match marking mmesh with
                       | Some (f, vals) => Ok (Some f, nodup Nat.eq_dec vals)
                       | None => Ok (None, [0])
                       end
             end;
    Ok (TraceData restriction (if restriction =? 0 then None else normal) (fst td) (snd td)).

(** average_matrix.py:12-24, flux_average_matrix.py:12-24 *)
Definition average_key (r : request (option nat)) : list katom := [space_key (q_V r); space_key (q_TV r); onum (q_data r)].
(** restriction_matrix.py:10-21, surface_mean_matrix.py:13-24 *)
Definition restriction_key {D} (r : request D) : list katom := [space_key (q_V r); space_key (q_TV r)].
(** mean_matrix.py:14-26: weight and measure *)
Definition mean_key (r : request (option nat * option nat)) : list katom :=
  [space_key (q_V r); space_key (q_TV r); onum (fst (q_data r)); onum (snd (q_data r))].
(** transpose_trace_matrix.py:6-18 and injection_matrix.py:14-26 *)
Definition transpose_key {D} (r : request D) : list katom := [space_key (q_V r); space_key (q_TV r); KMesh (q_mesh r)].

(** point_trace_matrix.py:8-30: tuple(x) if that works, else (x, ) *)
Inductive pdata := PNum (z : Z) | PTuple (l : list Z) | PNothing.
Definition flat (d : pdata) : list katom := match d with PNum z => [KNum z] | PTuple l => map KNum l | PNothing => [KNone] end.
Record point_data := PointData { p_point : pdata; p_cell : pdata }.
Definition point_key (r : request point_data) : list katom :=
  [space_key (q_V r); space_key (q_TV r)] ++ flat (p_point (q_data r)) ++ flat (p_cell (q_data r)).
(** gradient_point_trace_matrix.py:11 uses the same decorator; its data also
    has a tangent *)
Record grad_data := GradData { g_at : point_data; g_tangent : list Z }.
Definition grad_key (r : request grad_data) : list katom := point_key (Req (q_V r) (q_TV r) (q_mesh r) (g_at (q_data r))).

(** gradient_point_trace_matrix.py:41-99 for the scalar DG1 element on a cell of
    unit length along the first axis: derivatives (-1, 1) of the two basis
    functions in that direction *)
Definition grad_values (tau : list Z) : list Z := match tau with t :: _ => [(- t)%Z; t] | [] => [0%Z; 0%Z] end.

(** injection_matrix.py:29-60: 'interpolate' (0), 'project' (1), anything else
    is the fallback with the parent map *)
Definition injection_matrix {Val} (transfer lookup : space -> space -> res Val) (r : request nat) : res Val :=
  if negb (q_mesh r =? s_mesh (q_TV r)) then Err AssertionError
  else match q_data r with
       | 0 => transfer (q_V r) (q_TV r)
       | 1 => Err ValueError
       | _ => lookup (q_V r) (q_TV r)
       end.
