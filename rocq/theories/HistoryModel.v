(** The monitor of convergence studies, demo/common.py:40-140

    Numbers are reals, None is nan.  [df.ln] of a number that is not positive raises ValueError
    (math.log), which the except clause of line 84 does not catch.  An exception leaves the lists
    as they are by then, so every step gives the lists and, apart from them, what was raised.
    A function uh is given by its error against the exact solution, the hmin of its mesh and the
    dimension of its space.  The strings of the reports are left out, their order is kept. *)
From Coq Require Export Reals.
From Verif Require Export Base.
Local Open Scope R_scope.

Record sample := Sample { s_error : R; s_h : R; s_dim : nat }.
(** 62-68 *)
Record approx := Approx { errors : list R; hs : list R; Vdims : list nat; rates : list (option R) }.
Definition approx0 : approx := Approx [] [] [] [].

(** Python's division and df.ln *)
Definition py_div (a b : R) : res R := if Req_EM_T b 0 then Err ZeroDivisionError else Ok (a / b).
Definition py_ln (a : R) : res R := if Rlt_dec 0 a then Ok (ln a) else Err ValueError.

(** line 83; the lists end with the latest value: [l[-1]], [l[-2]] *)
Definition rate_of (e1 e2 h1 h2 : R) : res R :=
  do a <- py_div e1 e2; do la <- py_ln a;
  do b <- py_div h1 h2; do lb <- py_ln b; py_div la lb.

Definition last2 {A} (l : list A) : option (A * A) :=
  match rev l with x :: y :: _ => Some (x, y) | _ => None end.

(** 70-88 *)
Definition append_approx (s : approx) (uh : sample) : approx * option exn :=
  let es := errors s ++ [s_error uh] in
  let hs' := hs s ++ [s_h uh] in
  let ds := Vdims s ++ [s_dim uh] in
  let outcome :=
    if (1 <? length es)%nat then
      match last2 es, last2 hs' with
      | Some (e1, e2), Some (h1, h2) =>
          match rate_of e1 e2 h1 h2 with
          | Ok r => Ok (Some r)
          | Err ZeroDivisionError => Ok None
          | Err x => Err x
          end
      | _, _ => Err IndexError
      end
    else Ok None in
  match outcome with
  | Ok r => (Approx es hs' ds (rates s ++ [r]), None)
  | Err x => (Approx es hs' ds (rates s), Some x)
  end.

(** 98-105: the last increment and the slope [polyfit] gives; nan twice without an increment *)
Definition get_rate (polyfit : list R -> list R -> R * R) (s : approx) : res (option R * option R) :=
  match rev (rates s) with
  | [] => Err IndexError
  | None :: _ => Ok (None, None)
  | Some incr :: _ => Ok (Some incr, Some (fst (polyfit (map ln (hs s)) (map ln (errors s)))))
  end.

(** What is tracked under a name: values (VarHistory, 40-55) or approximations *)
Inductive tracked := Values (l : list R) | Approximations (a : approx).
(** What is added: a number or a function *)
Inductive item := Number (r : R) | Func (uh : sample).
(** Appending a function to values works in Python (a list takes anything) and fails in reports
    only; appending a number to approximations has no function_space: AttributeError.  Here the
    first is left out by TypeError *)
Definition append_item (t : tracked) (x : item) : tracked * option exn :=
  match t, x with
  | Values l, Number r => (Values (l ++ [r]), None)
  | Approximations a, Func uh => let '(a', o) := append_approx a uh in (Approximations a', o)
  | Values l, Func _ => (t, Some TypeError)
  | Approximations _, Number _ => (t, Some AttributeError)
  end.

(** 110-122: names are nat; [variables] says of each name whether it has an exact solution.  Keys
    of the ChainMap(avar, var): it iterates over its maps from the last to the first, that is the
    values come first *)
Definition keys (variables : list (nat * bool)) : list nat :=
  map fst (filter (fun v : nat * bool => negb (snd v)) variables) ++ map fst (filter (fun v : nat * bool => snd v) variables).
Definition log0 (variables : list (nat * bool)) : list (nat * tracked) :=
  map (fun v : nat * bool => (fst v, if snd v then Approximations approx0 else Values [])) variables.

Fixpoint get {A} (k : nat) (d : list (nat * A)) : option A :=
  match d with [] => None | (k', a) :: d' => if Nat.eqb k k' then Some a else get k d' end.
Fixpoint put {A} (k : nat) (a : A) (d : list (nat * A)) : list (nat * A) :=
  match d with [] => [] | (k', b) :: d' => if Nat.eqb k k' then (k', a) :: d' else (k', b) :: put k a d' end.

(** 131-132 *)
Fixpoint add_keys (ks : list nat) (new : list (nat * item)) (log : list (nat * tracked))
  : list (nat * tracked) * option exn :=
  match ks with
  | [] => (log, None)
  | k :: ks' =>
      match get k log, get k new with
      | Some t, Some x =>
          let '(t', o) := append_item t x in
          match o with
          | None => add_keys ks' new (put k t' log)
          | Some e => (put k t' log, Some e)
          end
      | _, _ => (log, Some KeyError)
      end
  end.
(** 127-132 for a dictionary *)
Definition add_dict (variables : list (nat * bool)) (new : list (nat * item)) (log : list (nat * tracked)) :=
  add_keys (keys variables) new log.
(** 128-129: otherwise by position; zip stops with the shorter.  (dict keeps the last of equal
    keys; the names here are the keys of a dictionary, so there are none) *)
Definition add_values (variables : list (nat * bool)) (new : list item) (log : list (nat * tracked)) :=
  add_dict variables (combine (map fst variables) new) log.

(** 134-140: one column per key in the header and in every report, 91-96: of an approximation the
    mesh size, the error, the rate and the dimension *)
Inductive column := CValue | CMeshSize | CError | CRate | CDim.
Definition columns_of (t : tracked) : list column :=
  match t with Values _ => [CValue] | Approximations _ => [CMeshSize; CError; CRate; CDim] end.
Definition header (variables : list (nat * bool)) (log : list (nat * tracked)) : res (list (nat * column)) :=
  do cs <- mapM (fun k => do t <- opt_res KeyError (get k log); Ok (map (pair k) (columns_of t))) (keys variables);
  Ok (concat cs).
Inductive entry := EReal (r : R) | ERate (r : option R) | EDim (d : nat).
(** [l[-1]] *)
Definition py_last {A} (l : list A) : res A := match rev l with x :: _ => Ok x | [] => Err IndexError end.
(** 47-52, 90-92 *)
Definition last_of (t : tracked) : res (list entry) :=
  match t with
  | Values l => do x <- py_last l; Ok [EReal x]
  | Approximations a =>
      do h <- py_last (hs a); do e <- py_last (errors a); do r <- py_last (rates a); do d <- py_last (Vdims a);
      Ok [EReal h; EReal e; ERate r; EDim d]
  end.
Definition report_last (variables : list (nat * bool)) (log : list (nat * tracked)) : res (list entry) :=
  do cs <- mapM (fun k => do t <- opt_res KeyError (get k log); last_of t) (keys variables);
  Ok (concat cs).
