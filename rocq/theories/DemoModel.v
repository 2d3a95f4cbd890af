(** The demos as tests: their verdicts, exit codes, and demo/test_demos.py

    A demo solves on one mesh after another and keeps errors and mesh sizes in a ConvergenceLog
    (HistoryModel.v); numbers are reals, nan is None.  Text is a string of ASCII characters. *)
From Coq Require Import Reals String.
From Verif Require Export Base HistoryModel.
Local Open Scope R_scope.

(** ** The verdict at the end of a demo *)
(** What is asked of the rate of one variable: the increment of the last two meshes and possibly the fitted
    rate are above a number (poisson_babuska.py:126, poisson_babuska_bc.py:163-166, poisson_babuska_3d.py:106,
    sym_grad_babuska.py:174, curl_curl_babuska.py:127-128, ...), or the increment is near a number
    (emi_primal.py:178, layton_darcy_stokes.py:149, twoDoneDoneD.py:185) *)
Inductive want := Above (t : R) | BothAbove (t : R) | Near (e delta : R).
Definition r_above (r : option R) (t : R) : bool := match r with Some r => if Rlt_dec t r then true else false | None => false end.
Definition r_near (r : option R) (e delta : R) : bool :=
  match r with Some r => if Rlt_dec (Rabs (r - e)) delta then true else false | None => false end.
Definition meets (w : want) (rate : option R * option R) : bool :=
  match w with
  | Above t => r_above (fst rate) t
  | BothAbove t => r_above (fst rate) t && r_above (snd rate) t
  | Near e delta => r_near (fst rate) e delta
  end.

(** The history of one variable: clog.add for one solution after another *)
Fixpoint history (s : approx) (us : list sample) : res approx :=
  match us with
  | [] => Ok s
  | u :: us' => match append_approx s u with (s', None) => history s' us' | (_, Some e) => Err e end
  end.
(** poisson_babuska.py:116-126 and the like: all rates are asked for, then compared *)
Definition verdict (polyfit : list R -> list R -> R * R) (variables : list (want * list sample)) : res bool :=
  do rates <- mapM (fun v : want * list sample => do s <- history approx0 (snd v); get_rate polyfit s) variables;
  Ok (forallb (fun p => meets (fst p) (snd p)) (combine (map fst variables) rates)).
(** poisson_babuska_bc_iter.py:141, layton_darcy_stokes_iter.py:141 and the like: counts of iterations *)
Definition verdict_iter (polyfit : list R -> list R -> R * R) (variables : list (want * list sample)) (cap : nat) (counts : list nat) : res bool :=
  do passed <- verdict polyfit variables; Ok (passed && forallb (fun count => (count <? cap)%nat) counts).

(** bertoluzza_stokes.py:211-241 (and free_slip_stokes_iter.py, free_slip_stokes_iter_cylinder.py): a run is None
    if get_geometry gives no mesh (the module gmshnics is missing), otherwise the samples of u, p and lm.
    [facet_f] after the loop is that of the last run *)
Definition bertoluzza (polyfit : list R -> list R -> R * R) (is_flat : bool) (runs : list (option (sample * sample * sample))) : res bool :=
  let solved := flat_map (fun r => match r with Some x => [x] | None => [] end) runs in
  let missing := match rev runs with None :: _ => true | _ => false end in
  let rate (f : sample * sample * sample -> sample) := do s <- history approx0 (map f solved); get_rate polyfit s in
  do u <- rate (fun x => fst (fst x));
  do p <- rate (fun x => snd (fst x));
  do lm <- rate (fun x => snd x);
  let rates := [fst u; fst p; fst lm] in
  if is_flat then Ok (forallb (fun r => r_above r (195 / 100)) rates)
  else Ok (missing || forallb (fun r => r_above r (18 / 10)) rates).

(** ** Processes *)
(** How a demo ends: sys.exit(int(passed)) in its last line, an exception that is not caught, whose traceback
    is written and the code is 1, or a signal, for which Popen.returncode is negative *)
Inductive ending := SysExit (passed : bool) | Raised (traceback : string) | Signal (n : nat).
Definition returncode (e : ending) : Z :=
  match e with SysExit passed => if passed then 1 else 0 | Raised _ => 1 | Signal n => - Z.of_nat n end.
(** stderr goes to stdout (test_demos.py:8) *)
Definition output (printed : string) (e : ending) : string :=
  (printed ++ match e with Raised traceback => traceback | _ => "" end)%string.

(** 'pat in s' *)
Fixpoint occurs (pat s : string) : bool :=
  prefix pat s || match s with EmptyString => false | String _ s' => occurs pat s' end.
(** test_demos.py:5-14; 0 is False *)
Definition run (printed : string) (e : ending) : bool :=
  if occurs "Error" (output printed e) then false else (returncode e =? 1)%Z.

(** Names of exceptions in a traceback *)
Definition exn_name (e : exn) : string :=
  match e with
  | AssertionError => "AssertionError" | TypeError => "TypeError" | ValueError => "ValueError" | IndexError => "IndexError"
  | KeyError => "KeyError" | NameError => "NameError" | AttributeError => "AttributeError" | UnboundLocalError => "UnboundLocalError"
  | StopIteration => "StopIteration" | ZeroDivisionError => "ZeroDivisionError" | NotImplementedError => "NotImplementedError"
  | LinAlgError => "numpy.linalg.LinAlgError" | RuntimeError => "RuntimeError" | PetscError => "petsc4py.PETSc.Error"
  | OutOfFuel => "RecursionError"
  end%string.
(** What a process of a verdict ends with; [where_raised] are the lines of the traceback above the last *)
Definition ending_of (where_raised : string) (v : res bool) : ending :=
  match v with Ok passed => SysExit passed | Err e => Raised (where_raised ++ exn_name e) end.

(** test_demos.py:92-93: what --selected leaves of the list of demos *)
Definition selected (names : list string) (demos : list (string * list string)) : list (string * list string) :=
  match names with [] => demos | _ => filter (fun d => existsb (String.eqb (fst d)) names) demos end.
