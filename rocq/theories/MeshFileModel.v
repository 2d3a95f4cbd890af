(** The mesh files of apps/d123/meshing.py and apps/enumath/meshing.py: [convert], [h5_file_name], [generate] and the
    reading part of [load].  The two files differ only in the parameters of [generate].
    The working directory is a list of named files; gmsh, dolfin-convert and the child python process are programs that
    may stop early, and what they have written until then stays.  An exception leaves the directory as it is.
    Simplifications: file names have no '/'; a file that a program is in the middle of writing is either as before or
    complete (the h5 file is written data set by data set); a region is read for any mesh. *)
From Coq Require Import List ZArith QArith String Ascii DecimalString Bool.
From Verif Require Import Base.
Local Open Scope string_scope.
Local Open Scope nat_scope.
Local Open Scope string_scope.

(** * The printed form '%g' *)
(** CPython's '%g' % x: 6 significant digits, rounded half to even, without trailing zeros; the number is a rational. *)
Definition round_even (a b : Z) : Z :=
  let q := (a / b)%Z in
  let r := (a mod b)%Z in
  if (2 * r <? b)%Z then q else if (b <? 2 * r)%Z then (q + 1)%Z else if Z.even q then q else (q + 1)%Z.
Definition digit (z : Z) : ascii := ascii_of_nat (48 + Z.to_nat (z mod 10)).
(** the 6 digits of a number below 10^6 *)
Definition six (m : Z) : list ascii := map (fun k => digit (m / 10 ^ k)%Z) [5; 4; 3; 2; 1; 0]%Z.
Fixpoint strip0 (l : list ascii) : list ascii :=
  match l with
  | [] => []
  | c :: l' => match strip0 l' with [] => if Ascii.eqb c "0" then [] else [c] | s => c :: s end
  end.
Definition pos_str (p : positive) : string := NilEmpty.string_of_uint (Pos.to_uint p).
(** number of decimal digits *)
Fixpoint ndig (fuel : nat) (z : Z) : Z :=
  match fuel with O => 1%Z | S f => if (z <? 10)%Z then 1%Z else (1 + ndig f (z / 10))%Z end.
Definition len10 (p : positive) : Z := ndig (Pos.size_nat p) (Zpos p).
Definition with_point (a b : list ascii) : string :=
  string_of_list_ascii a ++ match strip0 b with [] => "" | s => "." ++ string_of_list_ascii s end.
Definition exp_str (e : Z) : string :=
  (if (e <? 0)%Z then "-" else "+") ++
  match Z.abs e with
  | Zpos p => (if (Z.abs e <? 10)%Z then "0" else "") ++ pos_str p
  | _ => "00"
  end.
(** the first 6 digits m and the exponent e: n / d is about m 10^(e - 5) *)
Definition six_digits (n d : positive) : Z * Z :=
  let e0 := (len10 n - len10 d)%Z in
  let up := if (0 <=? e0)%Z then (Zpos d * 10 ^ e0 <=? Zpos n)%Z else (Zpos d <=? Zpos n * 10 ^ (- e0))%Z in
  let e := if up then e0 else (e0 - 1)%Z in
  let k := (5 - e)%Z in
  let m := if (0 <=? k)%Z then round_even (Zpos n * 10 ^ k) (Zpos d) else round_even (Zpos n) (Zpos d * 10 ^ (- k)) in
  if (m =? 10 ^ 6)%Z then ((10 ^ 5)%Z, (e + 1)%Z) else (m, e).
Definition fmt_pos (n d : positive) : string :=
  let '(m, e) := six_digits n d in
  let ds := six m in
  if ((-4 <=? e) && (e <? 6))%Z%bool then
    if (0 <=? e)%Z then with_point (firstn (Z.to_nat e + 1) ds) (skipn (Z.to_nat e + 1) ds)
    else with_point ["0"%char] (repeat "0"%char (Z.to_nat (- e - 1)) ++ ds)%list
  else with_point (firstn 1 ds) (skipn 1 ds) ++ "e" ++ exp_str e.
Definition fmt_g (x : Q) : string :=
  match Qnum x with
  | Z0 => "0"
  | Zpos n => fmt_pos n (Qden x)
  | Zneg n => "-" ++ fmt_pos n (Qden x)
  end.

(** * The directory *)
(** What gmsh computes: from which text of domain.geo (its number) and by which command. *)
Definition mesh : Type := (nat * string)%type.
Inductive content :=
| Geo (g : nat)
| Msh (m : mesh)
| XmlMesh (m : mesh)
| XmlRegion (name : string) (m : mesh)
| H5 (sets : list (string * (string * mesh)))
| Other.
Definition fs : Type := list (string * content).
Fixpoint fs_get (d : fs) (f : string) : option content :=
  match d with [] => None | (k, c) :: d' => if String.eqb k f then Some c else fs_get d' f end.
Definition fs_rm (d : fs) (f : string) : fs := filter (fun kc => negb (String.eqb (fst kc) f)) d.
Definition fs_set (d : fs) (f : string) (c : content) : fs := (f, c) :: fs_rm d f.
(** os.path.exists *)
Definition exists_ (d : fs) (f : string) : bool := match fs_get d f with Some _ => true | None => false end.

(** Programs that change the directory and may raise. *)
Definition prog (A : Type) : Type := fs -> fs * res A.
Definition ret {A} (a : A) : prog A := fun d => (d, Ok a).
Definition pbind {A B} (x : prog A) (f : A -> prog B) : prog B :=
  fun d => let '(d', r) := x d in match r with Ok a => f a d' | Err e => (d', Err e) end.
Notation "'run' x <- e1 ; e2" := (pbind e1 (fun x => e2))
  (at level 200, x binder, e1 at level 100, e2 at level 200, right associativity).
Definition p_assert (b : fs -> bool) : prog unit := fun d => (d, py_assert (b d)).
(** os.remove: FileNotFoundError for a name that is not there (a kind of OSError, here RuntimeError) *)
Definition os_remove (f : string) : prog unit :=
  fun d => if exists_ d f then (fs_rm d f, Ok tt) else (d, Err RuntimeError).
Fixpoint each {A} (f : A -> prog unit) (l : list A) : prog unit :=
  match l with [] => ret tt | x :: l' => run _ <- f x; each f l' end.
Definition starts_with (p s : string) : bool := String.prefix p s.
Definition ends_with (p s : string) : bool :=
  (String.length p <=? String.length s)%nat && String.eqb (substring (String.length s - String.length p) (String.length p) s) p.

(** os.path.splitext for a name without '/': at the last '.', unless only dots are before it *)
Fixpoint last_dot (s : string) (i : nat) : option nat :=
  match s with
  | EmptyString => None
  | String c s' => match last_dot s' (i + 1) with Some k => Some k | None => if Ascii.eqb c "." then Some i else None end
  end.
Fixpoint only_dots (s : string) : bool :=
  match s with EmptyString => true | String c s' => Ascii.eqb c "." && only_dots s' end.
Definition splitext (s : string) : string * string :=
  match last_dot s 0 with
  | None => (s, "")
  | Some k => if only_dots (substring 0 k s) then (s, "") else (substring 0 k s, substring k (String.length s - k) s)
  end.
(** s.split('_') *)
Fixpoint split_us (s : string) : list string :=
  match s with
  | EmptyString => [""]
  | String c s' =>
    if Ascii.eqb c "_" then "" :: split_us s'
    else match split_us s' with w :: ws => String c w :: ws | [] => [String c ""] end
  end.

(** * The other programs *)
(** How far they come in one call of [generate]: the exit status of gmsh and whether it has written domain.msh, the number
    of files dolfin-convert has written, the number of statements of the child python that were executed. *)
Record tools := { t_gmsh : nat; t_msh : bool; t_files : nat; t_stmts : nat }.

(** gmsh -3 ... domain.geo *)
Definition gmsh (t : tools) (cmd : string) : prog nat :=
  fun d => match fs_get d "domain.geo" with
           | Some (Geo g) => (if t_msh t then fs_set d "domain.msh" (Msh (g, cmd)) else d, Ok (t_gmsh t))
           | _ => (d, Ok 1)
           end.
(** dolfin-convert msh xml: the mesh, then the regions; its status is not looked at *)
Definition convert_files (root xml : string) (m : mesh) : list (string * content) :=
  [(xml, XmlMesh m); (root ++ "_facet_region.xml", XmlRegion "facet" m);
   (root ++ "_physical_region.xml", XmlRegion "physical" m)].
Definition dolfin_convert (t : tools) (root msh xml : string) : prog unit :=
  fun d => match fs_get d msh with
           | Some (Msh m) => (fold_left (fun d kc => fs_set d (fst kc) (snd kc)) (firstn (t_files t) (convert_files root xml m)) d, Ok tt)
           | _ => (d, Ok tt)
           end.

(** The statements of the child python (d123/meshing.py:19-37) *)
Inductive stmt :=
| SMesh (xml : string)                 (* mesh=Mesh(xml); assert mesh.topology().dim() == 3 *)
| SOpen (h5 : string)                  (* out=HDF5File(.., h5, 'w') *)
| SWriteMesh (h5 name : string)        (* out.write(mesh, name) *)
| SFunction (xml : string)             (* f = MeshFunction('size_t', mesh, xml) *)
| SWriteF (h5 name : string).          (* out.write(f, name) *)
(** what is in a data set: what it is (the mesh, or the regions that are called facet and physical) and of which mesh *)
Definition dset : Type := string * mesh.
Record env := { e_mesh : option mesh; e_f : option dset }.
Definition h5_write (d : fs) (h5 name : string) (m : dset) : option fs :=
  match fs_get d h5 with Some (H5 s) => Some (fs_set d h5 (H5 (s ++ [(name, m)])%list)) | _ => None end.
(** dim() == 3 holds of all that gmsh -3 writes *)
Definition exec1 (s : stmt) (d : fs) (e : env) : option (fs * env) :=
  match s with
  | SMesh xml => match fs_get d xml with Some (XmlMesh m) => Some (d, {| e_mesh := Some m; e_f := e_f e |}) | _ => None end
  | SOpen h5 => Some (fs_set d h5 (H5 []), e)
  | SWriteMesh h5 name => match e_mesh e with Some m => option_map (fun d => (d, e)) (h5_write d h5 name ("mesh", m)) | None => None end
  | SFunction xml => match fs_get d xml with Some (XmlRegion k m) => Some (d, {| e_mesh := e_mesh e; e_f := Some (k, m) |}) | _ => None end
  | SWriteF h5 name => match e_f e with Some m => option_map (fun d => (d, e)) (h5_write d h5 name m) | None => None end
  end.
(** n statements are executed, then the process is killed; status 0 when the end is reached *)
Fixpoint exec (n : nat) (l : list stmt) (d : fs) (e : env) {struct l} : fs * nat :=
  match l with
  | [] => (d, 0)
  | s :: l' => match n with
               | O => (d, 1)
               | S n' => match exec1 s d e with Some (d', e') => exec n' l' d' e' | None => (d, 1) end
               end
  end.
Definition python (t : tools) (l : list stmt) : prog nat :=
  fun d => let '(d', st) := exec (t_stmts t) l d {| e_mesh := None; e_f := None |} in (d', Ok st).

(** * convert *)
(** d123/meshing.py:26-35, enumath/meshing.py:28-37: the statements for the regions whose file is there *)
Fixpoint region_cmds (root h5 : string) (regions : list string) (d : fs) : res (list stmt) :=
  match regions with
  | [] => Ok []
  | r :: rs =>
    match split_us r with
    | [name; _] =>
      let r_xml := root ++ "_" ++ r in
      do l <- region_cmds root h5 rs d;
      Ok (if exists_ d r_xml then (SFunction r_xml :: SWriteF h5 name :: l) else l)
    | _ => Err ValueError
    end
  end.
(** d123/meshing.py:43-48, enumath/meshing.py:45-50 *)
Definition cleanup (ext : string) : prog unit :=
  fun d => each os_remove (filter (fun f => ends_with ext f && starts_with "domain" f) (map fst d)) d.
(** d123/meshing.py:6-50, enumath/meshing.py:9-52 *)
Definition convert (t : tools) (msh_file h5_file : string) : prog bool :=
  let root := fst (splitext msh_file) in
  run _ <- p_assert (fun _ => String.eqb (snd (splitext msh_file)) ".msh");
  run _ <- p_assert (fun _ => String.eqb (snd (splitext h5_file)) ".h5");
  let xml_file := root ++ "." ++ "xml" in
  run _ <- dolfin_convert t root msh_file xml_file;
  run _ <- p_assert (fun d => exists_ d xml_file);
  run rs <- (fun d => (d, region_cmds root h5_file ["facet_region.xml"; "physical_region.xml"] d));
  run status <- python t (SMesh xml_file :: SOpen h5_file :: SWriteMesh h5_file "mesh" :: rs);
  run _ <- p_assert (fun _ => (status =? 0)%nat);
  run _ <- p_assert (fun d => exists_ d h5_file);
  run _ <- cleanup ".xml";
  run _ <- cleanup ".msh";
  ret true.

(** * generate *)
(** what the caller chooses: d123 has scale and inner_size, enumath only scale *)
Inductive params := D123 (scale inner_size : Q) | Enumath (scale : Q).
(** d123/meshing.py:53-54, enumath/meshing.py:55-56 *)
Definition h5_file_name (p : params) : string :=
  match p with
  | D123 s i => "mesh_" ++ fmt_g s ++ "_" ++ fmt_g i ++ ".h5"
  | Enumath s => "mesh_" ++ fmt_g s ++ ".h5"
  end.
(** d123/meshing.py:65, enumath/meshing.py:67 *)
Definition command (p : params) : string :=
  match p with
  | D123 s i => "gmsh -3 -setnumber inner " ++ fmt_g i ++ " -clscale " ++ fmt_g s ++ " domain.geo"
  | Enumath s => "gmsh -3 -clscale " ++ fmt_g s ++ " domain.geo"
  end.
(** d123/meshing.py:57-72, enumath/meshing.py:59-75 *)
Definition generate (t : tools) (p : params) : prog string :=
  fun d =>
    let h5_file := h5_file_name p in
    if exists_ d h5_file then (d, Ok h5_file)
    else (run status <- gmsh t (command p);
          run _ <- p_assert (fun _ => (status =? 0)%nat);
          run _ <- p_assert (fun d => exists_ d "domain.msh");
          run ok <- convert t "domain.msh" h5_file;
          run _ <- p_assert (fun _ => ok);
          ret h5_file) d.

(** * load *)
(** h5.read(.., name): an error for a data set that is not in the file *)
Fixpoint h5_read (s : list (string * dset)) (name : string) : res dset :=
  match s with [] => Err RuntimeError | (k, m) :: s' => if String.eqb k name then Ok m else h5_read s' name end.
(** d123/meshing.py:75-88: mesh, surfaces, volumes; enumath/meshing.py:78-85: the mesh only.  Not modelled here: the
    embedded meshes that are made of them. *)
Definition load (t : tools) (p : params) : prog (list dset) :=
  run h5_file <- generate t p;
  fun d => (d, match fs_get d h5_file with
               | Some (H5 s) => mapM (h5_read s) (match p with D123 _ _ => ["mesh"; "facet"; "physical"] | Enumath _ => ["mesh"] end)
               | _ => Err RuntimeError
               end).

(** * Sessions *)
(** what happens in the directory: a call of [load], or domain.geo is written with another text *)
Inductive event := Load (t : tools) (p : params) | Edit (g : nat).
Definition step (d : fs) (e : event) : fs :=
  match e with Load t p => fst (load t p d) | Edit g => fs_set d "domain.geo" (Geo g) end.
Definition session (d : fs) (l : list event) : fs := fold_left step l d.
