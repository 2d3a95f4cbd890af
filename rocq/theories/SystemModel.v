(** The way from forms to a linear system, as the scripts go (for instance
    demo/emi_primal.py:163-165, demo/bertoluzza_stokes.py:219-221):

      A, b = map(ii_assemble, (a, L))
      A, b = apply_bc(A, b, bcs)
      A, b = map(ii_convert, (A, b))

    with a and L block forms (xii/assembler/block_form.py), which are lists. *)
From Verif Require Import Base Mat ListUtilsModel ConvertModel BcModel.
From Verif Require Import UflModel BlockFormModel ReducedModel.
Local Open Scope nat_scope.
Local Close Scope Q_scope.
Local Close Scope Qc_scope.

(** xii_assembly.py:46-60 on one block: a form goes through the assemblers, a
    number stays; is_number of matrix_utils.py:20-22 does not know Constant,
    which is then taken for a list and cannot be iterated. *)
Definition assemble_block (asmb : form -> res tensor) (b : block) : res tensor :=
  match b with
  | BForm f => asmb f
  | BNum q => Ok (TNum q)
  | BConst _ => Err TypeError
  end.

(** A block form seen as nested lists. *)
Definition rows_tree (rows : list (list block)) : tree block :=
  ListUtilsModel.Node (map (fun r => ListUtilsModel.Node (map ListUtilsModel.Leaf r)) rows).
Definition blocks_tree (bs : list block) : tree block := ListUtilsModel.Node (map ListUtilsModel.Leaf bs).

(** The entries of block_mat and block_vec (xii_assembly.py:67).  A vector
    inside a block_mat is not something collapse knows; a number inside a
    block_vec has no array. *)
Definition entry_op (t : tree (asm tensor)) : ConvertModel.expr :=
  match t with
  | ListUtilsModel.Leaf (Tensor (TOp e)) => e
  | ListUtilsModel.Leaf (Tensor (TNum q)) => ENum q
  | _ => EOther
  end.
Definition as_bmat (r : asm tensor) : res bmat :=
  match r with
  | BlockMat t => do rows <- children t; mapM (fun row => do l <- children row; Ok (map entry_op l)) rows
  | _ => Err TypeError
  end.
Definition entry_vec (t : tree (asm tensor)) : res vec :=
  match t with ListUtilsModel.Leaf (Tensor (TVec b)) => Ok b | _ => Err AttributeError end.
Definition as_bvec (r : asm tensor) : res (list vec) :=
  match r with
  | BlockVec t => do l <- children t; mapM entry_vec l
  | _ => Err TypeError
  end.

(** The three lines.  [fa] bounds the recursion of the assemblers, [fc] the one
    of ii_collapse. *)
Definition linear_system (asmb : form -> res tensor) (fa fc : nat) (a : list (list block)) (L : list block)
    (bcs : bcs_arg) (diag : Qc) (symmetric : bool) : res (mat * vec) :=
  do rA <- ListUtilsModel.assemble (assemble_block asmb) fa (rows_tree a);
  do rb <- ListUtilsModel.assemble (assemble_block asmb) fa (blocks_tree L);
  do A <- as_bmat rA;
  do b <- as_bvec rb;
  do out <- apply_bc fc (ABlock A) (VBlock b) bcs diag symmetric false;
  match out with
  | RPair (ABlock A') (VBlock b') => do M <- convert_bmat fc A'; Ok (M, convert_bvec b')
  | _ => Err TypeError
  end.

(** a = block_form(W, 2), L = block_form(W, 1), forms added to them one after
    the other (block_form.py:93-121, 142-152), then the system. *)
Definition solve_forms (asmb : form -> res tensor) (zf : nat -> form) (fa fc : nat) (W : list nat)
    (fs gs : list form) (bcs : bcs_arg) (diag : Qc) (symmetric : bool) : res (mat * vec) :=
  do a0 <- block_form zf W 2;
  do a <- adds a0 fs;
  do L0 <- block_form zf W 1;
  do L <- adds L0 gs;
  match a, L with
  | Bil _ rows, Lin _ bs => linear_system asmb fa fc rows bs bcs diag symmetric
  | _, _ => Err TypeError
  end.
