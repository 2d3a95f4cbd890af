(** Zero block forms: sandbox/block_form.py:5-26

    Python and numpy meaning that is trusted here: list(map(f, l)) ends, without an exception, at the first
    element for which f raises StopIteration; np.asanyarray of lists of lists that do not all have the same shape
    raises ValueError; np.kron of arrays of the shapes s and t, the shorter one filled with ones in front,
    has the products as shape. *)
From Verif Require Export Base.

(** What may be given: a FunctionSpace or a list *)
Inductive tree := Space | Spaces (l : list tree).
(** What is returned: the number 0 or a list *)
Inductive nest := Zero | Nest (l : list nest).

(** 5-10: the type of the first element, whether it is a FunctionSpace *)
Definition first_is_space (l : list tree) : res bool :=
  match l with [] => Err StopIteration | Space :: _ => Ok true | Spaces _ :: _ => Ok false end.

(** 14-22 for one argument *)
Fixpoint zeros (V : tree) : res nest :=
  match V with
  | Space => Ok (Nest [Zero])
  | Spaces l =>
      do f <- first_is_space l;
      if f : bool then Ok (Nest (repeat Zero (length l)))
      else
        do zs <- (fix until_stop (l : list tree) : res (list nest) :=
           match l with
           | [] => Ok []
           | V :: l' =>
               match zeros V with
               | Err StopIteration => Ok []
               | Err e => Err e
               | Ok z => do zs <- until_stop l'; Ok (z :: zs)
               end
           end) l;
        Ok (Nest zs)
  end.

(** np.asanyarray: the shape *)
Fixpoint shape (z : nest) : res (list nat) :=
  match z with
  | Zero => Ok []
  | Nest l =>
      (fix same (l : list nest) : res (list nat) :=
         match l with
         | [] => Ok [0]
         | z :: l' =>
             do s <- shape z;
             match l' with
             | [] => Ok (1 :: s)
             | _ => do t <- same l';
                    match t with
                    | n :: s' => if list_eq_dec Nat.eq_dec s s' then Ok (S n :: s) else Err ValueError
                    | [] => Err TypeError
                    end
             end
         end) l
  end.
(** np.kron: the shape; the entries are products of zeros *)
Definition kron_shape (s t : list nat) : list nat :=
  let d := Nat.max (length s) (length t) in
  let pad x := repeat 1 (d - length x) ++ x in
  map (fun p => fst p * snd p) (combine (pad s) (pad t)).
(** 24 for two arguments: the shape of what is returned and its entries *)
Definition zeros2 (V Q : tree) : res (list nat * list nat) :=
  do v <- zeros V; do q <- zeros Q; do s <- shape v; do t <- shape q;
  let k := kron_shape s t in
  Ok (k, repeat (0 * 0) (fold_right Nat.mul 1 k)).
