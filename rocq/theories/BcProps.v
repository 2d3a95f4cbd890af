(** Properties C10 to C14. *)
From Verif Require Import Base Mat MatProofs ConvertModel ConvertProofs BcModel BcProofs BcApplyProofs BcUpdaterProofs BcReturnsProofs.

(** C10: the returned system has exactly the wanted solutions. *)
Theorem C10_solutions :
  forall fuel A b arg diag sym ret out xs,
  apply_bc fuel A b arg diag sym ret = Ok out -> b <> VNone -> diag <> q0 ->
  let sizes := map (@length Qc) (vec_blocks b) in
  let pairs := prescribed (is_plain A) sizes arg in
  pairs <> [] -> map (@length Qc) xs = sizes ->
  exists AA, convert_bmat fuel (mat_blocks A) = Ok AA /\
  (block_solves (mat_blocks (out_A out)) (vec_blocks (out_b out)) xs <->
   (forall k v, assigned pairs k v -> vnth (concat xs) k = v) /\
   (forall i, i < list_sum sizes -> ~ constrained pairs i -> row_holds AA (concat (vec_blocks b)) (concat xs) i)).
Proof. exact apply_bc_solutions. Qed.
Print Assumptions C10_solutions.

Theorem C10_no_rhs :
  forall fuel A arg diag sym ret rs cs,
  nothing_to_do arg = false -> bmat_sizes (mat_blocks A) = Ok (rs, cs) ->
  apply_bc fuel A VNone arg diag sym ret =
  apply_bc fuel A (VBlock (map (fun n => vtab n (fun _ => q0)) cs)) arg diag sym ret.
Proof. exact apply_bc_none. Qed.
Print Assumptions C10_no_rhs.

Theorem C10_nothing_to_do :
  forall fuel A b arg diag sym ret,
  nothing_to_do arg = true -> apply_bc fuel A b arg diag sym ret = Ok (RPair A b).
Proof. exact apply_bc_nothing. Qed.
Print Assumptions C10_nothing_to_do.

(** It does return, for well-formed conditions that constrain some row. *)
Theorem C10_returns :
  forall fuel A b arg diag sym ret AA,
  let bl := vec_blocks b in
  let sizes := map (@length Qc) bl in
  let pairs := prescribed (is_plain A) sizes arg in
  b <> VNone -> (forall v, b = VPlain v -> is_plain A = true) ->
  convert_bmat fuel (mat_blocks A) = Ok AA -> nr AA = list_sum sizes -> nc AA = list_sum sizes ->
  nbrows (mat_blocks A) = length bl -> ok_arg (is_plain A) (length bl) arg ->
  pairs <> [] -> (forall k, constrained pairs k -> k < list_sum sizes) ->
  (is_plain A = true \/ sym = true \/ ret = false) ->
  exists out, apply_bc fuel A b arg diag sym ret = Ok out.
Proof. exact apply_bc_returns. Qed.
Print Assumptions C10_returns.

(** A condition that marks no row at all makes apply_bc raise. *)
(** Refused are: a block that is not there, a block whose conditions are not in a list, a number of conditions or of
    vectors other than that of the block rows, and a vector for a block matrix *)
Theorem C10_refused : forall fuel A l diag sym ret,
  (forall ks k c, In (k, c) ks -> (k < 0)%Z \/ (Z.of_nat (nbrows (mat_blocks A)) <= k)%Z \/ (forall cs, c <> PList cs) ->
     apply_bc fuel A (VBlock l) (BKeys ks) diag sym ret = Err AssertionError) /\
  (forall B c cs, A = ABlock B -> In c cs -> (forall d, c = PDirichlet d -> False) -> c <> PDict [] -> c <> PList [] -> length cs <> nbrows B \/ length l <> nbrows B ->
     apply_bc fuel A (VBlock l) (BVal (PList cs)) diag sym ret = Err AssertionError) /\
  (forall B v arg, A = ABlock B -> nothing_to_do arg = false -> apply_bc fuel A (VPlain v) arg diag sym ret = Err AssertionError).
Proof.
  intros fuel A l diag sym ret. split; [|split].
  - intros ks k c Hin H. unfold apply_bc. replace (nothing_to_do (BKeys ks)) with false by (destruct ks; [destruct Hin|reflexivity]).
    assert (P : forall w, per_block (nbrows (mat_blocks A)) w (BKeys ks) = Err AssertionError).
    { intros w. cbn [per_block]. destruct (forallb (fun kv => (0 <=? fst kv)%Z && _) ks) eqn:F; cbn [py_assert bind]; [|reflexivity].
      destruct (forallb (fun kv => is_plist (snd kv)) ks) eqn:G; cbn [py_assert bind]; [|reflexivity]. exfalso. rewrite forallb_forall in F, G. specialize (F _ Hin). specialize (G _ Hin). cbn [fst snd] in F, G.
      apply andb_true_iff in F. destruct F as [F1 F2]. apply Z.leb_le in F1. apply Z.ltb_lt in F2. destruct H as [H|[H|H]]; [lia|lia|]. destruct c; try discriminate. exact (H l0 eq_refl). }
    destruct A as [m|B]; cbn [mat_blocks] in P; cbn [bind]; rewrite P; reflexivity.
  - intros B c cs -> Hin Hd Hn1 Hn2 H. unfold apply_bc.
    assert (T : truthy c = true) by (destruct c as [d|[|x d]|[|x d]]; try congruence; reflexivity).
    replace (nothing_to_do (BVal (PList cs))) with false by (symmetry; cbn [nothing_to_do]; apply negb_false_iff, existsb_exists; exists c; auto).
    cbn [bind per_block]. replace ((nbrows B =? length l) && (length l =? length cs)) with false; [reflexivity|].
    symmetry. apply andb_false_iff. destruct (Nat.eqb_spec (nbrows B) (length l)) as [E|E]; [right|left; reflexivity]. apply Nat.eqb_neq. lia.
  - intros B v arg -> Hn. unfold apply_bc. rewrite Hn. reflexivity.
Qed.
Print Assumptions C10_refused.

Theorem C10_empty_condition_raises :
  exists A b, forall diag sym,
    (exists AA, convert_bmat 1 (mat_blocks A) = Ok AA) /\
    apply_bc 1 A b (BVal (PList [PList [PDirichlet []]; PList []])) diag sym false = Err ValueError.
Proof.
  exists (ABlock [[EMat (mid 1); ENum q0]; [ENum q0; EMat (mid 1)]]), (VBlock [[q1]; [q1]]). intros diag sym.
  split; [eexists; reflexivity|reflexivity].
Qed.
Print Assumptions C10_empty_condition_raises.

(** C11 *)
Theorem C11_symmetric :
  forall fuel A b arg diag ret out AA,
  apply_bc fuel A b arg diag true ret = Ok out -> b <> VNone ->
  let sizes := map (@length Qc) (vec_blocks b) in
  prescribed (is_plain A) sizes arg <> [] ->
  convert_bmat fuel (mat_blocks A) = Ok AA ->
  (forall i j, i < nr AA -> j < nr AA -> ent AA i j = ent AA j i) ->
  forall i j r c, i < length sizes -> j < length sizes -> r < nth i sizes 0 -> c < nth j sizes 0 ->
  ent (emat (blk (mat_blocks (out_A out)) i j)) r c = ent (emat (blk (mat_blocks (out_A out)) j i)) c r.
Proof. exact apply_bc_symmetric. Qed.
Print Assumptions C11_symmetric.

Theorem C11_free_entries :
  forall fuel A b arg diag sym ret out AA,
  apply_bc fuel A b arg diag sym ret = Ok out -> b <> VNone ->
  let sizes := map (@length Qc) (vec_blocks b) in
  let pairs := prescribed (is_plain A) sizes arg in
  pairs <> [] -> convert_bmat fuel (mat_blocks A) = Ok AA ->
  forall i j r c, i < length sizes -> j < length sizes -> r < nth i sizes 0 -> c < nth j sizes 0 ->
  ~ constrained pairs (off sizes i + r) -> ~ constrained pairs (off sizes j + c) ->
  ent (emat (blk (mat_blocks (out_A out)) i j)) r c = ent AA (off sizes i + r) (off sizes j + c).
Proof. exact apply_bc_free. Qed.
Print Assumptions C11_free_entries.

(** C12 *)
Theorem C12_rows :
  forall plain sizes arg i r,
  (forall j dict, In dict (arg_conds plain arg j) -> forall d, In d (map fst dict) -> d < nth j sizes 0) ->
  i < length sizes -> r < nth i sizes 0 ->
  (constrained (prescribed plain sizes arg) (off sizes i + r) <->
   exists dict, In dict (arg_conds plain arg i) /\ In r (map fst dict)).
Proof. exact constrained_block. Qed.
Print Assumptions C12_rows.

Theorem C12_constrained_row :
  forall fuel A b arg diag sym ret out,
  apply_bc fuel A b arg diag sym ret = Ok out -> b <> VNone ->
  let sizes := map (@length Qc) (vec_blocks b) in
  let pairs := prescribed (is_plain A) sizes arg in
  pairs <> [] ->
  forall i r v, i < length sizes -> r < nth i sizes 0 -> assigned pairs (off sizes i + r) v ->
  vnth (nth i (vec_blocks (out_b out)) []) r = (diag * v)%Qc /\
  forall j c, j < length sizes -> c < nth j sizes 0 ->
    ent (emat (blk (mat_blocks (out_A out)) i j)) r c = if (i =? j) && (r =? c) then diag else q0.
Proof. exact apply_bc_row. Qed.
Print Assumptions C12_constrained_row.

Theorem C12_last_value :
  forall pairs k, constrained pairs k -> exists v, assigned pairs k v /\ forall w, assigned pairs k w -> w = v.
Proof.
  exact (fun pairs k H => match assigned_exists pairs k H with
    ex_intro _ v Hv => ex_intro _ v (conj Hv (fun w Hw => assigned_unique pairs k w v Hw Hv)) end).
Qed.
Print Assumptions C12_last_value.

(** C13 is false: with diag_val <> 1 the updater does not scale the prescribed
    values, dictionaries make it raise, and with symmetric=False apply_bc
    itself raises. *)
Definition A22 : bmat := [[EMat (mid 1); ENum q0]; [ENum q0; EMat (mid 1)]].
Definition dbc1 : bcs_arg := BVal (PList [PList [PDirichlet [(0, q1)]]; PList []]).
Theorem C13_updater_refuted :
  exists A b f b1, apply_bc 1 (ABlock A22) (VBlock [[q0]; [q0]]) dbc1 (qz 2) true true = Ok (RTriple A (VBlock b) f) /\
    f [PList [PDirichlet [(0, q1)]]; PList []] [[q0]; [q0]] = Ok b1 /\ b1 <> b.
Proof.
  do 4 eexists. split; [reflexivity|]. split; [reflexivity|]. vm_compute. discriminate.
Qed.
Print Assumptions C13_updater_refuted.

Theorem C13_updater_dict_refuted :
  exists A b f, apply_bc 1 (ABlock A22) (VBlock [[q0]; [q0]]) (BVal (PList [PList [PDict [(0, q1)]]; PList []])) q1 true true
      = Ok (RTriple A b f) /\
    f [PList [PDict [(0, q1)]]; PList []] [[q0]; [q0]] = Err ValueError.
Proof. do 3 eexists. split; [reflexivity|]. reflexivity. Qed.
Print Assumptions C13_updater_dict_refuted.

Theorem C13_updater_nonsymmetric_refuted :
  apply_bc 1 (ABlock A22) (VBlock [[q0]; [q0]]) dbc1 q1 false true = Err UnboundLocalError.
Proof. reflexivity. Qed.
Print Assumptions C13_updater_nonsymmetric_refuted.

(** C13, what holds: whatever diag_val was, the updater produces the right-hand
    side apply_bc produces with diag_val = 1, for DirichletBC objects, also
    after their values changed. *)
Theorem C13_updater_partial :
  forall fuel B bl bl' arg arg' diag A1 b1 f ret out now,
  apply_bc fuel (ABlock B) (VBlock bl) arg diag true true = Ok (RTriple A1 b1 f) ->
  let sizes := map (@length Qc) bl in
  prescribed false sizes arg <> [] ->
  dirichlet_only arg' ->
  map fst (prescribed false sizes arg') = map fst (prescribed false sizes arg) ->
  map (@length Qc) bl' = sizes ->
  apply_bc fuel (ABlock B) (VBlock bl') arg' q1 true ret = Ok out ->
  current (nbrows B) arg' now ->
  f now bl' = Ok (vec_blocks (out_b out)).
Proof. exact updater_correct. Qed.
Print Assumptions C13_updater_partial.

(** C14 *)
Theorem C14_reassembles :
  forall fuel A b arg diag sym ret out fuel',
  apply_bc fuel A b arg diag sym ret = Ok out -> b <> VNone ->
  let sizes := map (@length Qc) (vec_blocks b) in
  let pairs := prescribed (is_plain A) sizes arg in
  pairs <> [] ->
  exists AA A' b' M',
    convert_bmat fuel (mat_blocks A) = Ok AA /\
    eliminated sym diag AA (concat (vec_blocks b)) pairs A' b' /\
    map (@length Qc) (vec_blocks (out_b out)) = sizes /\
    convert_bvec (vec_blocks (out_b out)) = b' /\
    convert_bmat (S fuel') (mat_blocks (out_A out)) = Ok M' /\ meq M' A' /\
    (forall i j, i < length sizes -> j < length sizes ->
       nr (emat (blk (mat_blocks (out_A out)) i j)) = nth i sizes 0 /\
       nc (emat (blk (mat_blocks (out_A out)) i j)) = nth j sizes 0).
Proof. exact apply_bc_reassembles. Qed.
Print Assumptions C14_reassembles.

Theorem C14_as_block :
  forall blocks x M b' A',
  as_block_vec blocks x = Ok b' -> as_block_mat blocks M = Ok A' ->
  length b' = length blocks /\
  forall i j r c, i < length blocks -> j < length blocks ->
    r < length (nth i blocks []) -> c < length (nth j blocks []) ->
    vnth (nth i b' []) r = vnth x (nth r (nth i blocks []) 0) /\
    ent (emat (blk A' i j)) r c = ent M (nth r (nth i blocks []) 0) (nth c (nth j blocks []) 0).
Proof. exact as_block_general. Qed.
Print Assumptions C14_as_block.

(** Non-vacuity: a 2+2 system, overlapping conditions. *)
Definition exA : bmat :=
  [[EMat (of_rows 2 2 [[qz 4; qz 1]; [qz 1; qz 5]]); EMat (of_rows 2 2 [[qz 2; qz 0]; [qz 3; qz 1]])];
   [ETr (EMat (of_rows 2 2 [[qz 2; qz 0]; [qz 3; qz 1]])); EMat (of_rows 2 2 [[qz 7; qz 2]; [qz 2; qz 9]])]].
Definition exb : vec_arg := VBlock [[qz 1; qz 2]; [qz 3; qz 4]].
Definition exbc : bcs_arg :=
  BVal (PList [PList [PDirichlet [(1, qz 10)]; PDict [(1, qz 20)]]; PDirichlet [(0, qz 30)]]).

Example C10_hyps :
  ok_arg false 2 exbc /\ prescribed false [2; 2] exbc = [(1, qz 10); (1, qz 20); (2, qz 30)] /\
  assigned (prescribed false [2; 2] exbc) 1 (qz 20) /\
  (exists out, apply_bc 5 (ABlock exA) exb exbc (qz 2) true true = Ok out /\
    map (map (fun e => to_rows (emat e))) (mat_blocks (out_A out)) =
      [[[[qz 4; qz 0]; [qz 0; qz 2]]; [[qz 0; qz 0]; [qz 0; qz 0]]];
       [[[qz 0; qz 0]; [qz 0; qz 0]]; [[qz 2; qz 0]; [qz 0; qz 9]]]] /\
    vec_blocks (out_b out) = [[qz (-79); qz 40]; [qz 60; qz (-76)]]).
Proof.
  split; [|split; [|split]].
  - cbn. split; [reflexivity|]. repeat constructor.
  - vm_compute. reflexivity.
  - exists [(1, qz 10)], [(2, qz 30)]. split; [vm_compute; reflexivity|]. cbn. lia.
  - eexists. split; [reflexivity|]. split; vm_compute; reflexivity.
Qed.

Example C13_hyps : exists A1 b1 f out,
  apply_bc 5 (ABlock exA) exb (BVal (PList [PDirichlet [(1, qz 10)]; PList []])) (qz 2) true true = Ok (RTriple A1 b1 f) /\
  dirichlet_only (BVal (PList [PDirichlet [(1, qz 11)]; PList []])) /\
  apply_bc 5 (ABlock exA) exb (BVal (PList [PDirichlet [(1, qz 11)]; PList []])) q1 true false = Ok out /\
  f [PList [PDirichlet [(1, qz 11)]]; PList []] (vec_blocks exb) = Ok (vec_blocks (out_b out)).
Proof.
  do 4 eexists. split; [reflexivity|]. split; [repeat constructor|].
  split; [reflexivity|]. vm_compute. reflexivity.
Qed.

Example C14_plain : exists out,
  apply_bc 5 (APlain (EMat (mid 2))) (VPlain [qz 1; qz 2]) (BVal (PList [PDirichlet [(0, qz 7)]])) q1 false true = Ok out /\
  vec_blocks (out_b out) = [[qz 7; qz 2]].
Proof. eexists. split; [reflexivity|]. vm_compute. reflexivity. Qed.
