(** apply_bc returns for well-formed arguments. *)
From Verif Require Import Base BaseProofs Mat MatProofs ConvertModel CollapseProofs CollapseTermProofs CollapseHaltProofs
  ConvertProofs ConvertActionProofs BcModel BcProofs BcApplyProofs BcUpdaterProofs.

(** The entries apply_bc understands: per block one DirichletBC or a list of
    DirichletBC and dictionaries. *)
Definition ok_entry (b : pybc) : Prop :=
  match b with
  | PDirichlet _ => True
  | PDict _ => False
  | PList l => Forall (fun c => match c with PList _ => False | _ => True end) l
  end.
Definition ok_arg (plain : bool) (n : nat) (arg : bcs_arg) : Prop :=
  match arg with
  | BNone => False
  | BVal v => if plain then ok_entry v
              else match v with PList l => length l = n /\ Forall ok_entry l | _ => False end
  | BKeys l => Forall (fun kv => (0 <= fst kv < Z.of_nat n)%Z /\ (exists c, snd kv = PList c) /\ ok_entry (snd kv)) l
  end.

Lemma block_items_ok b : ok_entry b -> exists ds, block_items (as_list b) = Ok ds.
Proof.
  destruct b as [d|d|l]; cbn [ok_entry as_list block_items]; intros H.
  - eexists. reflexivity.
  - contradiction.
  - induction H as [|c l Hc Hl [ds IH]]; [eexists; reflexivity|].
    rewrite mapM_cons. destruct c as [d|d|x]; [| |contradiction]; cbn [bind]; rewrite IH; eexists; reflexivity.
Qed.

Lemma dict_get_ok l i : Forall (fun kv : Z * pybc => ok_entry (snd kv)) l -> ok_entry (dict_get l i).
Proof.
  induction 1 as [|[k v] l H Hl IH]; [constructor|]. cbn [dict_get]. destruct (Z.eqb k i); [exact H|exact IH].
Qed.

Lemma per_block_ok n plain arg : (plain = true -> n = 1) -> ok_arg plain n arg ->
  exists l, per_block n plain arg = Ok l /\ length l = n /\ Forall ok_entry l.
Proof.
  intros Hp. destruct arg as [|v|ks]; cbn [ok_arg per_block]; [contradiction| |].
  - destruct plain.
    + intros H. exists [v]. split; [reflexivity|]. split; [rewrite Hp by reflexivity; reflexivity|]. auto.
    + destruct v as [d|d|l]; try contradiction. intros [H1 H2]. exists l. auto.
  - intros H.
    replace (forallb _ ks) with true; cbn [py_assert bind].
    2: { symmetry. apply forallb_forall. intros kv Hk. rewrite Forall_forall in H. destruct (H kv Hk) as (B & _).
         apply andb_true_iff. split; [apply Z.leb_le|apply Z.ltb_lt]; apply B. }
    replace (forallb (fun kv => is_plist (snd kv)) ks) with true; cbn [py_assert bind].
    2: { symmetry. apply forallb_forall. intros kv Hk. rewrite Forall_forall in H. destruct (H kv Hk) as (_ & (c & ->) & _). reflexivity. }
    eexists. split; [reflexivity|]. split; [rewrite map_length, seq_length; reflexivity|].
    apply Forall_forall. intros b Hb. apply in_map_iff in Hb. destruct Hb as (i & <- & _).
    apply dict_get_ok. eapply Forall_impl; [|exact H]. cbn. tauto.
Qed.

Lemma global_pairs_total offs bcs : Forall ok_entry bcs ->
  exists pairs, global_pairs offs (map as_list bcs) = Ok pairs.
Proof.
  intros H. unfold global_pairs.
  assert (E : exists l, mapM (fun sb => do ds <- block_items (snd sb);
                          Ok (map (fun kv => (fst sb + fst kv, snd kv)) (concat ds)))
               (combine offs (map as_list bcs)) = Ok l).
  { revert offs. induction H as [|b bcs Hb Hl IH]; intros offs.
    - destruct offs; eexists; reflexivity.
    - destruct offs as [|o offs]; [eexists; reflexivity|]. cbn [map combine]. rewrite mapM_cons. cbn [fst snd].
      destruct (block_items_ok b Hb) as [ds ->]. cbn [bind]. destruct (IH offs) as [l ->]. eexists; reflexivity. }
  destruct E as [l ->]. eexists. reflexivity.
Qed.

Lemma apply_bc_returns fuel A b arg diag sym ret AA :
  let bl := vec_blocks b in
  let sizes := map (@length Qc) bl in
  let pairs := prescribed (is_plain A) sizes arg in
  b <> VNone -> (forall v, b = VPlain v -> is_plain A = true) ->
  convert_bmat fuel (mat_blocks A) = Ok AA -> nr AA = list_sum sizes -> nc AA = list_sum sizes ->
  nbrows (mat_blocks A) = length bl -> ok_arg (is_plain A) (length bl) arg ->
  pairs <> [] -> (forall k, constrained pairs k -> k < list_sum sizes) ->
  (is_plain A = true \/ sym = true \/ ret = false) ->
  exists out, apply_bc fuel A b arg diag sym ret = Ok out.
Proof.
  intros bl sizes pairs Hb Hpl EC Hr Hc Hn HA HP HB HR. unfold apply_bc.
  destruct (nothing_to_do arg) eqn:N; [elim HP; apply nothing_prescribed; assumption|].
  assert (E : (match A with APlain m => (true, [[m]]) | ABlock B => (false, B) end) = (is_plain A, mat_blocks A))
    by (destruct A; reflexivity).
  rewrite E. clear E. cbv beta iota.
  set (plain := is_plain A) in *. set (bA := mat_blocks A) in *.
  assert (Eb : (match b with
           | VNone => do sizes <- bmat_sizes bA; Ok (map (fun n => vtab n (fun _ => q0)) (snd sizes))
           | VPlain v => do _ <- py_assert plain; Ok [v]
           | VBlock l => Ok l
           end) = Ok bl).
  { destruct b as [|v|l]; [congruence| |reflexivity]. rewrite (Hpl v eq_refl). reflexivity. }
  rewrite Eb. cbn [bind]. clear Eb.
  assert (Hp1 : plain = true -> nbrows bA = 1) by apply nbrows_plain.
  rewrite <- Hn in HA. destruct (per_block_ok (nbrows bA) plain arg Hp1 HA) as (l & EP & Ll & HF).
  rewrite EP. cbn [bind]. rewrite Ll, <- Hn, !Nat.eqb_refl. cbn [andb py_assert bind].
  assert (Ls : length sizes = length bl) by (unfold sizes; apply map_length).
  pose proof (prescribed_eq _ _ _ _ sizes EP ltac:(lia) Hp1) as EPR.
  destruct (existsb truthy (map as_list l)) eqn:ET; cbn [negb]; [|eexists; reflexivity].
  rewrite EC. cbn [bind]. fold sizes. rewrite offsets_last, Hr, Hc, !Nat.eqb_refl. cbn [andb py_assert bind].
  destruct (global_pairs_total (offsets sizes) l HF) as [pairs0 EG]. rewrite EG. cbn [bind].
  apply global_pairs_ok in EG; [|rewrite map_length; lia]. rewrite EPR in EG. fold pairs in EG. subst pairs0.
  rewrite map_length. destruct (Nat.eqb_spec (length pairs) 0) as [Z|Z].
  { exfalso. apply HP. destruct pairs; [reflexivity|discriminate]. }
  cbn [bind]. assert (Lc : length (convert_bvec bl) = list_sum sizes) by apply length_concat.
  destruct (set_values_total (vtab (length (convert_bvec bl)) (fun _ => q0)) pairs) as [x EX].
  { intros k Hk. rewrite vtab_length, Lc. apply HB. assumption. }
  rewrite EX. cbn [bind].
  destruct ((if sym then zero_rows_columns else zero_rows) AA (map fst pairs) diag x (convert_bvec bl)) as [AA' bb'] eqn:EZ.
  assert (HE := zeroed_eliminated sym diag AA (convert_bvec bl) pairs x AA' bb' ltac:(lia) EX EZ).
  destruct HE as (E1 & E2 & E3 & _).
  assert (Hpos : 0 < length sizes).
  { destruct sizes as [|s sizes'] eqn:E; [|cbn; lia]. elim HP. reflexivity. }
  destruct (as_block_vec_total sizes bb' ltac:(lia) Hpos) as [b' ->]. cbn [bind].
  destruct (as_block_mat_total sizes AA' ltac:(lia) ltac:(lia) Hpos) as [A' ->]. cbn [bind].
  destruct plain; [eexists; reflexivity|]. destruct ret; [|eexists; reflexivity].
  destruct HR as [HR|[->|HR]]; try discriminate. eexists; reflexivity.
Qed.
