(** Property C67: functions in several spaces *)
From Verif Require Import FunctionModel FunctionProofs BaseProofs FillProofs MatProofs.
Local Close Scope Q_scope.
Local Close Scope Qc_scope.
Local Open Scope nat_scope.

(** Without components: new zero functions of the spaces, with vectors of their own *)
Theorem C67_new : forall s spaces s' u, init s spaces None = Ok (s', u) ->
  W u = spaces /\ length (functions u) = length spaces /\ NoDup (functions u) /\ apart s' (functions u) /\
  (forall i, i < length spaces -> fun_space s' (nth i (functions u) 0) = nth i spaces no_space /\ coefficients s' (nth i (functions u) 0) = repeat q0 (sdim (nth i spaces no_space))) /\
  (forall f, In f (functions u) -> length (funs s) <= f) /\ (forall f, f < length (funs s) -> fun_vec s f < length (vecs s) -> same_fun s s' f).
Proof.
  intros s spaces s' u H. cbn [init] in H. destruct (zero_functions s spaces) as [s1 fs] eqn:Z. injection H as -> <-. cbn [functions W]. destruct (zero_functions_spec spaces s s' fs Z) as [E [[v Ev] [[w Ew] [_ V]]]].
  assert (Lf : length fs = length spaces) by (rewrite E; apply seq_length).
  split; [reflexivity|]. split; [exact Lf|]. split; [rewrite E; apply seq_NoDup|]. split.
  { unfold apart. replace (map (fun_vec s') fs) with (seq (length (vecs s)) (length spaces)); [apply seq_NoDup|]. apply (nth_ext _ _ 0 (fun_vec s' 0)); [rewrite map_length, seq_length; congruence|]. intros i Hi. rewrite seq_length in Hi. rewrite map_nth, seq_nth by exact Hi. symmetry. apply V. exact Hi. }
  split; [intros i Hi; destruct (V i Hi) as [A [_ C]]; split; assumption|]. split.
  - intros f F. rewrite E in F. apply in_seq in F. lia.
  - intros f Hf Hv. assert (Q : nth f (funs s') (no_space, 0) = nth f (funs s) (no_space, 0)) by (rewrite Ew; apply app_nth1; exact Hf). unfold same_fun, coefficients, fun_space, fun_vec in *. rewrite Q. split; [reflexivity|split; [reflexivity|]]. unfold vec_at. rewrite Ev. apply app_nth1. exact Hv.
Qed.
Print Assumptions C67_new.

(** With vectors: accepted if they have the sizes of the spaces; functions of the spaces which share these vectors *)
Theorem C67_vectors : forall s spaces a rest,
  (forall s' u, init s spaces (Some (CVec a :: rest)) = Ok (s', u) ->
     W u = spaces /\ length (functions u) = length spaces /\ vecs s' = vecs s /\
     forall i, i < length spaces -> fun_space s' (nth i (functions u) 0) = nth i spaces no_space /\ nth i (CVec a :: rest) (CFun 0) = CVec (fun_vec s' (nth i (functions u) 0)) /\ length (coefficients s' (nth i (functions u) 0)) = sdim (nth i spaces no_space)) /\
  (forall addresses, CVec a :: rest = map CVec addresses -> length addresses = length spaces -> (forall i, i < length spaces -> length (vec_at s (nth i addresses 0)) = sdim (nth i spaces no_space)) -> exists r, init s spaces (Some (CVec a :: rest)) = Ok r).
Proof.
  intros s spaces a rest. set (cs := CVec a :: rest). split.
  - intros s' u H. unfold init in H. destruct (Nat.eqb_spec (length cs) (length spaces)) as [L|]; cbn [py_assert bind] in H; [|discriminate]. unfold cs in H at 1. destruct (check_sizes s (combine cs spaces)) as [pairs|] eqn:C; [cbn [bind] in H|discriminate]. destruct (wrap_vectors s pairs) as [s1 fs] eqn:Wv. injection H as -> <-. cbn [functions W].
    apply check_sizes_spec in C. destruct C as [C1 [C2 C3]]. rewrite combine_fst in C1 by exact L. rewrite combine_snd in C2 by exact L. destruct (wrap_vectors_spec pairs s s' fs Wv) as [E [Ev [_ V]]].
    assert (Lp : length pairs = length spaces) by (rewrite C2; symmetry; apply map_length). split; [reflexivity|]. split; [rewrite E, seq_length; exact Lp|]. split; [exact Ev|]. intros i Hi. rewrite <- Lp in Hi. destruct (V i Hi) as [A B]. rewrite A, B.
    assert (S : snd (nth i pairs (0, no_space)) = nth i spaces no_space) by (rewrite C2; symmetry; exact (map_nth snd pairs (0, no_space) i)). split; [exact S|]. split.
    + rewrite C1. rewrite (nth_indep _ (CFun 0) (CVec 0)) by (rewrite !map_length; exact Hi). rewrite (map_nth CVec). f_equal. exact (map_nth fst pairs (0, no_space) i).
    + unfold coefficients. rewrite B. unfold vec_at. rewrite Ev. rewrite <- S. apply (C3 (nth i pairs (0, no_space))), nth_In, Hi.
  - intros addresses E L Z. unfold init. assert (L' : length cs = length spaces) by (rewrite E, map_length; exact L). rewrite L', Nat.eqb_refl. cbn [py_assert bind]. unfold cs at 1.
    rewrite (proj2 (check_sizes_spec s (combine cs spaces) (combine addresses spaces))).
    + cbn [bind]. destruct (wrap_vectors s _) as [s1 fs]. eexists. reflexivity.
    + rewrite combine_fst by exact L'. rewrite combine_snd by exact L'. rewrite combine_fst by exact L. rewrite combine_snd by exact L. split; [exact E|]. split; [reflexivity|]. intros p P. destruct (In_nth _ _ (0, no_space) P) as [i [Hi <-]]. rewrite combine_length in Hi. rewrite combine_nth by exact L. cbn [fst snd]. apply Z. lia.
Qed.
Print Assumptions C67_vectors.

(** With functions: these are the components *)
Theorem C67_functions : forall s spaces fs, fs <> [] -> length fs = length spaces -> init s spaces (Some (map CFun fs)) = Ok (s, {| functions := fs; W := spaces |}).
Proof.
  intros s spaces fs N L. destruct fs as [|f fs]; [congruence|]. unfold init. rewrite map_length, L, Nat.eqb_refl. cbn [py_assert bind map]. change (CFun f :: map CFun fs) with (map CFun (f :: fs)).
  assert (M : forall fs (spaces : list space), length fs = length spaces -> exists bs, mapM (same_space s) (combine (map CFun fs) spaces) = Ok bs /\ length bs = length spaces).
  { clear. induction fs as [|f fs IH]; intros [|V spaces] L; try discriminate; [exists []; split; reflexivity|]. cbn [map combine]. rewrite mapM_cons. cbn [same_space fst snd bind]. destruct (IH spaces) as [bs [-> Lb]]; [cbn in L; lia|]. eexists. split; [reflexivity|]. cbn. lia. }
  destruct (M (f :: fs) spaces L) as [bs [-> Lb]]. cbn [bind]. destruct bs as [|b bs]; [cbn in *; lia|]. cbn [length Nat.eqb negb py_assert bind]. rewrite map_map. cbn [fun_id]. rewrite map_id. reflexivity.
Qed.
Print Assumptions C67_functions.

(** ... in whatever spaces they are: that they are in the given spaces is not checked *)
Theorem C67_spaces_refuted : forall s V f, sid (fun_space s f) <> sid V -> exists u, init s [V] (Some [CFun f]) = Ok (s, u) /\ sid (fun_space s (nth 0 (functions u) 0)) <> sid (nth 0 (W u) no_space).
Proof. intros s V f N. eexists. split; [exact (C67_functions s [V] [f] ltac:(discriminate) eq_refl)|]. exact N. Qed.
Print Assumptions C67_spaces_refuted.

(** Other lists are refused *)
Theorem C67_rejects : forall s spaces cs,
  (length cs <> length spaces -> init s spaces (Some cs) = Err AssertionError) /\
  (cs = [] -> spaces = [] -> init s spaces (Some cs) = Err StopIteration) /\
  (forall f g a, length cs = length spaces -> In (CFun g) cs -> In (CVec a) cs -> nth 0 cs (CVec 0) = CFun f -> init s spaces (Some cs) = Err AttributeError) /\
  (forall a r, init s spaces (Some (CVec a :: cs)) = Ok r -> forall c, In c cs -> exists b, c = CVec b).
Proof.
  intros s spaces cs. split; [|split; [|split]].
  - intros N. unfold init. apply Nat.eqb_neq in N. rewrite N. reflexivity.
  - intros -> ->. reflexivity.
  - intros f g a L _ A F. unfold init. rewrite L, Nat.eqb_refl. cbn [py_assert bind]. destruct cs as [|c cs]; [destruct A|]. cbn [nth] in F. subst c. set (l := CFun f :: cs) in *.
    assert (M : forall l (spaces : list space), length l = length spaces -> In (CVec a) l -> mapM (same_space s) (combine l spaces) = Err AttributeError).
    { clear. induction l as [|c l IH]; intros [|V spaces] L A; try discriminate; [destruct A|]. cbn [combine]. rewrite mapM_cons. destruct A as [-> | A]; [reflexivity|]. destruct c as [f|b]; [|reflexivity]. cbn [same_space fst snd bind]. rewrite IH; [reflexivity|cbn in L; lia|exact A]. }
    rewrite M by assumption. reflexivity.
  - intros a [s' u] H c C. unfold init in H. destruct (Nat.eqb_spec (length (CVec a :: cs)) (length spaces)) as [L|]; cbn [py_assert bind] in H; [|discriminate]. destruct (check_sizes s (combine (CVec a :: cs) spaces)) as [pairs|] eqn:K; [|discriminate]. apply check_sizes_spec in K. destruct K as [K _]. rewrite combine_fst in K by exact L.
    assert (I : In c (map CVec (map fst pairs))) by (rewrite <- K; right; exact C). apply in_map_iff in I. destruct I as [b [<- _]]. exists b. reflexivity.
Qed.
Print Assumptions C67_rejects.

(** Items by number, checked; iteration goes through all *)
Theorem C67_items : forall u, items u = Ok (functions u) /\ forall i, getitem u i = if ((0 <=? i) && (i <? Z.of_nat (length (functions u))))%Z then Ok (nth (Z.to_nat i) (functions u) 0) else Err AssertionError.
Proof. intros u. split; [apply items_all|apply getitem_spec]. Qed.
Print Assumptions C67_items.

(** interpolate gives each component the interpolant of its source, and leaves other functions, if the
    components share no vectors and the sources are no components *)
Theorem C67_partial : forall replaces interp s u g, valid s (functions u) -> NoDup (functions u) -> apart s (functions u) -> (forall x, In x g -> independent s (functions u) x) -> length g = length (functions u) ->
  exists s', interpolate replaces interp s u g = Ok s' /\
    (forall i, i < length g -> fun_space s' (nth i (functions u) 0) = fun_space s (nth i (functions u) 0) /\ coefficients s' (nth i (functions u) 0) = interpolant interp s (nth i g (Fun 0)) (fun_space s (nth i (functions u) 0))) /\
    (forall f, ~ In f (functions u) -> fun_vec s f < length (vecs s) -> (forall f', In f' (functions u) -> fun_vec s f <> fun_vec s f') -> same_fun s s' f).
Proof.
  intros replaces interp s u g Va N A I L. unfold interpolate. rewrite L, Nat.eqb_refl. cbn [py_assert bind]. rewrite items_all. cbn [bind]. eexists. split; [reflexivity|].
  pose proof (interpolate_loop replaces interp (combine (functions u) g) s) as H. cbv zeta in H. rewrite combine_fst in H by congruence. destruct H as [H1 H2]; [exact Va|exact N|exact A| |].
  - intros [f x] P. apply in_combine_r in P. apply I. exact P.
  - split; [|exact H2]. intros i Hi. specialize (H1 (nth i (functions u) 0, nth i g (Fun 0))). cbn [fst snd] in H1. apply H1. rewrite <- combine_nth by congruence. apply nth_In. rewrite combine_length. lia.
Qed.
Print Assumptions C67_partial.

(** A wrong number of sources is refused *)
Theorem C67_lengths : forall replaces interp s u g, length g <> length (functions u) -> interpolate replaces interp s u g = Err AssertionError.
Proof. intros replaces interp s u g N. unfold interpolate. destruct (Nat.eqb_spec (length (functions u)) (length g)); [congruence|reflexivity]. Qed.
Print Assumptions C67_lengths.

(** Components that are sources: exchanging two components of one space copies the second, for every
    interpolation that is exact in the space *)
Theorem C67_exchange_refuted : forall replaces interp s f0 f1 Ws, f0 < length (funs s) -> f1 < length (funs s) -> f0 <> f1 -> fun_vec s f0 < length (vecs s) -> fun_vec s f1 < length (vecs s) -> fun_vec s f0 <> fun_vec s f1 -> fun_space s f0 = fun_space s f1 ->
  (forall V x, interp V V x = x) ->
  exists s', interpolate replaces interp s {| functions := [f0; f1]; W := Ws |} [Fun f1; Fun f0] = Ok s' /\ coefficients s' f0 = coefficients s f1 /\ coefficients s' f1 = coefficients s f1.
Proof.
  intros replaces interp s f0 f1 Ws H0 H1 N V0 V1 Nv E X. unfold interpolate. cbn [functions length Nat.eqb py_assert bind]. rewrite items_all. cbn [bind functions combine fold_left fst snd]. eexists. split; [reflexivity|].
  destruct (assign_this replaces interp s f0 (Fun f1) H0 V0) as [A1 [A2 [A3 [A4 A5]]]]. set (s1 := assign_interpolant replaces interp s f0 (Fun f1)) in *. destruct (assign_other replaces interp s f0 (Fun f1) f1) as [B1 [B2 B3]]; [congruence|exact V1|congruence|]. fold s1 in B1, B2, B3.
  destruct (assign_this replaces interp s1 f1 (Fun f0)) as [C1 [C2 _]]; [rewrite A4; exact H1|rewrite B2; lia|]. cbn [interpolant] in A2, C2. rewrite E, X in A2. rewrite B1, A1, E, X, A2 in C2.
  split; [|exact C2]. assert (D : same_fun s1 (assign_interpolant replaces interp s1 f1 (Fun f0)) f0).
  { apply assign_other; [exact N|exact A3|]. rewrite B2. unfold s1, assign_interpolant. destruct replaces; [|exact Nv]. unfold fun_vec at 1. cbn [funs]. rewrite nth_set_nth, Nat.eqb_refl. apply Nat.ltb_lt in H0. rewrite H0. cbn [andb snd]. lia. }
  destruct D as [_ [_ D]]. rewrite D. exact A2.
Qed.
Print Assumptions C67_exchange_refuted.

(** The nested vector reads and writes the coefficients of the components *)
Theorem C67_wired : forall s u,
  nest_values s (petsc_vec s u) = concat (map (coefficients s) (functions u)) /\
  (forall i r v, apart s (functions u) -> valid s (functions u) -> i < length (functions u) -> r < length (coefficients s (nth i (functions u) 0)) ->
     exists s', nest_set s (petsc_vec s u) (list_sum (map (fun f => length (coefficients s f)) (firstn i (functions u))) + r) v = Ok s' /\
       (forall k, vnth (coefficients s' (nth i (functions u) 0)) k = if k =? r then v else vnth (coefficients s (nth i (functions u) 0)) k) /\
       (forall f, fun_vec s f <> fun_vec s (nth i (functions u) 0) -> same_fun s s' f)).
Proof.
  intros s u. split; [apply nest_values_spec|]. intros i r v A Va Hi Hr.
  assert (Q : nth i (petsc_vec s u) 0 = fun_vec s (nth i (functions u) 0)). { unfold petsc_vec, vectors. rewrite (nth_indep _ 0 (fun_vec s 0)) by (rewrite map_length; exact Hi). apply map_nth. }
  destruct (nest_set_spec (petsc_vec s u) s i r v) as [s' [S [F [V O]]]]; [exact A| | |rewrite Q; exact Hr|].
  - intros a I. unfold petsc_vec, vectors in I. apply in_map_iff in I. destruct I as [f [<- If]]. apply Va, If.
  - unfold petsc_vec, vectors. rewrite map_length. exact Hi.
  - assert (Q2 : map (fun a => length (vec_at s a)) (firstn i (petsc_vec s u)) = map (fun f => length (coefficients s f)) (firstn i (functions u))) by (unfold petsc_vec, vectors; rewrite firstn_map, map_map; reflexivity). rewrite Q2 in S. exists s'. split; [exact S|].
    assert (FV : forall f, fun_vec s' f = fun_vec s f) by (intros f; unfold fun_vec; rewrite F; reflexivity). rewrite Q in V, O. split.
    + intros k. unfold coefficients. rewrite FV. apply V.
    + intros f Nf. split; [unfold fun_space; rewrite F; reflexivity|]. split; [apply FV|]. unfold coefficients. rewrite FV. apply O, Nf.
Qed.
Print Assumptions C67_wired.

(** A nested vector from before interpolate reads the new coefficients if assign copies entries *)
Theorem C67_still_wired : forall interp s u g s', interpolate false interp s u g = Ok s' -> nest_values s' (petsc_vec s u) = concat (map (coefficients s') (functions u)).
Proof.
  intros interp s u g s' H. unfold interpolate in H. destruct (_ =? _); cbn [py_assert bind] in H; [|discriminate]. rewrite items_all in H. cbn [bind] in H. injection H as <-. rewrite <- nest_values_spec. f_equal. unfold petsc_vec, vectors. apply map_ext. intros f. symmetry. apply in_place_vectors.
Qed.
Print Assumptions C67_still_wired.

(** It reads the old coefficients, whatever the sources, if assign makes the function refer to a copy *)
Theorem C67_wired_refuted : forall interp s u g s', valid s (functions u) -> interpolate true interp s u g = Ok s' -> nest_values s' (petsc_vec s u) = concat (map (coefficients s) (functions u)).
Proof.
  intros interp s u g s' Va H. unfold interpolate in H. destruct (_ =? _); cbn [py_assert bind] in H; [|discriminate]. rewrite items_all in H. cbn [bind] in H. injection H as <-. rewrite <- nest_values_spec. unfold nest_values. f_equal. apply map_ext_in. intros a I. unfold petsc_vec, vectors in I. apply in_map_iff in I. destruct I as [f [<- If]]. apply replaced_vectors, Va, If.
Qed.
Print Assumptions C67_wired_refuted.

(** randomize draws for each component as many numbers as it has coefficients, in place *)
Theorem C67_randomize : forall s u draw, valid s (functions u) -> apart s (functions u) -> let s' := randomize s u draw in
  (forall i, i < length (functions u) -> coefficients s' (nth i (functions u) 0) = draw i (length (coefficients s (nth i (functions u) 0)))) /\
  (forall f, (forall f', In f' (functions u) -> fun_vec s f <> fun_vec s f') -> same_fun s s' f) /\ petsc_vec s' u = petsc_vec s u.
Proof.
  intros s u draw Va A s'. unfold s', randomize. assert (L : length (seq 0 (length (functions u))) = length (vectors s u)) by (unfold vectors; rewrite seq_length, map_length; reflexivity).
  pose proof (randomize_loop draw (combine (seq 0 (length (functions u))) (vectors s u)) s) as H. cbv zeta in H. rewrite combine_snd in H by exact L. destruct H as [F [V O]]; [exact A| |].
  { intros [i a] P. apply in_combine_r in P. unfold vectors in P. apply in_map_iff in P. destruct P as [f [<- If]]. apply Va, If. }
  set (s2 := fold_left _ _ s) in *. assert (FV : forall f, fun_vec s2 f = fun_vec s f) by (intros f; unfold fun_vec; rewrite F; reflexivity). split; [|split].
  - intros i Hi. unfold coefficients. rewrite FV. specialize (V (i, fun_vec s (nth i (functions u) 0))). cbn [fst snd] in V. apply V.
    assert (Q : nth i (combine (seq 0 (length (functions u))) (vectors s u)) (0, fun_vec s 0) = (i, fun_vec s (nth i (functions u) 0))). { rewrite combine_nth by exact L. rewrite seq_nth by exact Hi. unfold vectors. rewrite map_nth. reflexivity. }
    rewrite <- Q. apply nth_In. rewrite combine_length, seq_length. unfold vectors. rewrite map_length. lia.
  - intros f D. split; [unfold fun_space; rewrite F; reflexivity|]. split; [apply FV|]. unfold coefficients. rewrite FV. apply O. intros I. unfold vectors in I. apply in_map_iff in I. destruct I as [f' [E If]]. exact (D f' If (eq_sym E)).
  - unfold petsc_vec, vectors. apply map_ext. exact FV.
Qed.
Print Assumptions C67_randomize.

(** Non-vacuity: two spaces; a function of the one given for the other; interpolation; exchange *)
Definition ex_V : space := {| sid := 1; sdim := 2 |}.
Definition ex_Q : space := {| sid := 2; sdim := 1 |}.
Definition ex_s : store := {| vecs := [[qz 1; qz 2]; [qz 3]; [qz 5; qz 6]]; funs := [(ex_V, 0); (ex_Q, 1); (ex_V, 2)] |}.
Definition ex_u : iifun := {| functions := [0; 1]; W := [ex_V; ex_Q] |}.
Example C67_example :
  valid ex_s (functions ex_u) /\ apart ex_s (functions ex_u) /\ NoDup (functions ex_u) /\ independent ex_s (functions ex_u) (Fun 2) /\
  init ex_s [ex_V; ex_Q] (Some [CFun 0; CFun 1]) = Ok (ex_s, ex_u) /\
  init ex_s [ex_V; ex_Q] (Some [CFun 1; CFun 0]) = Ok (ex_s, {| functions := [1; 0]; W := [ex_V; ex_Q] |}) /\
  init ex_s [ex_V; ex_Q] (Some [CVec 0; CVec 0]) = Err AssertionError /\
  match interpolate true (fun _ _ x => x) ex_s ex_u [Fun 2; Expr (fun _ => [qz 9])] with Ok s' => map (coefficients s') [0; 1; 2] | Err _ => [] end = [[qz 5; qz 6]; [qz 9]; [qz 5; qz 6]] /\
  match interpolate true (fun _ _ x => x) ex_s {| functions := [0; 2]; W := [ex_V; ex_V] |} [Fun 2; Fun 0] with Ok s' => map (coefficients s') [0; 2] | Err _ => [] end = [[qz 5; qz 6]; [qz 5; qz 6]].
Proof.
  split; [intros f [<- | [<- | []]]; cbn; lia|]. split; [repeat constructor; cbn; lia|]. split; [repeat constructor; cbn; lia|]. split; [cbn; repeat split; try lia; intros f' [<- | [<- | []]]; cbn; lia|].
  split; [reflexivity|]. split; [reflexivity|]. split; [reflexivity|]. split; vm_compute; reflexivity.
Qed.
