(** Functions in several spaces: specification and lemmas (property C67) *)
From Verif Require Export FunctionModel.
From Verif Require Import FillProofs BaseProofs MatProofs ConvertProofs.
Local Close Scope Q_scope.
Local Close Scope Qc_scope.
Local Open Scope nat_scope.

(** ** Specification *)
(** Addresses that are in the store *)
Definition valid (s : store) (fs : list nat) : Prop :=
  forall f, In f fs -> f < length (funs s) /\ fun_vec s f < length (vecs s).
(** Function [f] is as it was *)
Definition same_fun (s s' : store) (f : nat) : Prop := fun_space s' f = fun_space s f /\ fun_vec s' f = fun_vec s f /\ coefficients s' f = coefficients s f.
(** No two functions of the list, and none of the others, share a vector *)
Definition apart (s : store) (fs : list nat) : Prop := NoDup (map (fun_vec s) fs).
(** The source has nothing to do with the functions *)
Definition independent (s : store) (fs : list nat) (g : source) : Prop :=
  match g with Expr _ => True | Fun f => f < length (funs s) /\ ~ In f fs /\ fun_vec s f < length (vecs s) /\ forall f', In f' fs -> fun_vec s f <> fun_vec s f' end.

(** ** Lemmas *)
Lemma zero_functions_spec spaces : forall s s' fs, zero_functions s spaces = (s', fs) ->
  fs = seq (length (funs s)) (length spaces) /\ (exists v, vecs s' = vecs s ++ v) /\ (exists u, funs s' = funs s ++ u) /\ length (vecs s') = length (vecs s) + length spaces /\
  forall i, i < length spaces -> fun_space s' (nth i fs 0) = nth i spaces no_space /\ fun_vec s' (nth i fs 0) = length (vecs s) + i /\ coefficients s' (nth i fs 0) = repeat q0 (sdim (nth i spaces no_space)).
Proof.
  induction spaces as [|V spaces IH]; intros s s' fs H; cbn [zero_functions] in H.
  - injection H as <- <-. split; [reflexivity|]. split; [exists []; rewrite app_nil_r; reflexivity|]. split; [exists []; rewrite app_nil_r; reflexivity|]. split; [cbn; lia|]. intros i Hi. cbn in Hi. lia.
  - cbn [new_vec new_fun] in H. set (s1 := {| vecs := _; funs := _ |}) in H. destruct (zero_functions s1 spaces) as [s2 fs2] eqn:Z. injection H as <- <-. destruct (IH s1 s2 fs2 Z) as [E [[v Ev] [[u Eu] [Lv V2]]]]. cbn [vecs funs s1] in E, Ev, Eu, Lv, V2. rewrite app_length in E, Lv. cbn [length] in E, Lv.
    split; [cbn [length seq]; rewrite E; f_equal; f_equal; lia|]. split; [eexists; rewrite Ev, <- app_assoc; reflexivity|]. split; [eexists; rewrite Eu, <- app_assoc; reflexivity|]. split; [cbn [length]; lia|].
    intros [|i] Hi; cbn [nth].
    + assert (F : nth (length (funs s)) (funs s2) (no_space, 0) = (V, length (vecs s))). { rewrite Eu, <- app_assoc. rewrite app_nth2 by lia. rewrite Nat.sub_diag. reflexivity. }
      unfold fun_space, coefficients, fun_vec. rewrite F. cbn [fst snd]. split; [reflexivity|]. split; [lia|]. unfold vec_at. rewrite Ev, <- app_assoc, app_nth2 by lia. rewrite Nat.sub_diag. reflexivity.
    + destruct (V2 i) as [A [B C]]; [cbn in Hi; lia|]. split; [exact A|]. split; [rewrite B, app_length; cbn; lia|exact C].
Qed.
Lemma wrap_vectors_spec pairs : forall s s' fs, wrap_vectors s pairs = (s', fs) ->
  fs = seq (length (funs s)) (length pairs) /\ vecs s' = vecs s /\ (exists u, funs s' = funs s ++ u) /\
  forall i, i < length pairs -> fun_space s' (nth i fs 0) = snd (nth i pairs (0, no_space)) /\ fun_vec s' (nth i fs 0) = fst (nth i pairs (0, no_space)).
Proof.
  induction pairs as [|[a V] pairs IH]; intros s s' fs H; cbn [wrap_vectors] in H.
  - injection H as <- <-. split; [reflexivity|]. split; [reflexivity|]. split; [exists []; rewrite app_nil_r; reflexivity|]. intros i Hi. cbn in Hi. lia.
  - cbn [new_fun] in H. set (s1 := {| vecs := _; funs := _ |}) in H. destruct (wrap_vectors s1 pairs) as [s2 fs2] eqn:Z. injection H as <- <-. destruct (IH s1 s2 fs2 Z) as [E [Ev [[u Eu] V2]]]. cbn [vecs funs s1] in E, Ev, Eu. rewrite app_length in E. cbn [length] in E.
    split; [cbn [length seq]; rewrite E; f_equal; f_equal; lia|]. split; [exact Ev|]. split; [eexists; rewrite Eu, <- app_assoc; reflexivity|].
    intros [|i] Hi; cbn [nth]; [|apply V2; cbn in Hi; lia].
    assert (F : nth (length (funs s)) (funs s2) (no_space, 0) = (V, a)). { rewrite Eu, <- app_assoc. rewrite app_nth2 by lia. rewrite Nat.sub_diag. reflexivity. }
    unfold fun_space, fun_vec. rewrite F. split; reflexivity.
Qed.
Lemma check_sizes_spec s pairs : forall r, check_sizes s pairs = Ok r <-> (map fst pairs = map CVec (map fst r) /\ map snd pairs = map snd r /\ forall p, In p r -> length (vec_at s (fst p)) = sdim (snd p)).
Proof.
  induction pairs as [|[c V] pairs IH]; intros r; cbn [check_sizes].
  - split; [intros H; injection H as <-; repeat split; intros p []|]. intros [A [B _]]. destruct r; [reflexivity|discriminate].
  - destruct c as [f|a]; [split; [discriminate|intros [A _]; destruct r; discriminate]|]. split.
    + destruct (Nat.eqb_spec (length (vec_at s a)) (sdim V)) as [L|]; cbn [py_assert bind]; [|discriminate]. destruct (check_sizes s pairs) as [r'|]; [cbn [bind]|discriminate]. intros H. injection H as <-. destruct (proj1 (IH r') eq_refl) as [A [B C]]. cbn [map fst snd]. rewrite A, B. split; [reflexivity|split; [reflexivity|]]. intros p [<- | P]; [exact L|apply C, P].
    + intros [A [B C]]. destruct r as [|[a' V'] r]; [discriminate|]. cbn [map fst snd] in A, B. injection A as -> A. injection B as -> B. assert (L := C (a', V') (or_introl eq_refl)). cbn [fst snd] in L. rewrite L, Nat.eqb_refl. cbn [py_assert bind].
      rewrite (proj2 (IH r)); [reflexivity|]. split; [exact A|split; [exact B|]]. intros p P. apply C. right. exact P.
Qed.
Lemma items_all u : items u = Ok (functions u).
Proof.
  unfold items. assert (H : forall l i, (forall k, k < length l -> nth_error (functions u) (i + k) = nth_error l k) -> i + length l <= length (functions u) -> mapM (fun i => getitem u (Z.of_nat i)) (seq i (length l)) = Ok l).
  { induction l as [|f l IH]; intros i E L; [reflexivity|]. cbn [length seq]. rewrite mapM_cons. cbn [length] in L. unfold getitem at 1. replace (((0 <=? Z.of_nat i) && (Z.of_nat i <? Z.of_nat (length (functions u))))%Z) with true by lia. cbn [py_assert bind]. rewrite Nat2Z.id. specialize (E 0 ltac:(cbn; lia)) as E0. rewrite Nat.add_0_r in E0. rewrite E0. cbn [nth_error opt_res bind].
    rewrite IH; [reflexivity| |lia]. intros k Hk. specialize (E (S k)). cbn [length nth_error] in E. rewrite <- E by lia. f_equal. lia. }
  apply H; [reflexivity|lia].
Qed.
Lemma getitem_spec u i : getitem u i = if ((0 <=? i) && (i <? Z.of_nat (length (functions u))))%Z then Ok (nth (Z.to_nat i) (functions u) 0) else Err AssertionError.
Proof.
  unfold getitem. destruct ((0 <=? i) && _)%Z eqn:E; cbn [py_assert bind]; [|reflexivity]. rewrite (nth_error_nth' (functions u) 0) by lia. reflexivity.
Qed.
Section Interpolate.
Variable replaces : bool.
Variable interp : space -> space -> vec -> vec.
Notation assign := (assign_interpolant replaces interp).
Lemma assign_this s f g : f < length (funs s) -> fun_vec s f < length (vecs s) -> let s' := assign s f g in
  fun_space s' f = fun_space s f /\ coefficients s' f = interpolant interp s g (fun_space s f) /\ fun_vec s' f < length (vecs s') /\ length (funs s') = length (funs s) /\ length (vecs s) <= length (vecs s').
Proof.
  intros Hf Hv s'. subst s'. unfold assign_interpolant. destruct replaces.
  - assert (E : nth f (set_nth (funs s) f (fun_space s f, length (vecs s))) (no_space, 0) = (fun_space s f, length (vecs s))). { rewrite nth_set_nth, Nat.eqb_refl. apply Nat.ltb_lt in Hf. rewrite Hf. reflexivity. }
    unfold coefficients, fun_vec. unfold fun_space at 1. cbn [funs vecs vec_at]. rewrite E. cbn [fst snd]. split; [reflexivity|]. split; [unfold vec_at; cbn [vecs]; rewrite app_nth2, Nat.sub_diag by lia; reflexivity|]. rewrite app_length. cbn [length]. split; [lia|]. split; [apply set_nth_length|lia].
  - unfold set_vec. split; [reflexivity|]. split.
    + unfold coefficients, vec_at, fun_vec. cbn [vecs funs]. rewrite nth_set_nth, Nat.eqb_refl. fold (fun_vec s f). apply Nat.ltb_lt in Hv. rewrite Hv. reflexivity.
    + cbn [vecs funs]. rewrite set_nth_length. unfold fun_vec. cbn [funs]. fold (fun_vec s f). lia.
Qed.
Lemma assign_other s f g f' : f' <> f -> fun_vec s f' < length (vecs s) -> fun_vec s f' <> fun_vec s f -> same_fun s (assign s f g) f'.
Proof.
  intros N Hv Nv. unfold assign_interpolant. destruct replaces.
  - set (V := fun_space s f). set (x := interpolant interp s g V). assert (E : nth f' (set_nth (funs s) f (V, length (vecs s))) (no_space, 0) = nth f' (funs s) (no_space, 0)). { rewrite nth_set_nth. destruct (Nat.eqb_spec f' f); [congruence|reflexivity]. }
    unfold same_fun, coefficients, fun_space, fun_vec. cbn [funs vecs vec_at]. rewrite E. split; [reflexivity|split; [reflexivity|]]. unfold vec_at. cbn [vecs]. fold (fun_vec s f'). apply app_nth1. exact Hv.
  - unfold same_fun, set_vec. split; [reflexivity|split; [reflexivity|]]. unfold coefficients, vec_at, fun_vec. cbn [vecs funs]. rewrite nth_set_nth. fold (fun_vec s f) (fun_vec s f'). destruct (Nat.eqb_spec (fun_vec s f') (fun_vec s f)); [congruence|reflexivity].
Qed.
Lemma interpolant_same s s' g V : match g with Expr _ => True | Fun f => same_fun s s' f end -> interpolant interp s' g V = interpolant interp s g V.
Proof. destruct g as [values|f]; [reflexivity|]. intros [A [_ C]]. cbn [interpolant]. rewrite A, C. reflexivity. Qed.
(** One after the other, the sources being independent of all of the functions *)
Lemma interpolate_loop ps : forall s, let fs := map fst ps in
  valid s fs -> NoDup fs -> apart s fs -> (forall p, In p ps -> independent s fs (snd p)) ->
  let s' := fold_left (fun s p => assign s (fst p) (snd p)) ps s in
  (forall p, In p ps -> fun_space s' (fst p) = fun_space s (fst p) /\ coefficients s' (fst p) = interpolant interp s (snd p) (fun_space s (fst p))) /\
  (forall f, ~ In f fs -> fun_vec s f < length (vecs s) -> (forall f', In f' fs -> fun_vec s f <> fun_vec s f') -> same_fun s s' f).
Proof.
  induction ps as [|[f g] ps IH]; intros s fs Va N A I s'; subst fs s'; cbn [map fst snd fold_left] in *; [split; [intros p []|intros f _ _ _; repeat split]|].
  inversion N as [|? ? Nf N']; subst. unfold apart in A. cbn [map] in A. inversion A as [|? ? Na A']; subst. destruct (Va f (or_introl eq_refl)) as [Hf Hv].
  destruct (assign_this s f g Hf Hv) as [T1 [T2 [T3 [T4 T5]]]]. set (s1 := assign s f g) in *.
  assert (O : forall f', f' <> f -> fun_vec s f' < length (vecs s) -> fun_vec s f' <> fun_vec s f -> same_fun s s1 f') by (intros; apply assign_other; assumption).
  assert (In_ps : forall f', In f' (map fst ps) -> f' <> f /\ fun_vec s f' < length (vecs s) /\ fun_vec s f' <> fun_vec s f).
  { intros f' F. split; [intros ->; contradiction|]. split; [apply Va; right; exact F|]. intros E. apply Na. rewrite <- E. apply in_map, F. }
  assert (O' : forall f', In f' (map fst ps) -> same_fun s s1 f') by (intros f' F; destruct (In_ps f' F) as [P [Q R]]; apply O; assumption).
  destruct (IH s1) as [R1 R2].
  - intros f' F. rewrite T4. destruct (O' f' F) as [_ [E _]]. rewrite E. destruct (Va f' (or_intror F)). lia.
  - exact N'.
  - unfold apart. replace (map (fun_vec s1) (map fst ps)) with (map (fun_vec s) (map fst ps)); [exact A'|]. apply map_ext_in. intros f' F. symmetry. apply O', F.
  - intros p P. specialize (I p (or_intror P)). unfold independent in *. destruct (snd p) as [|f']; [exact I|]. destruct I as [I1 [I2 [I3 I4]]]. assert (S : same_fun s s1 f') by (apply O; [intros ->; apply I2; left; reflexivity|exact I3|apply I4; left; reflexivity]). destruct S as [_ [S _]]. rewrite T4, S.
    split; [exact I1|]. split; [intros K; apply I2; right; exact K|]. split; [lia|]. intros f'' F. destruct (O' f'' F) as [_ [E _]]. rewrite E. apply I4. right. exact F.
  - split.
    + intros p [<- | P].
      * cbn [fst snd]. assert (S : same_fun s1 (fold_left (fun s p => assign s (fst p) (snd p)) ps s1) f).
        { apply R2; [exact Nf|exact T3|]. intros f' F. destruct (O' f' F) as [_ [E _]]. rewrite E. unfold s1, assign_interpolant. destruct (In_ps f' F) as [_ [Q R]]. destruct replaces.
          - unfold fun_vec at 1. cbn [funs]. rewrite nth_set_nth, Nat.eqb_refl. apply Nat.ltb_lt in Hf. rewrite Hf. cbn [andb snd]. lia.
          - cbn [set_vec]. change (fun_vec s f <> fun_vec s f'). congruence. }
        destruct S as [S1 [_ S3]]. rewrite S1, S3, T1, T2. split; reflexivity.
      * destruct (R1 p P) as [E1 E2]. destruct (O' (fst p) (in_map fst ps p P)) as [S1 _]. rewrite E1, E2, S1. split; [reflexivity|]. apply interpolant_same. specialize (I p (or_intror P)). destruct (snd p) as [|f']; [exact Logic.I|]. destruct I as [I1 [I2 [I3 I4]]]. apply O; [intros ->; apply I2; left; reflexivity|exact I3|apply I4; left; reflexivity].
    + intros f' F Hv' D. assert (S : same_fun s s1 f') by (apply O; [intros ->; apply F; left; reflexivity|exact Hv'|apply D; left; reflexivity]).
      assert (S2 : same_fun s1 (fold_left (fun s p => assign s (fst p) (snd p)) ps s1) f').
      { destruct S as [_ [E _]]. apply R2; [intros K; apply F; right; exact K|rewrite E; lia|]. intros f'' F''. destruct (O' f'' F'') as [_ [E'' _]]. rewrite E, E''. apply D. right. exact F''. }
      destruct S as [A1 [A2 A3]], S2 as [B1 [B2 B3]]. split; [congruence|split; congruence].
Qed.
End Interpolate.
Lemma combine_fst {X Y} (l : list X) : forall (r : list Y), length l = length r -> map fst (combine l r) = l.
Proof. induction l as [|x l IH]; intros [|y r] E; cbn in *; try reflexivity; try discriminate. f_equal. apply IH. lia. Qed.
Lemma combine_snd {X Y} (l : list X) : forall (r : list Y), length l = length r -> map snd (combine l r) = r.
Proof. induction l as [|x l IH]; intros [|y r] E; cbn in *; try reflexivity; try discriminate. f_equal. apply IH. lia. Qed.
Lemma in_place_vectors interp ps : forall s f, fun_vec (fold_left (fun s p => assign_interpolant false interp s (fst p) (snd p)) ps s) f = fun_vec s f.
Proof. induction ps as [|p ps IH]; intros s f; [reflexivity|]. cbn [fold_left]. rewrite IH. reflexivity. Qed.
Lemma replaced_vectors interp ps : forall s a, a < length (vecs s) -> vec_at (fold_left (fun s p => assign_interpolant true interp s (fst p) (snd p)) ps s) a = vec_at s a.
Proof.
  induction ps as [|p ps IH]; intros s a H; [reflexivity|]. cbn [fold_left]. rewrite IH.
  - unfold assign_interpolant, vec_at. cbn [vecs]. apply app_nth1. exact H.
  - unfold assign_interpolant. cbn [vecs]. rewrite app_length. lia.
Qed.
Lemma nest_values_spec s u : nest_values s (petsc_vec s u) = concat (map (coefficients s) (functions u)).
Proof. unfold nest_values, petsc_vec, vectors. rewrite map_map. reflexivity. Qed.
(** Writing an entry of the nested vector: entry [r] of part [i] *)
Lemma nest_set_spec nest : forall s i r v, NoDup nest -> (forall a, In a nest -> a < length (vecs s)) -> i < length nest -> r < length (vec_at s (nth i nest 0)) ->
  exists s', nest_set s nest (list_sum (map (fun a => length (vec_at s a)) (firstn i nest)) + r) v = Ok s' /\ funs s' = funs s /\
    (forall k, vnth (vec_at s' (nth i nest 0)) k = if k =? r then v else vnth (vec_at s (nth i nest 0)) k) /\ (forall a, a <> nth i nest 0 -> vec_at s' a = vec_at s a).
Proof.
  induction nest as [|a nest IH]; intros s i r v N R Hi Hr; [cbn in Hi; lia|]. inversion N as [|? ? Na N']; subst. destruct i as [|i]; cbn [nth firstn map] in *.
  - cbn [list_sum fold_right Nat.add nest_set]. apply Nat.ltb_lt in Hr as Hr'. rewrite Hr'. eexists. split; [reflexivity|]. split; [reflexivity|]. split.
    + intros k. unfold vec_at at 1, set_vec. cbn [vecs]. rewrite nth_set_nth, Nat.eqb_refl. assert (Ha : a < length (vecs s)) by (apply R; left; reflexivity). apply Nat.ltb_lt in Ha. rewrite Ha. cbn [andb]. unfold vnth. rewrite nth_set_nth, Hr'. rewrite andb_true_r. reflexivity.
    + intros b Nb. unfold vec_at, set_vec. cbn [vecs]. rewrite nth_set_nth. destruct (Nat.eqb_spec b a); [congruence|reflexivity].
  - change (list_sum (length (vec_at s a) :: map (fun a => length (vec_at s a)) (firstn i nest))) with (length (vec_at s a) + list_sum (map (fun a => length (vec_at s a)) (firstn i nest))). cbn [nest_set]. destruct (Nat.ltb_spec (length (vec_at s a) + list_sum (map (fun a => length (vec_at s a)) (firstn i nest)) + r) (length (vec_at s a))); [lia|].
    replace (length (vec_at s a) + list_sum (map (fun a => length (vec_at s a)) (firstn i nest)) + r - length (vec_at s a)) with (list_sum (map (fun a => length (vec_at s a)) (firstn i nest)) + r) by lia. apply IH; [exact N'|intros b B; apply R; right; exact B|cbn in Hi; lia|exact Hr].
Qed.
Lemma randomize_loop (draw : nat -> nat -> vec) (ps : list (nat * nat)) : forall s, NoDup (map snd ps) -> (forall p, In p ps -> snd p < length (vecs s)) -> let s' := fold_left (fun s p => set_vec s (snd p) (draw (fst p) (length (vec_at s (snd p))))) ps s in
  funs s' = funs s /\ (forall p, In p ps -> vec_at s' (snd p) = draw (fst p) (length (vec_at s (snd p)))) /\ (forall a, ~ In a (map snd ps) -> vec_at s' a = vec_at s a).
Proof.
  induction ps as [|[i a] ps IH]; intros s N R s'; subst s'; cbn [fold_left map fst snd] in *; [split; [reflexivity|split; [intros p []|reflexivity]]|]. inversion N as [|? ? Na N']; subst. set (s1 := set_vec s a _).
  assert (O : forall b, b <> a -> vec_at s1 b = vec_at s b). { intros b Nb. unfold s1, vec_at, set_vec. cbn [vecs]. rewrite nth_set_nth. destruct (Nat.eqb_spec b a); [congruence|reflexivity]. }
  assert (Ha : a < length (vecs s)) by (apply (R (i, a)); left; reflexivity).
  destruct (IH s1 N') as [E [V K]]; [intros p P; unfold s1, set_vec; cbn [vecs]; rewrite set_nth_length; apply R; right; exact P|]. split; [exact E|]. split.
  - intros p [<- | P]; cbn [fst snd].
    + rewrite K by exact Na. unfold s1, set_vec. unfold vec_at at 1. cbn [vecs]. rewrite nth_set_nth, Nat.eqb_refl. apply Nat.ltb_lt in Ha. rewrite Ha. reflexivity.
    + rewrite (V p P), O; [reflexivity|]. intros E'. apply Na. rewrite <- E'. apply in_map, P.
  - intros b Nb. rewrite K by (intros B; apply Nb; right; exact B). apply O. intros ->. apply Nb. left. reflexivity.
Qed.
