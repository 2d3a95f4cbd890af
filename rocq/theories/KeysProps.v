(** Property C93: caches of extensions, patch averages and interpolations *)
From Coq Require Import Lia.
From Verif Require Import Base Mat CacheModel CacheProofs KeysModel PatchModel PatchProps.
Local Open Scope nat_scope.

(** Patch averages: right as long as vertex_f and patch_f keep their values and are used with one
    colouring only *)
Definition settled (h : list (request patch_data)) : Prop := forall r r', In r h -> In r' h ->
  pd_vertex (q_data r) = pd_vertex (q_data r') -> pd_patch (q_data r) = pd_patch (q_data r') ->
  pd_coloring (q_data r) = pd_coloring (q_data r') /\ pd_values (q_data r) = pd_values (q_data r').
Theorem C93_patch_partial {Val} (G : space -> space -> nat -> patch_data -> res Val) h : well_named h -> settled h ->
  transparent patch_key (fun r => G (q_V r) (q_TV r) (q_mesh r) (q_data r)) h.
Proof.
  intros W S. apply transparent_if. intros r r' H H' K. unfold patch_key in K. injection K as E1 E1' E2 E2' E3 E4.
  destruct (space_key_eq h r r' W H H') as (-> & -> & ->); [unfold space_key; congruence..|]. apply onum_inj in E4.
  destruct (S r r' H H' E3 E4) as [E5 E6]. destruct (q_data r), (q_data r'). cbn in *. subst. reflexivity.
Qed.
(** False for two colourings: the averages by a colouring that is not one are returned without it -
    for the averages of the code *)
Definition two_colorings (d : patch_data) : res mat := patch_avg 2 3 two_patches (match pd_coloring d with None => None | Some _ => Some [(1, 0); (2, 0)] end) [1; 2].
Theorem C93_coloring_refuted : exists h, well_named h /\ ~ transparent patch_key (fun r => two_colorings (q_data r)) h.
Proof.
  set (r c := Req (Space 1 1 0) (Space 1 2 0) 2 (PatchData 3 (Some 4) c 0)). exists [r (Some 0); r None]. split.
  - split; [| intros x [<- | [<- | []]]; reflexivity]. intros x y V V' [<- | [<- | []]] [<- | [<- | []]] [-> | ->] [-> | ->]; cbn; intros E1 E2; congruence.
  - destruct C37_shared_dof_refuted as [A [B [HA [HB [E1 E2]]]]]. apply (not_transparent _ _ _ _ B); [reflexivity | exact HB |].
    unfold two_colorings. cbn [r q_data pd_coloring]. rewrite HA. intros E. assert (A = B) by congruence. subst. rewrite E1 in E2. vm_compute in E2. discriminate E2.
Qed.
(** and when vertex_f gets other values *)
Theorem C93_values_refuted : exists h, well_named h /\ (forall r, In r h -> pd_coloring (q_data r) = None) /\
  ~ transparent patch_key (fun r => patch_avg 2 3 two_patches None (if Nat.eqb (pd_values (q_data r)) 0 then [1; 2] else [2; 1])) h.
Proof.
  set (r v := Req (Space 1 1 0) (Space 1 2 0) 2 (PatchData 3 (Some 4) None v)). exists [r 0; r 1]. split; [| split; [intros x [<- | [<- | []]]; reflexivity |]].
  - split; [| intros x [<- | [<- | []]]; reflexivity]. intros x y V V' [<- | [<- | []]] [<- | [<- | []]] [-> | ->] [-> | ->]; cbn; intros E1 E2; congruence.
  - assert (K : exists A B, patch_avg 2 3 two_patches None [1; 2] = Ok A /\ patch_avg 2 3 two_patches None [2; 1] = Ok B /\ ent A 0 0 = qz 1 /\ ent B 0 0 = qz 0).
    { eexists. eexists. split; [reflexivity |]. split; [reflexivity |]. split; vm_compute; reflexivity. }
    destruct K as [A [B [HA [HB [E1 E2]]]]]. apply (not_transparent _ _ _ _ A); [reflexivity | exact HA |]. cbn [r q_data pd_values Nat.eqb]. rewrite HB. intros E. assert (A = B) by congruence. subst. rewrite E1 in E2. vm_compute in E2. discriminate E2.
Qed.

(** Extensions: names and values in turn can be told apart, so a cached matrix is the one of the
    same type and the same items *)
Lemma items_inj a : forall b, flat_map (fun kv : nat * katom => [KStr (fst kv); snd kv]) a = flat_map (fun kv : nat * katom => [KStr (fst kv); snd kv]) b -> a = b.
Proof.
  induction a as [| [k v] a IH]; intros [| [l w] b] E; try discriminate E; [reflexivity |]. cbn [flat_map fst snd app] in E. injection E as -> -> E. f_equal. apply IH. exact E.
Qed.
Theorem C93_extension_partial {Val} (G : space -> space -> nat -> ext_data -> res Val) h : well_named h ->
  (forall r, In r h -> e_items (q_data r) <> Some []) ->
  transparent ext_key (fun r => G (q_V r) (q_TV r) (q_mesh r) (q_data r)) h.
Proof.
  intros W NE. apply transparent_if. intros r r' H H' K. unfold ext_key in K. cbn [app] in K. injection K as E1 E1' E2 E2' E3 E4.
  destruct (space_key_eq h r r' W H H') as (-> & -> & ->); [unfold space_key; congruence..|].
  assert (ED : q_data r = q_data r').
  { pose proof (NE r H) as N1. pose proof (NE r' H') as N2. destruct (q_data r) as [t i], (q_data r') as [t' i']. cbn [e_type e_items] in *. subst t'. f_equal.
    destruct i as [[| kv i] |], i' as [[| kv' i'] |]; try congruence; try discriminate E4. f_equal. apply items_inj. exact E4. }
  rewrite ED. reflexivity.
Qed.
(** An empty dictionary is taken for None: a matrix of one serves the other *)
Theorem C93_empty_refuted : exists (G : ext_data -> res nat) h, well_named h /\ (forall t, G (ExtData t None) = Ok 0) /\ (forall t, G (ExtData t (Some [])) = Err KeyError) /\
  ~ transparent ext_key (fun r => G (q_data r)) h.
Proof.
  exists (fun d => match e_items d with None => Ok 0 | Some [] => Err KeyError | _ => Ok 1 end).
  set (r i := Req (Space 1 1 0) (Space 1 2 0) 2 (ExtData 1 i)). exists [r None; r (Some [])]. split; [| split; [reflexivity |]; split; [reflexivity |]].
  - split; [| intros x [<- | [<- | []]]; reflexivity]. intros x y V V' [<- | [<- | []]] [<- | [<- | []]] [-> | ->] [-> | ->]; cbn; intros E1 E2; congruence.
  - apply (not_transparent _ _ _ _ 0); [reflexivity | reflexivity | discriminate].
Qed.

(** Interpolations: right also when meshes get other numbers of cells under the same id *)
Definition numbered (h : list interp) : Prop := forall r r' V V' n n', In r h -> In r' h ->
  (V = i_V r /\ n = i_Vcells r \/ V = i_Q r /\ n = i_Qcells r) -> (V' = i_V r' /\ n' = i_Vcells r' \/ V' = i_Q r' /\ n' = i_Qcells r') ->
  s_elem V = s_elem V' -> s_mesh V = s_mesh V' -> n = n' -> V = V'.
Theorem C93_interpolation_partial {Val} (G : space -> space -> res Val) h : numbered h ->
  transparent interp_key (fun r => G (i_V r) (i_Q r)) h.
Proof.
  intros N. apply transparent_if. intros r r' H H' K. unfold interp_key, space_key in K. injection K as E1 E2 E3 E4 E5 E6. apply Nat2Z.inj in E3. apply Nat2Z.inj in E6.
  rewrite (N r r' (i_V r) (i_V r') (i_Vcells r) (i_Vcells r') H H'), (N r r' (i_Q r) (i_Q r') (i_Qcells r) (i_Qcells r') H H'); auto.
Qed.
(** not when a mesh is moved: the number of cells does not tell *)
Theorem C93_moved_refuted : exists (G : space -> space -> res nat) h, (forall V Q, G V Q = Ok (s_rest V)) /\ ~ transparent interp_key (fun r => G (i_V r) (i_Q r)) h.
Proof.
  exists (fun V _ => Ok (s_rest V)), [Interp (Space 1 1 0) 5 (Space 2 1 0) 5; Interp (Space 1 1 7) 5 (Space 2 1 7) 5]. split; [reflexivity |].
  apply (not_transparent _ _ _ _ 0); [reflexivity | reflexivity | discriminate].
Qed.

(** A mesh that is refined in place between two interpolations; extensions with two items *)
Example case_refined : numbered [Interp (Space 1 1 0) 5 (Space 2 1 0) 5; Interp (Space 1 1 7) 10 (Space 2 1 7) 10].
Proof.
  intros r r' V V' n n' [<- | [<- | []]] [<- | [<- | []]] [[-> ->] | [-> ->]] [[-> ->] | [-> ->]]; cbn; intros E1 E2 E3; congruence.
Qed.
Example case_extensions : well_named [Req (Space 1 1 0) (Space 1 2 0) 2 (ExtData 1 (Some [(0, KObj 3); (1, KNum 2)])); Req (Space 1 1 0) (Space 1 2 0) 2 (ExtData 1 (Some [(0, KObj 3)]))].
Proof. split; [| intros x [<- | [<- | []]]; reflexivity]. intros x y V V' [<- | [<- | []]] [<- | [<- | []]] [-> | ->] [-> | ->]; cbn; intros E1 E2; congruence. Qed.
Example case_settled : settled [Req (Space 1 1 0) (Space 1 2 0) 2 (PatchData 3 (Some 4) None 5); Req (Space 1 1 0) (Space 1 2 0) 2 (PatchData 3 None (Some 1) 5)].
Proof. intros r r' [<- | [<- | []]] [<- | [<- | []]]; cbn; intros E1 E2; try discriminate; auto. Qed.

Print Assumptions C93_patch_partial.
Print Assumptions C93_coloring_refuted.
Print Assumptions C93_values_refuted.
Print Assumptions C93_extension_partial.
Print Assumptions C93_empty_refuted.
Print Assumptions C93_interpolation_partial.
Print Assumptions C93_moved_refuted.
