(** C73: a uniform extension takes the value of the nearest dof. *)
From Verif Require Import Base Mat MatProofs UflModel BlockFormModel BlockFormProofs ReducedModel ExtensionModel ExtensionProofs.

Lemma uniform_inv V EV E : uniform_extension_matrix V EV = Ok E ->
  let cols := map (fun x => argmin (map (sqdist x) (f_pts V))) (f_pts EV) in
  let columns := match f_comps V with None => cols | Some n => flat_map (fun c => map (fun k => n * c + k) (seq 0 n)) cols end in
  f_gdim V = f_gdim EV /\ f_pts EV <> [] /\ f_pts V <> [] /\ f_dim EV <= length columns /\
  E = Mat (f_dim EV) (f_dim V) (fun i j => if j =? nth i columns 0 then q1 else q0).
Proof.
  unfold uniform_extension_matrix. destruct (f_gdim V =? f_gdim EV) eqn:Eg; cbn [negb]; [| discriminate]. apply Nat.eqb_eq in Eg.
  destruct (map (fun x => map (sqdist x) (f_pts V)) (f_pts EV)) as [| row rows] eqn:El; [discriminate |].
  destruct (existsb (existsb (qltb q0)) (row :: rows)) eqn:Ee; cbn [negb]; [| discriminate].
  rewrite <- El, map_map. set (columns := match f_comps V with None => _ | Some n => _ end).
  destruct (length columns <? f_dim EV) eqn:En; [discriminate |]. apply Nat.ltb_ge in En. intros E0. injection E0 as <-.
  cbv zeta. split; [exact Eg |]. split; [intros E1; rewrite E1 in El; discriminate El |].
  split; [| split; [exact En | reflexivity]].
  intros E1. rewrite <- El in Ee. rewrite E1 in Ee. apply existsb_exists in Ee. destruct Ee as (r & Hr & Hp).
  apply in_map_iff in Hr. destruct Hr as (x & <- & _). discriminate Hp.
Qed.

(** Scalar elements: every value of the extension is the value at the
    nearest point. *)
Theorem C73_uniform V EV E u i :
  f_comps V = None -> f_comps EV = None -> sound V -> sound EV -> uniform_extension_matrix V EV = Ok E -> i < f_dim EV ->
  nr E = f_dim EV /\ nc E = f_dim V /\
  exists k, nearest (f_pts V) (nth i (f_pts EV) []) k /\ vnth (mv E u) i = vnth u k.
Proof.
  intros Cv Ce Sv Se HE Hi. destruct (uniform_inv V EV E HE) as (Hg & Hne & Hnv & Hl & ->). rewrite Cv in *.
  split; [reflexivity |]. split; [reflexivity |].
  set (cols := map (fun x => argmin (map (sqdist x) (f_pts V))) (f_pts EV)) in *.
  assert (Hip : i < length (f_pts EV)) by (unfold f_dim in Hi; rewrite Ce in Hi; exact Hi).
  assert (Hn : nearest (f_pts V) (nth i (f_pts EV) []) (nth i cols 0)).
  { unfold cols. rewrite (nth_indep _ 0 (argmin (map (sqdist []) (f_pts V)))) by (rewrite map_length; exact Hip).
    rewrite (map_nth (fun x => argmin (map (sqdist x) (f_pts V)))). apply (argmin_nearest (f_pts V) _ (f_gdim V)); try assumption.
    unfold sound in Se. rewrite Forall_forall in Se. rewrite Hg. apply Se. apply nth_In. exact Hip. }
  exists (nth i cols 0). split; [exact Hn |]. apply (pick_mv (f_dim EV) (f_dim V) (fun i => nth i cols 0)); [exact Hi |].
  unfold f_dim. rewrite Cv. apply Hn.
Qed.
Print Assumptions C73_uniform.

(** Vector and tensor elements whose dofs are interleaved: the same component
    at the nearest point. *)
Theorem C73_components V EV E u n p k :
  interleaved V n -> interleaved EV n -> sound V -> sound EV -> uniform_extension_matrix V EV = Ok E ->
  p < length (f_pts EV) -> k < n ->
  f_dof EV (n * p + k) = (p, k) /\
  exists q j, nearest (f_pts V) (nth p (f_pts EV) []) q /\ f_dof V j = (q, k) /\ j < f_dim V /\ vnth (mv E u) (n * p + k) = vnth u j.
Proof.
  intros (Cv & Lv) (Ce & Le) Sv Se HE Hp Hk. destruct (uniform_inv V EV E HE) as (Hg & Hne & Hnv & Hl & ->). rewrite Cv in *.
  split; [apply Le; assumption |].
  set (cols := map (fun x => argmin (map (sqdist x) (f_pts V))) (f_pts EV)) in *.
  assert (Hn : nearest (f_pts V) (nth p (f_pts EV) []) (nth p cols 0)).
  { unfold cols. rewrite (nth_indep _ 0 (argmin (map (sqdist []) (f_pts V)))) by (rewrite map_length; exact Hp).
    rewrite (map_nth (fun x => argmin (map (sqdist x) (f_pts V)))). apply (argmin_nearest (f_pts V) _ (f_gdim V)); try assumption.
    unfold sound in Se. rewrite Forall_forall in Se. rewrite Hg. apply Se. apply nth_In. exact Hp. }
  assert (Hq : nth p cols 0 < length (f_pts V)) by apply Hn.
  assert (Hj : n * nth p cols 0 + k < f_dim V) by (unfold f_dim; rewrite Cv; nia).
  exists (nth p cols 0), (n * nth p cols 0 + k). split; [exact Hn |]. split; [apply Lv; assumption |]. split; [exact Hj |].
  set (columns := flat_map (fun c => map (fun k => n * c + k) (seq 0 n)) cols) in *.
  assert (Hc : nth (n * p + k) columns 0 = n * nth p cols 0 + k).
  { apply nth_interleaved; [unfold cols; rewrite map_length; exact Hp | exact Hk]. }
  rewrite <- Hc. apply (pick_mv (f_dim EV) (f_dim V) (fun i => nth i columns 0)).
  - unfold f_dim. rewrite Ce. nia.
  - rewrite Hc. exact Hj.
Qed.
Print Assumptions C73_components.

(** Where a point of the extended mesh is a point of the line the extension
    is the function. *)
Theorem C73_coincide V EV E u i k :
  f_comps V = None -> f_comps EV = None -> sound V -> sound EV -> NoDup (f_pts V) -> uniform_extension_matrix V EV = Ok E ->
  i < f_dim EV -> k < f_dim V -> nth i (f_pts EV) [] = nth k (f_pts V) [] -> vnth (mv E u) i = vnth u k.
Proof.
  intros Cv Ce Sv Se Hd HE Hi Hk Hx. destruct (C73_uniform V EV E u i Cv Ce Sv Se HE Hi) as (_ & _ & q & Hq & ->).
  assert (Hkp : k < length (f_pts V)) by (unfold f_dim in Hk; rewrite Cv in Hk; exact Hk).
  destruct Hq as (Q1 & Q2 & _). f_equal. apply (proj1 (NoDup_nth (f_pts V) []) Hd); [exact Q1 | exact Hkp |].
  assert (L : length (nth i (f_pts EV) []) = length (nth q (f_pts V) [])).
  { rewrite Hx. unfold sound in Sv. rewrite Forall_forall in Sv. rewrite !Sv by (apply nth_In; assumption). reflexivity. }
  transitivity (nth i (f_pts EV) []); [symmetry; apply d2_zero; [exact L |] | exact Hx].
  apply Qcle_antisym; [| apply d2_nonneg]. pose proof (Q2 k Hkp) as Q. rewrite <- Hx, d2_refl in Q. exact Q.
Qed.
Print Assumptions C73_coincide.

(** No new extrema; in particular constants are extended to constants. *)
Theorem C73_bounds V EV E u i a b :
  f_comps V = None -> f_comps EV = None -> sound V -> sound EV -> uniform_extension_matrix V EV = Ok E -> i < f_dim EV ->
  (forall k, k < f_dim V -> (a <= vnth u k)%Qc /\ (vnth u k <= b)%Qc) -> (a <= vnth (mv E u) i)%Qc /\ (vnth (mv E u) i <= b)%Qc.
Proof.
  intros Cv Ce Sv Se HE Hi H. destruct (C73_uniform V EV E u i Cv Ce Sv Se HE Hi) as (_ & _ & q & Hq & ->).
  apply H. unfold f_dim. rewrite Cv. apply Hq.
Qed.
Print Assumptions C73_bounds.

(** The matrix is there unless all points of both meshes coincide. *)
Theorem C73_returns V EV n :
  f_gdim V = f_gdim EV -> (f_comps V = None /\ f_comps EV = None \/ f_comps V = Some n /\ f_comps EV = Some n) ->
  sound V -> sound EV -> (exists x y, In x (f_pts EV) /\ In y (f_pts V) /\ x <> y) ->
  exists E, uniform_extension_matrix V EV = Ok E.
Proof.
  intros Hg Hc Sv Se (x & y & Hx & Hy & Hne). unfold uniform_extension_matrix. rewrite Hg, Nat.eqb_refl. cbn [negb].
  destruct (map (fun x => map (sqdist x) (f_pts V)) (f_pts EV)) as [| row rows] eqn:El.
  { apply map_eq_nil in El. rewrite El in Hx. destruct Hx. }
  rewrite <- El.
  assert (Hp : existsb (existsb (qltb q0)) (map (fun x => map (sqdist x) (f_pts V)) (f_pts EV)) = true).
  { apply existsb_exists. exists (map (sqdist x) (f_pts V)). split; [apply in_map_iff; exists x; split; [reflexivity | exact Hx] |].
    apply existsb_exists. exists (sqdist x y). split; [apply in_map; exact Hy |]. apply qltb_lt.
    unfold sound in *. rewrite Forall_forall in *.
    assert (L : length x = length y) by (rewrite (Sv y Hy), (Se x Hx); symmetry; exact Hg).
    rewrite sqdist_d2 by exact L. destruct (Qclt_le_dec q0 (d2 x y)) as [H | H]; [exact H |].
    exfalso. apply Hne. apply d2_zero; [exact L |]. apply Qcle_antisym; [exact H | apply d2_nonneg]. }
  rewrite Hp. cbn [negb]. rewrite map_map. set (cols := map (fun x => argmin (map (sqdist x) (f_pts V))) (f_pts EV)).
  assert (Hl : length cols = length (f_pts EV)) by (unfold cols; apply map_length).
  assert (Hd : f_dim EV <= length (match f_comps V with None => cols | Some n => flat_map (fun c => map (fun k => n * c + k) (seq 0 n)) cols end)).
  { destruct Hc as [(Cv & Ce) | (Cv & Ce)]; unfold f_dim; rewrite Cv, Ce; [lia | rewrite interleaved_length; lia]. }
  apply Nat.ltb_ge in Hd. rewrite Hd. eexists. reflexivity.
Qed.
Print Assumptions C73_returns.

(** A line with three points and a surface with two. *)
Definition pt (a b c : Z) : vec := [qz a; qz b; qz c].
Definition V1 := FSpace 0 1 3 0 1 None [pt 0 0 0; pt 1 0 0; pt 2 0 0] (fun i => (i, 0)).
Definition S1 := FSpace 1 2 3 0 1 None [pt 2 1 0; pt 1 0 0] (fun i => (i, 0)).
Example C73_ex :
  sound V1 /\ sound S1 /\ NoDup (f_pts V1) /\ (exists E, uniform_extension_matrix V1 S1 = Ok E /\ to_rows E = [[q0; q0; q1]; [q0; q1; q0]]).
Proof.
  split; [repeat constructor |]. split; [repeat constructor |].
  split. { repeat constructor; cbn; intros H; repeat (destruct H as [H | H]); try exact H; discriminate H. }
  eexists. split; reflexivity.
Qed.
Definition V2 := FSpace 0 1 3 0 1 (Some 2) [pt 0 0 0; pt 1 0 0] (fun i => (i / 2, i mod 2)).
Definition S2 := FSpace 1 2 3 0 1 (Some 2) [pt 1 1 0] (fun i => (i / 2, i mod 2)).
Example C73_components_ex :
  interleaved V2 2 /\ interleaved S2 2 /\ (exists E, uniform_extension_matrix V2 S2 = Ok E /\ to_rows E = [[q0; q0; q1; q0]; [q0; q0; q0; q1]]).
Proof.
  split; [| split].
  - split; [reflexivity |]. intros p k Hp Hk. cbn in Hp. destruct p as [| [| p]]; [| | lia]; destruct k as [| [| k]]; try lia; reflexivity.
  - split; [reflexivity |]. intros p k Hp Hk. cbn in Hp. destruct p as [| p]; [| lia]; destruct k as [| [| k]]; try lia; reflexivity.
  - eexists. split; reflexivity.
Qed.

(** "Make sure the two domains do not intersect" (81): they may. *)
Theorem C73_disjoint_refuted : exists V EV E x, uniform_extension_matrix V EV = Ok E /\ In x (f_pts V) /\ In x (f_pts EV).
Proof.
  exists V1, S1. eexists. exists (pt 1 0 0). split; [reflexivity |]. split; [right; left; reflexivity | right; left; reflexivity].
Qed.
Print Assumptions C73_disjoint_refuted.

(** With dofs numbered component by component (dolfin without reordering)
    the components are mixed. *)
Theorem C73_layout_refuted :
  exists V EV E u p k q, f_comps V = Some 2 /\ f_comps EV = Some 2 /\ sound V /\ sound EV /\ uniform_extension_matrix V EV = Ok E /\
    nearest (f_pts V) (nth p (f_pts EV) []) q /\
    exists i j, i < f_dim EV /\ j < f_dim V /\ f_dof EV i = (p, k) /\ f_dof V j = (q, k) /\ vnth (mv E u) i <> vnth u j.
Proof.
  exists (FSpace 0 1 3 0 1 (Some 2) [pt 0 0 0; pt 1 0 0] (fun i => (i mod 2, i / 2))),
         (FSpace 1 2 3 0 1 (Some 2) [pt 1 1 0; pt 0 1 0] (fun i => (i mod 2, i / 2))).
  eexists. exists [qz 1; qz 2; qz 3; qz 4], 0, 0, 1. split; [reflexivity |]. split; [reflexivity |].
  split; [repeat constructor |]. split; [repeat constructor |]. split; [reflexivity |]. split.
  - apply (argmin_nearest [pt 0 0 0; pt 1 0 0] (pt 1 1 0) 3); [discriminate | repeat constructor | reflexivity].
  - exists 0, 1. split; [cbn; lia |]. split; [cbn; lia |]. split; [reflexivity |]. split; [reflexivity |].
    intros E. vm_compute in E. discriminate E.
Qed.
Print Assumptions C73_layout_refuted.

(** Three components in the plane: the space of the extension has two
    (C71_extension), and the matrix is made with the columns of three. *)
Theorem C73_count_refuted :
  exists V EV E u p k q, interleaved V 3 /\ interleaved EV 2 /\ sound V /\ sound EV /\ uniform_extension_matrix V EV = Ok E /\
    nearest (f_pts V) (nth p (f_pts EV) []) q /\
    exists i j, i < f_dim EV /\ j < f_dim V /\ f_dof EV i = (p, k) /\ f_dof V j = (q, k) /\ vnth (mv E u) i <> vnth u j.
Proof.
  exists (FSpace 0 1 2 0 1 (Some 3) [[qz 0; qz 0]; [qz 1; qz 0]] (fun i => (i / 3, i mod 3))),
         (FSpace 1 2 2 0 1 (Some 2) [[qz 0; qz 1]; [qz 1; qz 1]] (fun i => (i / 2, i mod 2))).
  eexists. exists [qz 1; qz 2; qz 3; qz 4; qz 5; qz 6], 1, 0, 1.
  split. { split; [reflexivity |]. intros p k Hp Hk. cbn in Hp. destruct p as [| [| p]]; [| | lia]; destruct k as [| [| [| k]]]; try lia; reflexivity. }
  split. { split; [reflexivity |]. intros p k Hp Hk. cbn in Hp. destruct p as [| [| p]]; [| | lia]; destruct k as [| [| k]]; try lia; reflexivity. }
  split; [repeat constructor |]. split; [repeat constructor |]. split; [reflexivity |]. split.
  - apply (argmin_nearest [[qz 0; qz 0]; [qz 1; qz 0]] [qz 1; qz 1] 2); [discriminate | repeat constructor | reflexivity].
  - exists 2, 3. split; [cbn; lia |]. split; [cbn; lia |]. split; [reflexivity |]. split; [reflexivity |].
    intros E. vm_compute in E. discriminate E.
Qed.
Print Assumptions C73_count_refuted.

(** extension_mat: the spaces must agree; the uniform matrix is the one above. *)
Theorem C73_dispatch harmonic V EV m type r :
  extension_mat harmonic V EV m type = Ok r ->
  f_mesh EV = m /\ f_tdim V = 1 /\ (f_tdim EV = 1 \/ f_tdim EV = 2) /\ f_degree V = f_degree EV /\ f_family V = f_family EV /\
  f_gdim V = f_gdim EV /\ (f_gdim V = 2 \/ f_gdim V = 3) /\
  (type = 0 -> exists E, uniform_extension_matrix V EV = Ok E /\ r = Some E) /\ (2 <= type -> r = None).
Proof.
  unfold extension_mat.
  destruct (f_mesh EV =? m) eqn:E1; cbn [negb]; [| discriminate]. destruct (f_tdim V =? 1) eqn:E2; cbn [negb]; [| discriminate].
  destruct ((f_tdim EV =? 1) || (f_tdim EV =? 2)) eqn:E3; cbn [negb]; [| discriminate].
  destruct (f_degree V =? f_degree EV) eqn:E4; cbn [negb]; [| discriminate]. destruct (f_family V =? f_family EV) eqn:E5; cbn [negb]; [| discriminate].
  destruct (f_gdim V =? f_gdim EV) eqn:E6; cbn [negb]; [| discriminate].
  destruct ((f_gdim V =? 2) || (f_gdim V =? 3)) eqn:E7; cbn [negb]; [| discriminate].
  apply orb_true_iff in E3. apply orb_true_iff in E7. rewrite !Nat.eqb_eq in *. intros H.
  do 7 (split; [assumption |]). split.
  - intros ->. destruct (uniform_extension_matrix V EV) as [E | x]; cbn [bind] in H; [| discriminate H]. injection H as <-. exists E. split; reflexivity.
  - intros Ht. destruct type as [| [| type]]; [lia | lia |]. injection H as <-. reflexivity.
Qed.
Print Assumptions C73_dispatch.
Example C73_dispatch_ex : (exists E, extension_mat (fun _ _ => Err RuntimeError) V1 S1 1 0 = Ok (Some E)) /\
  extension_mat (fun _ _ => Err RuntimeError) V1 S1 0 0 = Err AssertionError.
Proof. split; [eexists; reflexivity | reflexivity]. Qed.

(** An unknown kind of extension is not an error: there is just no matrix. *)
Theorem C73_type_refuted : exists V EV m type harmonic, 2 <= type /\ extension_mat harmonic V EV m type = Ok None.
Proof. exists V1, S1, 1, 7, (fun _ _ => Err RuntimeError). split; [lia | reflexivity]. Qed.
Print Assumptions C73_type_refuted.

(** assemble does not know extensions: the module is commented out
    (xii_assembly.py:35).  A form whose functions carry no other mark and are
    on meshes of at most the dimension of the integral is handed to
    df.assemble as it is.  The mark extension_ is [AOther 8]. *)
Theorem C73_assemble_refuted w sp mt ord dfa n st f ar :
  arity f = Ok ar ->
  (forall i t, In i f -> In t (terminals (snd i)) ->
     a_trace t = None /\ a_restriction t = None /\ a_average t = None /\ (forall k, In k (map fst (a_other t)) -> k = 8) /\
     (t_tdim w t <= m_tdim w (w_imesh w (fst i)))%Z) ->
  xii_assemble w (modules w sp mt) ord dfa (S n) st f = dfa st f.
Proof.
  intros Ha H. cbn [xii_assemble]. rewrite Ha. cbn [bind].
  assert (O : forall t k, (forall j, In j (map fst (a_other t)) -> j = 8) -> k <> 8 -> hasattr t (AOther k) = false).
  { intros t k Ht Hk. unfold hasattr. cbn [getattr]. destruct (assoc k (a_other t)) eqn:E; [| reflexivity]. exfalso. apply Hk. apply Ht.
    revert E. clear. induction (a_other t) as [| (a, b) l IH]; cbn; [discriminate |]. destruct (k =? a) eqn:E; [apply Nat.eqb_eq in E; left; symmetry; exact E |].
    intros H. right. exact (IH H). }
  assert (G : forall A, In A (modules w sp mt) -> existsb (selects w A) f = false).
  { intros A HA. apply not_true_iff_false. intros Hs. apply existsb_exists in Hs. destruct Hs as (i & Hi & Hs).
    unfold selects in Hs. apply existsb_exists in Hs. destruct Hs as (t & Ht & Hs).
    assert (Ht' : In t (terminals (snd i))).
    { unfold unique_terminals in Ht. exact (set_of_In _ _ Ht). }
    destruct (H i t Hi Ht') as (T1 & T2 & T3 & T4 & T5). unfold modules in HA. cbn [In] in HA.
    repeat (destruct HA as [HA | HA]; [subst A; cbn [asm_sel trace_module transpose_trace_module average_module flux_average_module
      patch_average_module attr_module surface_mean_module restriction_module injection_module] in Hs;
      try rewrite (O t _ T4) in Hs by discriminate; unfold hasattr in Hs; cbn [getattr] in Hs; try rewrite T1 in Hs; try rewrite T2 in Hs; try rewrite T3 in Hs;
      rewrite ?andb_false_r in Hs; cbn [andb] in Hs; try discriminate Hs; try (apply Z.eqb_eq in Hs; lia) |]). destruct HA. }
  revert G. generalize (modules w sp mt) at 1 3. intros l G. 
  induction l as [| A l IH]; cbn [dispatch]; [reflexivity |]. rewrite (G A (or_introl eq_refl)). apply IH. intros B HB. apply G. right. exact HB.
Qed.
Print Assumptions C73_assemble_refuted.
(** Trial functions on a line extended to a surface, test functions on the
    surface. *)
Definition ext_world := World (fun V => V) (fun m => S m) (fun _ => 1) (fun _ => 1) (fun _ _ => 1) (fun V => V).
Definition ext_form : form := [(0, Node 0 [Leaf (Term (KArg 1 0) None None None [(8, 0)]); Leaf (Term (KArg 0 1) None None None [])])].
Example C73_assemble_ex :
  arity ext_form = Ok 2 /\
  (forall i t, In i ext_form -> In t (terminals (snd i)) ->
     a_trace t = None /\ a_restriction t = None /\ a_average t = None /\ (forall k, In k (map fst (a_other t)) -> k = 8) /\
     (t_tdim ext_world t <= m_tdim ext_world (w_imesh ext_world (fst i)))%Z) /\
  (exists i t, In i ext_form /\ In t (terminals (snd i)) /\ hasattr t (AOther 8) = true).
Proof.
  split; [reflexivity |]. split.
  - intros i t [<- | []] Ht. cbn in Ht. destruct Ht as [<- | [<- | []]]; cbn; repeat split; try lia; intros k Hk; repeat (destruct Hk as [<- | Hk]; [reflexivity |]); destruct Hk.
  - exists (0, Node 0 [Leaf (Term (KArg 1 0) None None None [(8, 0)]); Leaf (Term (KArg 0 1) None None None [])]), (Term (KArg 1 0) None None None [(8, 0)]).
    split; [left; reflexivity |]. split; [left; reflexivity | reflexivity].
Qed.
