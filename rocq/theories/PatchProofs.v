(** Specification vocabulary and proofs for PatchModel.v. *)
From Verif Require Import Base BaseProofs Mat MatProofs FillModel FillProofs PatchModel.
From Coq Require Import Permutation.
Local Open Scope nat_scope.
Local Close Scope Q_scope.
Local Close Scope Qc_scope.

(** ** Specification *)

(** The integral of basis function [d] over the cells with a mark, their volume,
    and the average. *)
Definition int_of (c : pcell) (d : nat) : Qc := qsum (map (fun dv => if fst dv =? d then snd dv else q0) (pc_ints c)).
Definition patch_int (cells : list pcell) (color d : nat) : Qc := qsum (map (fun c => if pc_mark c =? color then int_of c d else q0) cells).
Definition patch_vol (cells : list pcell) (color : nat) : Qc := qsum (map (fun c => if pc_mark c =? color then pc_vol c else q0) cells).
Definition patch_mean (cells : list pcell) (color d : nat) : Qc := (patch_int cells color d / patch_vol cells color)%Qc.
(** Two patches have no dof in common. *)
Definition dof_disjoint (cells : list pcell) (c1 c2 : nat) : Prop :=
  forall p q d, In p cells -> In q cells -> pc_mark p = c1 -> pc_mark q = c2 -> In d (map fst (pc_ints p)) -> In d (map fst (pc_ints q)) -> False.
(** [coloring] gives different patches of one group no common dofs. *)
Definition proper (cells : list pcell) (coloring : list (nat * nat)) (ids : list nat) : Prop :=
  forall c1 c2 g, In c1 ids -> In c2 ids -> c1 <> c2 -> In (c1, g) coloring -> In (c2, g) coloring -> dof_disjoint cells c1 c2.
Definition first_row (ids : list nat) (color i : nat) : Prop := nth_error ids i = Some color /\ forall k, k < i -> nth_error ids k <> Some color.

(** ** Assembly *)
Lemma contribution_int c d : contribution c d = int_of c d.
Proof. unfold contribution. rewrite qplus_qsum. reflexivity. Qed.
Lemma int_of_notin c d : ~ In d (map fst (pc_ints c)) -> int_of c d = q0.
Proof.
  intros N. apply qsum_zero. intros [d' v] H. cbn [fst snd]. destruct (Nat.eqb_spec d' d) as [->|]; [|reflexivity]. exfalso. apply N. apply in_map_iff. exists (d, v). auto.
Qed.
Lemma combine_map_r {A B} (f : A -> B) l : combine l (map f l) = map (fun x => (x, f x)) l.
Proof. induction l as [|x l IH]; cbn; [reflexivity|]. rewrite IH. reflexivity. Qed.
Lemma mark_patch_map cells color f : mark_patch cells color (map f cells) = map (fun c => (pc_mark c =? color) || f c) cells.
Proof. unfold mark_patch. rewrite combine_map_r, map_map. reflexivity. Qed.
Lemma mark_patches cells colors f : fold_left (fun chi color => mark_patch cells color chi) colors (map f cells) = map (fun c => f c || existsb (Nat.eqb (pc_mark c)) colors) cells.
Proof.
  revert f. induction colors as [|color colors IH]; intros f; cbn [fold_left existsb].
  - apply map_ext. intros c. rewrite orb_false_r. reflexivity.
  - rewrite mark_patch_map, (IH (fun c => (pc_mark c =? color) || f c)). apply map_ext. intros c. rewrite orb_assoc, (orb_comm (f c)). reflexivity.
Qed.
Lemma assemble_map cells f d : assemble_chi cells (map f cells) d = qsum (map (fun c => if f c then int_of c d else q0) cells).
Proof. unfold assemble_chi. rewrite qplus_qsum, combine_map_r, map_map. apply qsum_ext. intros c _. cbn [fst snd]. rewrite contribution_int. reflexivity. Qed.
Lemma filter_qsum {A} (p : A -> bool) (f : A -> Qc) l : qsum (map f (filter p l)) = qsum (map (fun x => if p x then f x else q0) l).
Proof. induction l as [|x l IH]; [reflexivity|]. cbn [filter]. destruct (p x) eqn:E; cbn [map qsum]; rewrite E, IH; [reflexivity|]. unfold q0. ring. Qed.
Lemma patch_volume_vol cells color : patch_volume cells color = patch_vol cells color.
Proof. unfold patch_volume, patch. rewrite qplus_qsum. apply filter_qsum. Qed.
Lemma patch_dofs_ok cells color ds : patch_dofs cells color = Ok ds -> NoDup ds /\ forall d, In d ds <-> exists c, In c cells /\ pc_mark c = color /\ In d (map fst (pc_ints c)).
Proof.
  unfold patch_dofs. intros E. assert (H : ds = nodup Nat.eq_dec (flat_map (fun c => map fst (pc_ints c)) (patch cells color))) by (destruct (patch cells color); congruence).
  subst ds. split; [apply NoDup_nodup|]. intros d. rewrite nodup_In, in_flat_map. unfold patch. split; intros (c & H).
  - destruct H as [H1 H2]. apply filter_In in H1. destruct H1 as [H1 H3]. apply Nat.eqb_eq in H3. eauto.
  - destruct H as (H1 & H2 & H3). exists c. split; [|assumption]. apply filter_In. split; [assumption|]. apply Nat.eqb_eq, H2.
Qed.
Lemma patch_dofs_total cells color : (exists ds, patch_dofs cells color = Ok ds) <-> exists c, In c cells /\ pc_mark c = color.
Proof.
  unfold patch_dofs. destruct (patch cells color) as [|c p] eqn:E.
  - split; [intros (ds & H); discriminate|]. intros (c & H1 & H2). exfalso. assert (In c (patch cells color)) as H by (apply filter_In; split; [assumption|apply Nat.eqb_eq, H2]). rewrite E in H. destruct H.
  - split; [|eauto]. intros _. exists c. assert (In c (patch cells color)) as H by (rewrite E; left; reflexivity). apply filter_In in H. destruct H as [H1 H2]. apply Nat.eqb_eq in H2. auto.
Qed.
Lemma patch_int_notin cells color d : (forall c, In c cells -> pc_mark c = color -> ~ In d (map fst (pc_ints c))) -> patch_int cells color d = q0.
Proof. intros H. apply qsum_zero. intros c Hc. destruct (Nat.eqb_spec (pc_mark c) color) as [E|]; [|reflexivity]. apply int_of_notin, H; assumption. Qed.

(** The entries of one row's triples *)
Lemma coo_row row ds (f : nat -> Qc) i j : NoDup ds -> coo_ent (map (fun d => (row, d, f d)) ds) i j = if (row =? i) && existsb (Nat.eqb j) ds then f j else q0.
Proof.
  intros ND. unfold coo_ent. rewrite qplus_qsum, map_map. cbn [fst snd]. destruct (row =? i); cbn [andb].
  - induction ds as [|d ds IH]; [reflexivity|]. inversion ND as [|? ? N1 N2]; subst. cbn [map qsum existsb]. rewrite IH by assumption. rewrite (Nat.eqb_sym j d).
    destruct (Nat.eqb_spec d j) as [->|]; cbn [orb]; [|unfold q0; ring].
    destruct (existsb (Nat.eqb j) ds) eqn:E; [exfalso; apply N1, existsb_nat, E|unfold q0; ring].
  - apply qsum_zero. reflexivity.
Qed.
Lemma coo_concat l i j : coo_ent (concat l) i j = qsum (map (fun ts => coo_ent ts i j) l).
Proof. rewrite <- (map_id l) at 1. rewrite <- flat_map_concat. apply coo_flat_map. Qed.

(** ** One patch at a time *)
Lemma plain_row_ent cells row color ts i j : plain_row cells (row, color) = Ok ts ->
  coo_ent ts i j = if (row =? i) && negb (color =? 0) then patch_mean cells color j else q0.
Proof.
  cbn [plain_row]. destruct (color =? 0) eqn:C0; [intros E; injection E as <-; rewrite andb_false_r; reflexivity|]. destruct (patch_dofs cells color) as [ds|] eqn:D; [|discriminate]. cbn [bind]. intros E. injection E as <-.
  destruct (patch_dofs_ok _ _ _ D) as [ND IN]. rewrite coo_row by assumption. rewrite andb_true_r. destruct (row =? i); cbn [andb]; [|reflexivity].
  unfold no_chi. rewrite mark_patch_map, assemble_map, patch_volume_vol.
  destruct (existsb (Nat.eqb j) ds) eqn:E.
  - unfold patch_mean, patch_int. do 2 f_equal. apply map_ext. intros c. rewrite orb_false_r. reflexivity.
  - unfold patch_mean. rewrite patch_int_notin; [unfold q0, Qcdiv; ring|]. intros c Hc Mc Hd. assert (existsb (Nat.eqb j) ds = true) by (apply existsb_nat, IN; eauto). congruence.
Qed.
Lemma plain_entries m n cells ids A i j color : plain_matrix m n cells ids = Ok A -> nth_error ids i = Some color ->
  ent A i j = if color =? 0 then q0 else patch_mean cells color j.
Proof.
  unfold plain_matrix. destruct (mapM (plain_row cells) (combine (seq 0 (length ids)) ids)) as [rows|] eqn:E; [|discriminate]. cbn [bind]. intros EA Hi. assert (A = coo m n (concat rows)) by congruence. subst A. clear EA. cbn [ent coo]. rewrite coo_concat.
  assert (H : forall l rows, mapM (plain_row cells) l = Ok rows -> qsum (map (fun ts => coo_ent ts i j) rows) = qsum (map (fun rc => if (fst rc =? i) && negb (snd rc =? 0) then patch_mean cells (snd rc) j else q0) l)).
  { clear. induction l as [|[r c] l IH]; intros rows E; [injection E as <-; reflexivity|]. rewrite mapM_cons in E. destruct (plain_row cells (r, c)) as [ts|] eqn:E1; [|discriminate]. destruct (mapM (plain_row cells) l) as [tl|] eqn:E2; [|discriminate]. injection E as <-. cbn [map qsum]. rewrite (IH tl eq_refl), (plain_row_ent _ _ _ _ _ _ E1). reflexivity. }
  rewrite (H _ _ E). rewrite (qsum_single _ _ i (i, color)).
  - cbn [fst snd]. rewrite Nat.eqb_refl. cbn [andb]. destruct (color =? 0); reflexivity.
  - rewrite nth_error_combine, Hi. assert (i < length ids) by (apply nth_error_Some; congruence). rewrite nth_error_nth' with (d := 0) by (rewrite seq_length; assumption). rewrite seq_nth by assumption. reflexivity.
  - intros k [r c] Hk N. rewrite nth_error_combine in Hk. destruct (nth_error (seq 0 (length ids)) k) as [r'|] eqn:S0; [|discriminate]. destruct (nth_error ids k); [|discriminate]. injection Hk as -> ->.
    assert (k < length ids) by (rewrite <- (seq_length (length ids) 0); apply nth_error_Some; congruence). rewrite nth_error_nth' with (d := 0) in S0 by (rewrite seq_length; assumption). rewrite seq_nth in S0 by assumption. injection S0 as S0. assert (r = k) by lia. subst r. cbn [fst]. replace (k =? i) with false by (symmetry; apply Nat.eqb_neq; lia). reflexivity.
Qed.

(** ** One group at a time *)
Lemma assoc_In l k v : assoc l k = Some v -> In (k, v) l.
Proof. induction l as [|[k' v'] l IH]; cbn [assoc]; [discriminate|]. destruct (Nat.eqb_spec k' k) as [->|]; [intros E; injection E as ->; left; reflexivity|right; auto]. Qed.
Lemma index_of_spec color ids i : index_of color ids = Ok i <-> first_row ids color i.
Proof.
  revert i. induction ids as [|c ids IH]; intros i; cbn [index_of].
  - split; [discriminate|]. intros [H _]. destruct i; discriminate.
  - destruct (Nat.eqb_spec c color) as [->|N].
    + split.
      * intros E. injection E as <-. split; [reflexivity|]. intros k H; lia.
      * intros [H1 H2]. destruct i as [|i]; [reflexivity|]. exfalso. apply (H2 0); [lia|reflexivity].
    + split.
      * destruct (index_of color ids) as [k|]; [|discriminate]. intros E. injection E as <-. destruct (proj1 (IH k) eq_refl) as [H1 H2]. split; [exact H1|]. intros [|k'] L; [cbn; congruence|]. cbn. apply H2. lia.
      * intros [H1 H2]. destruct i as [|i]; [cbn in H1; congruence|]. assert (F : first_row ids color i) by (split; [exact H1|]; intros k L; apply (H2 (S k)); lia). apply IH in F. rewrite F. reflexivity.
Qed.
Lemma index_of_total color ids : In color ids -> exists i, index_of color ids = Ok i.
Proof.
  induction ids as [|c ids IH]; [intros []|]. cbn [index_of]. destruct (Nat.eqb_spec c color) as [->|N]; [eauto|]. intros [->|H]; [contradiction|]. destruct (IH H) as (i & ->). eexists. reflexivity.
Qed.
(** What the groups contain *)
Lemma group_add_perm groups g color : Permutation (concat (map snd (group_add groups g color))) (color :: concat (map snd groups)).
Proof.
  induction groups as [|[g' cs] groups IH]; [reflexivity|]. cbn [group_add]. destruct (g' =? g); cbn [map concat snd].
  - rewrite <- app_assoc. cbn [app]. symmetry. apply Permutation_middle.
  - rewrite IH. symmetry. apply Permutation_middle.
Qed.
Definition in_groups (coloring : list (nat * nat)) (groups : list (nat * list nat)) : Prop := forall g cs c, In (g, cs) groups -> In c cs -> assoc coloring c = Some g.
Lemma group_add_in coloring groups g color : assoc coloring color = Some g -> in_groups coloring groups -> in_groups coloring (group_add groups g color).
Proof.
  intros A. induction groups as [|[g' cs] groups IH]; intros H g0 cs0 c H1 H2; cbn [group_add] in H1.
  - destruct H1 as [E|[]]. assert (cs0 = [color]) by congruence. assert (g0 = g) by congruence. subst. destruct H2 as [<-|[]]. exact A.
  - destruct (Nat.eqb_spec g' g) as [->|N].
    + destruct H1 as [E|H1]; [|apply (H g0 cs0); [right|]; assumption]. assert (cs0 = cs ++ [color]) by congruence. assert (g0 = g) by congruence. subst. apply in_app_or in H2. destruct H2 as [H2|[<-|[]]]; [|exact A]. apply (H g cs); [left; reflexivity|assumption].
    + destruct H1 as [E|H1]; [apply (H g0 cs0); [left|]; assumption|]. apply (IH (fun g1 cs1 c1 K1 K2 => H g1 cs1 c1 (or_intror K1) K2) g0 cs0); assumption.
Qed.
Lemma make_groups_spec coloring ids : Permutation (concat (map snd (make_groups coloring ids))) (filter (fun c => match assoc coloring c with Some _ => true | None => false end) ids) /\ in_groups coloring (make_groups coloring ids).
Proof.
  unfold make_groups. set (step := fun groups color => match assoc coloring color with None => groups | Some g => group_add groups g color end).
  assert (H : forall ids groups, in_groups coloring groups -> Permutation (concat (map snd (fold_left step ids groups))) (concat (map snd groups) ++ filter (fun c => match assoc coloring c with Some _ => true | None => false end) ids) /\ in_groups coloring (fold_left step ids groups)).
  { clear ids. induction ids as [|c ids IH]; intros groups G; cbn [fold_left filter]; [rewrite app_nil_r; auto|]. unfold step at 2 4. destruct (assoc coloring c) as [g|] eqn:A; [|apply IH, G].
    destruct (IH _ (group_add_in _ _ _ _ A G)) as [P1 P2]. split; [|assumption]. rewrite P1, group_add_perm. cbn [app]. apply Permutation_middle. }
  destruct (H ids [] ltac:(intros g cs c [])) as [P1 P2]. split; assumption.
Qed.
Lemma qsum_perm l l' : Permutation l l' -> qsum l = qsum l'.
Proof. induction 1; cbn [qsum]; [reflexivity|rewrite IHPermutation; reflexivity|ring|congruence]. Qed.

Definition row_value (cells : list pcell) (ids : list nat) (i j color : nat) : Qc :=
  match index_of color ids with Ok r => if r =? i then patch_mean cells color j else q0 | Err _ => q0 end.
Lemma group_rows_ent cells ids colors ts i j : group_rows cells ids colors = Ok ts -> (forall c1 c2, In c1 colors -> In c2 colors -> c1 <> c2 -> dof_disjoint cells c1 c2) ->
  coo_ent ts i j = qsum (map (row_value cells ids i j) colors).
Proof.
  intros E DJ. unfold group_rows in E. set (chi := fold_left _ _ _) in E. unfold no_chi in chi.
  assert (CH : chi = map (fun c => existsb (Nat.eqb (pc_mark c)) colors) cells) by (unfold chi; rewrite (mark_patches cells colors (fun _ => false)); reflexivity). clearbody chi. subst chi.
  destruct (mapM _ colors) as [info|] eqn:EI; [|discriminate E]. cbn [bind] in E.
  set (F := fun rdv : nat * list nat * Qc => map (fun d => (fst (fst rdv), d, (assemble_chi cells (map (fun c => existsb (Nat.eqb (pc_mark c)) colors) cells) d / snd rdv)%Qc)) (snd (fst rdv))) in E.
  assert (ts = flat_map F info) by congruence. subst ts. clear E. rewrite coo_flat_map.
  assert (VAL : forall color ds d, In color colors -> patch_dofs cells color = Ok ds -> In d ds -> assemble_chi cells (map (fun c => existsb (Nat.eqb (pc_mark c)) colors) cells) d = patch_int cells color d).
  { intros color ds d HC HD Hd. destruct (patch_dofs_ok _ _ _ HD) as [_ IN]. apply IN in Hd. destruct Hd as (p & P1 & P2 & P3). rewrite assemble_map. apply qsum_ext. intros c Hc.
    destruct (Nat.eqb_spec (pc_mark c) color) as [E|N].
    - assert (existsb (Nat.eqb (pc_mark c)) colors = true) as -> by (apply existsb_nat; rewrite E; assumption). reflexivity.
    - destruct (existsb (Nat.eqb (pc_mark c)) colors) eqn:EX; [|reflexivity]. apply existsb_nat in EX. apply int_of_notin. intros HI. apply (DJ color (pc_mark c) HC EX ltac:(congruence) p c d); auto. }
  clear DJ. match type of EI with mapM ?f _ = _ => assert (G : forall l info, (forall c, In c l -> In c colors) -> mapM f l = Ok info -> qsum (map (fun x => coo_ent (F x) i j) info) = qsum (map (row_value cells ids i j) l)) end; [|apply (G colors); auto].
  clear info EI. induction l as [|c l IH]; intros info SUB EI.
  - injection EI as <-. reflexivity.
  - rewrite mapM_cons in EI. destruct (patch_dofs cells c) as [ds|] eqn:D; [|discriminate EI]. cbn [bind] in EI. destruct (index_of c ids) as [r|] eqn:R; [|discriminate EI]. cbn [bind] in EI.
    destruct (mapM _ l) as [info'|] eqn:EI'; [|discriminate EI]. cbn [bind] in EI. assert (info = (r, ds, patch_volume cells c) :: info') by congruence. subst info. cbn [map qsum].
    rewrite (IH info' (fun x Hx => SUB x (or_intror Hx)) eq_refl). f_equal. unfold row_value. rewrite R. unfold F. cbn [fst snd].
    destruct (patch_dofs_ok _ _ _ D) as [ND IN]. rewrite coo_row by assumption. destruct (r =? i); cbn [andb]; [|reflexivity]. unfold patch_mean.
    destruct (existsb (Nat.eqb j) ds) eqn:EX.
    + apply existsb_nat in EX. rewrite (VAL c ds j (SUB c (or_introl eq_refl)) D EX), patch_volume_vol. reflexivity.
    + rewrite patch_int_notin; [unfold q0, Qcdiv; ring|]. intros p Hp Mp Hd. assert (existsb (Nat.eqb j) ds = true) by (apply existsb_nat, IN; eauto). congruence.
Qed.
Lemma qz_plus a b : qz (a + b) = (qz a + qz b)%Qc.
Proof. apply Qc_is_canon. unfold qz, Qcplus. cbn [this Q2Qc]. rewrite !Qred_correct, inject_Z_plus. reflexivity. Qed.
Lemma coloring_sum m n cells coloring ids A i j : coloring_matrix m n cells coloring ids = Ok A -> proper cells coloring ids ->
  ent A i j = qsum (map (row_value cells ids i j) (filter (fun c => match assoc coloring c with Some _ => true | None => false end) ids)).
Proof.
  intros E P. unfold coloring_matrix in E. destruct (make_groups_spec coloring ids) as [PM IG]. destruct (mapM _ _) as [rows|] eqn:ER; [|discriminate E]. cbn [bind] in E. assert (A = coo m n (concat rows)) by congruence. subst A. clear E.
  cbn [ent coo]. rewrite coo_concat. rewrite <- (qsum_perm _ _ (Permutation_map _ PM)).
  assert (SUB : forall c, In c (concat (map snd (make_groups coloring ids))) -> In c ids). { intros c Hc. apply (Permutation_in _ PM) in Hc. apply filter_In in Hc. apply Hc. }
  clear PM. revert rows ER SUB IG. induction (make_groups coloring ids) as [|[g cs] groups IH]; intros rows ER SUB IG.
  - injection ER as <-. reflexivity.
  - cbn [map snd] in ER. rewrite mapM_cons in ER. destruct (group_rows cells ids cs) as [ts|] eqn:G; [|discriminate ER]. cbn [bind] in ER. destruct (mapM _ _) as [rows'|] eqn:ER'; [|discriminate ER]. cbn [bind] in ER. assert (rows = ts :: rows') by congruence. subst rows.
    cbn [map snd concat qsum]. rewrite map_app, qsum_app. rewrite (IH rows' eq_refl).
    + f_equal. apply group_rows_ent; [assumption|]. intros c1 c2 H1 H2 N. apply (P c1 c2 g); try assumption.
      * apply SUB. cbn. apply in_or_app. auto.
      * apply SUB. cbn. apply in_or_app. auto.
      * apply assoc_In, (IG g cs); [left; reflexivity|assumption].
      * apply assoc_In, (IG g cs); [left; reflexivity|assumption].
    + intros c Hc. apply SUB. cbn [map snd concat]. apply in_or_app. auto.
    + intros g' cs' c H1 H2. apply (IG g' cs'); [right|]; assumption.
Qed.
(** The first row of a colour gets the average as often as the colour occurs. *)
Lemma coloring_entries m n cells coloring ids A i j color : coloring_matrix m n cells coloring ids = Ok A -> proper cells coloring ids -> nth_error ids i = Some color ->
  (first_row ids color i -> (exists g, In (color, g) coloring) -> ent A i j = (qz (Z.of_nat (count_occ Nat.eq_dec ids color)) * patch_mean cells color j)%Qc) /\
  (~ first_row ids color i \/ (forall g, ~ In (color, g) coloring) -> ent A i j = q0).
Proof.
  intros E P Hi. rewrite (coloring_sum _ _ _ _ _ _ i j E P). split.
  - intros F (g & Hg).
    assert (AS : exists g', assoc coloring color = Some g'). { clear - Hg. induction coloring as [|[k v] l IH]; [destruct Hg|]. cbn [assoc]. destruct (Nat.eqb_spec k color); [eauto|]. destruct Hg as [E|Hg]; [congruence|auto]. }
    destruct AS as (g' & AS).
    assert (V : forall l, qsum (map (row_value cells ids i j) (filter (fun c => match assoc coloring c with Some _ => true | None => false end) l)) = (qz (Z.of_nat (count_occ Nat.eq_dec l color)) * patch_mean cells color j)%Qc); [|apply V].
    induction l as [|c l IH]; [cbn [filter map qsum count_occ]; change (qz (Z.of_nat 0)) with q0; unfold q0; ring|]. rewrite filter_qsum in *. cbn [map qsum count_occ]. rewrite IH. destruct (Nat.eq_dec c color) as [->|N].
    + rewrite AS. unfold row_value at 1. apply index_of_spec in F. rewrite F, Nat.eqb_refl. rewrite Nat2Z.inj_succ. unfold Z.succ. rewrite qz_plus. change (qz 1) with q1. unfold q1. ring.
    + replace (if match assoc coloring c with Some _ => true | None => false end then row_value cells ids i j c else q0) with q0; [unfold q0; ring|]. destruct (assoc coloring c); [|reflexivity].
      unfold row_value. destruct (index_of c ids) as [r|] eqn:R; [|reflexivity]. destruct (Nat.eqb_spec r i) as [->|]; [|reflexivity]. apply index_of_spec in R. destruct R as [R _]. congruence.
  - intros H. apply qsum_zero. intros c Hc. apply filter_In in Hc. destruct Hc as [Hc AS]. destruct (assoc coloring c) as [g|] eqn:AE; [|discriminate]. unfold row_value. destruct (index_of c ids) as [r|] eqn:R; [|reflexivity]. destruct (Nat.eqb_spec r i) as [->|]; [|reflexivity].
    apply index_of_spec in R. assert (c = color) by (destruct R; congruence). subst c. destruct H as [H|H]; [contradiction|]. exfalso. apply (H g), assoc_In, AE.
Qed.

(** ** When the matrices exist *)
Lemma mapM_total {A B} (f : A -> res B) l : (forall x, In x l -> exists y, f x = Ok y) -> exists ys, mapM f l = Ok ys.
Proof.
  induction l as [|x l IH]; intros H; [exists []; reflexivity|]. rewrite mapM_cons. destruct (H x (or_introl eq_refl)) as (y & ->). destruct (IH (fun z Hz => H z (or_intror Hz))) as (ys & ->). eexists. reflexivity.
Qed.
Lemma mapM_each {A B} (f : A -> res B) l ys x : mapM f l = Ok ys -> In x l -> exists y, f x = Ok y.
Proof.
  revert ys. induction l as [|x0 l IH]; intros ys E []; rewrite mapM_cons in E; destruct (f x0) as [y|] eqn:F; try discriminate E; cbn [bind] in E.
  - subst x0. eauto.
  - destruct (mapM f l) as [ys'|]; [|discriminate E]. eauto.
Qed.
Lemma mapM_length {A B} (f : A -> res B) l ys : mapM f l = Ok ys -> length ys = length l.
Proof.
  revert ys. induction l as [|x l IH]; intros ys E; [injection E as <-; reflexivity|]. rewrite mapM_cons in E. destruct (f x); [|discriminate]. cbn [bind] in E. destruct (mapM f l) as [ys'|]; [|discriminate]. injection E as <-. cbn. rewrite (IH ys' eq_refl). reflexivity.
Qed.
Lemma combine_seq_In {A} (l : list A) s k x : In (k, x) (combine (seq s (length l)) l) -> In x l.
Proof. intros H. apply in_combine_r in H. exact H. Qed.
Lemma combine_seq_ex {A} (l : list A) s x : In x l -> exists k, In (k, x) (combine (seq s (length l)) l).
Proof.
  revert s. induction l as [|y l IH]; intros s []; cbn [length seq combine]; [subst; exists s; left; reflexivity|]. destruct (IH (S s) H) as (k & Hk). exists k. right. exact Hk.
Qed.
Definition has_patch (cells : list pcell) (color : nat) : Prop := exists c, In c cells /\ pc_mark c = color.
Lemma plain_ok m n cells ids : (exists A, plain_matrix m n cells ids = Ok A) <-> forall color, In color ids -> color <> 0 -> has_patch cells color.
Proof.
  unfold plain_matrix. split.
  - intros (A & E) color HC N. destruct (mapM _ _) as [rows|] eqn:ER; [|discriminate]. destruct (combine_seq_ex ids 0 color HC) as (k & Hk). destruct (mapM_each _ _ _ _ ER Hk) as (ts & T). cbn [plain_row] in T. apply Nat.eqb_neq in N. rewrite N in T.
    apply patch_dofs_total. destruct (patch_dofs cells color) as [ds|]; [eauto|discriminate].
  - intros H. destruct (mapM_total (plain_row cells) (combine (seq 0 (length ids)) ids)) as (rows & ->); [|eexists; reflexivity]. intros [k color] Hk. apply combine_seq_In in Hk. cbn [plain_row]. destruct (Nat.eqb_spec color 0) as [|N]; [eauto|].
    destruct (proj2 (patch_dofs_total cells color) (H color Hk N)) as (ds & ->). eexists. reflexivity.
Qed.
Lemma coloring_ok m n cells coloring ids : (exists A, coloring_matrix m n cells coloring ids = Ok A) <-> forall color g, In color ids -> assoc coloring color = Some g -> has_patch cells color.
Proof.
  unfold coloring_matrix. destruct (make_groups_spec coloring ids) as [PM IG]. split.
  - intros (A & E) color g HC HA. destruct (mapM _ _) as [rows|] eqn:ER; [|discriminate].
    assert (HI : In color (concat (map snd (make_groups coloring ids)))) by (apply (Permutation_in _ (Permutation_sym PM)), filter_In; rewrite HA; auto).
    apply in_concat in HI. destruct HI as (cs & H1 & H2). destruct (mapM_each _ _ _ _ ER H1) as (ts & T). unfold group_rows in T. destruct (mapM _ cs) as [info|] eqn:EI; [|discriminate]. destruct (mapM_each _ _ _ _ EI H2) as (y & Y). apply patch_dofs_total. destruct (patch_dofs cells color) as [ds|]; [eauto|discriminate].
  - intros H. destruct (mapM_total (group_rows cells ids) (map snd (make_groups coloring ids))) as (rows & ->); [|eexists; reflexivity]. intros cs Hcs. unfold group_rows.
    match goal with |- context [mapM ?f cs] => destruct (mapM_total f cs) as (info & ->); [|eexists; reflexivity] end. intros color HC.
    assert (HI : In color (filter (fun c => match assoc coloring c with Some _ => true | None => false end) ids)) by (apply (Permutation_in _ PM), in_concat; eauto).
    apply filter_In in HI. destruct HI as [HI HA]. destruct (assoc coloring color) as [g|] eqn:AE; [|discriminate]. destruct (proj2 (patch_dofs_total cells color) (H color g HI AE)) as (ds & ->). destruct (index_of_total color ids HI) as (k & ->). eexists. reflexivity.
Qed.
Lemma assoc_domain coloring c : (exists g, assoc coloring c = Some g) <-> exists g, In (c, g) coloring.
Proof.
  split; [intros (g & H); exists g; apply assoc_In, H|]. intros (g & H). induction coloring as [|[k v] l IH]; [destruct H|]. cbn [assoc]. destruct (Nat.eqb_spec k c); [eauto|]. destruct H as [E|H]; [congruence|auto].
Qed.
Lemma count_one ids color i : nth_error ids i = Some color -> (forall k, nth_error ids k = Some color -> k = i) -> count_occ Nat.eq_dec ids color = 1.
Proof.
  revert i. induction ids as [|c ids IH]; intros i Hi U; [destruct i; discriminate|]. cbn [count_occ]. destruct i as [|i].
  - cbn in Hi. injection Hi as ->. destruct (Nat.eq_dec color color); [|contradiction]. f_equal. apply count_occ_not_In. intros HI. apply In_nth_error in HI. destruct HI as (k & Hk). specialize (U (S k) Hk). discriminate.
  - destruct (Nat.eq_dec c color) as [->|]; [specialize (U 0 eq_refl); discriminate|]. apply (IH i Hi). intros k Hk. specialize (U (S k) Hk). lia.
Qed.
(** Sum of the weights of a patch *)
Lemma sumn_int n c : (forall d, In d (map fst (pc_ints c)) -> d < n) -> sumn n (fun d => int_of c d) = qsum (map snd (pc_ints c)).
Proof.
  intros H. unfold int_of. rewrite sumn_qsum. apply qsum_ext. intros [d v] Hd. cbn [fst snd]. assert (d < n) by (apply H, in_map_iff; exists (d, v); auto).
  rewrite (sumn_single n d); [rewrite Nat.eqb_refl; reflexivity|assumption|]. intros j _ N. replace (d =? j) with false by (symmetry; apply Nat.eqb_neq; congruence). reflexivity.
Qed.
Lemma sumn_patch n cells color : (forall c d, In c cells -> In d (map fst (pc_ints c)) -> d < n) -> (forall c, In c cells -> qsum (map snd (pc_ints c)) = pc_vol c) ->
  sumn n (fun d => patch_int cells color d) = patch_vol cells color.
Proof.
  intros H U. unfold patch_int. rewrite sumn_qsum. apply qsum_ext. intros c Hc. destruct (pc_mark c =? color); [|apply sumn_zero; reflexivity]. rewrite sumn_int by (intros d Hd; apply (H c d); assumption). apply U, Hc.
Qed.

(** ** Nearest points *)
Lemma argmin_spec l k best bv : (best < k) -> let r := argmin_from k best bv l in
  (snd r <= bv)%Qc /\ (forall x, In x l -> (snd r <= x)%Qc) /\ ((fst r = best /\ snd r = bv) \/ (k <= fst r /\ nth_error l (fst r - k) = Some (snd r))).
Proof.
  revert k best bv. induction l as [|x l IH]; intros k best bv L; cbn [argmin_from].
  - cbn. split; [apply Qcle_refl|]. split; [intros ? []|]. auto.
  - destruct (qltb x bv) eqn:Q.
    + destruct (IH (S k) k x ltac:(lia)) as (A & B & C). apply qltb_lt in Q. split; [eapply Qcle_trans; [exact A|]; apply Qclt_le_weak, Q|]. split; [intros y [<-|Hy]; auto|]. right. destruct C as [[C1 C2]|[C1 C2]].
      * rewrite C1. split; [lia|]. rewrite Nat.sub_diag. cbn. congruence.
      * split; [lia|]. replace (fst (argmin_from (S k) k x l) - k) with (S (fst (argmin_from (S k) k x l) - S k)) by lia. exact C2.
    + destruct (IH (S k) best bv ltac:(lia)) as (A & B & C). assert (NQ : ~ (x < bv)%Qc) by (rewrite <- qltb_lt; congruence). apply Qcnot_lt_le in NQ. split; [exact A|]. split; [intros y [<-|Hy]; [eapply Qcle_trans; [exact A|exact NQ]|auto]|]. destruct C as [C|[C1 C2]]; [left; exact C|right].
      split; [lia|]. replace (fst (argmin_from (S k) best bv l) - k) with (S (fst (argmin_from (S k) best bv l) - S k)) by lia. exact C2.
Qed.
Lemma dirac_row_spec r ds t : dirac_row (r, ds) = Ok t -> exists col d, t = (r, col, q1) /\ nth_error ds col = Some d /\ (d < q1 / qz (10 ^ 20))%Qc /\ forall x, In x ds -> (d <= x)%Qc.
Proof.
  unfold dirac_row. cbn [fst snd]. destruct ds as [|x l]; [discriminate|]. destruct (argmin_spec l 1 0 x ltac:(lia)) as (A & B & C). set (bc := argmin_from 1 0 x l) in *. destruct (qltb (snd bc) _) eqn:Q; [|discriminate]. intros E. injection E as <-. apply qltb_lt in Q.
  exists (fst bc), (snd bc). split; [reflexivity|]. split; [|split; [exact Q|intros y [<-|Hy]; auto]]. destruct C as [[C1 C2]|[C1 C2]]; [rewrite C1, C2; reflexivity|]. destruct (fst bc) as [|k]; [lia|]. rewrite Nat.sub_succ, Nat.sub_0_r in C2. exact C2.
Qed.
