(** Property C89: meshes from vertices and cells *)
From Coq Require Import Lia.
From Verif Require Import Base BaseProofs MakeMeshModel.
Local Open Scope nat_scope.

Lemma concat_rows {A} (d : A) w rows : Forall (fun r => length r = w) rows -> 0 < w ->
  length (concat rows) / w = length rows /\
  map (fun index => map (fun i => nth (w * index + i) (concat rows) d) (seq 0 w)) (seq 0 (length rows)) = rows.
Proof.
  intros H Hw. assert (L : length (concat rows) = length rows * w).
  { induction H as [| r rows Hr H IH]; cbn [concat length]; [reflexivity |]. rewrite app_length, Hr, IH. lia. }
  split; [rewrite L; apply Nat.div_mul; lia |]. clear L.
  induction H as [| r rows Hr H IH]; [reflexivity |]. cbn [length]. rewrite <- cons_seq, <- seq_shift. cbn [map]. rewrite map_map. f_equal.
  - transitivity (map (fun i => nth i r d) (seq 0 w)).
    + apply map_ext_in. intros i Hi. apply in_seq in Hi. cbn [concat]. rewrite app_nth1 by lia. f_equal. lia.
    + rewrite <- Hr. clear. induction r as [| x r IH]; [reflexivity |]. cbn [length]. rewrite <- cons_seq, <- seq_shift. cbn [map nth]. rewrite map_map. f_equal. exact IH.
  - etransitivity; [| exact IH]. apply map_ext. intros k. apply map_ext_in. intros i _. cbn [concat]. rewrite app_nth2 by lia. f_equal. lia.
Qed.
(** Arrays with gdim columns of coordinates and tdim + 1 columns of vertices: the mesh has the
    vertices and the cells of the arrays, in their order, whatever mesh was given *)
Theorem C89_mesh : forall (R : Type) (zero : R) coordinates cells tdim gdim given, 0 < gdim ->
  Forall (fun x => length x = gdim) coordinates -> Forall (fun c => length c = tdim + 1) cells ->
  make_mesh zero coordinates cells tdim gdim given = Mesh tdim gdim coordinates cells.
Proof.
  intros R zero coordinates cells tdim gdim given Hg Hx Hc. unfold make_mesh, fill_mesh.
  destruct (concat_rows zero gdim coordinates Hx Hg) as [-> ->]. destruct (concat_rows 0 (tdim + 1) cells Hc ltac:(lia)) as [-> ->]. reflexivity.
Qed.
(** Flat arrays of any length: as many whole rows as there are; what is left over is dropped *)
Theorem C89_flat : forall (R : Type) (zero : R) coordinates cells tdim gdim, 0 < gdim ->
  exists rx rc, let m := fill_mesh zero coordinates cells tdim gdim in
    coordinates = concat (m_vertices m) ++ rx /\ length rx < gdim /\ Forall (fun x => length x = gdim) (m_vertices m) /\
    cells = concat (m_cells m) ++ rc /\ length rc < tdim + 1 /\ Forall (fun c => length c = tdim + 1) (m_cells m).
Proof.
  intros R zero coordinates cells tdim gdim Hg.
  assert (K : forall A (d : A) w l, 0 < w -> exists r, l = concat (map (fun index => map (fun i => nth (w * index + i) l d) (seq 0 w)) (seq 0 (length l / w))) ++ r /\ length r < w).
  { intros A d w l Hw. exists (skipn (w * (length l / w)) l). pose proof (Nat.div_mod (length l) w ltac:(lia)) as D. pose proof (Nat.mod_upper_bound (length l) w ltac:(lia)) as B.
    split; [| rewrite skipn_length; lia]. assert (P : forall k, w * k <= length l -> concat (map (fun index => map (fun i => nth (w * index + i) l d) (seq 0 w)) (seq 0 k)) = firstn (w * k) l).
    { induction k as [| k IH]; intros Hk; [rewrite Nat.mul_0_r; reflexivity |]. rewrite seq_S, map_app, concat_app, IH by lia. cbn [map concat]. rewrite app_nil_r, Nat.add_0_l.
      replace (w * S k) with (w * k + w) by lia. clear IH D B.
      assert (Q : forall v b, b + v <= length l -> map (fun i => nth (b + i) l d) (seq 0 v) = firstn v (skipn b l)).
      { induction v as [| v IHv]; intros b Hb; [reflexivity |]. rewrite <- cons_seq, <- seq_shift. cbn [map]. rewrite map_map. rewrite Nat.add_0_r.
        destruct (skipn b l) as [| y ys] eqn:E; [exfalso; assert (length (skipn b l) = 0) by (rewrite E; reflexivity); rewrite skipn_length in *; lia |].
        cbn [firstn]. assert (Hy : nth b l d = y). { rewrite <- (firstn_skipn b l) at 1. rewrite app_nth2 by (rewrite firstn_length; lia). rewrite firstn_length, Nat.min_l by lia. rewrite Nat.sub_diag, E. reflexivity. }
        rewrite Hy. f_equal. assert (Ey : ys = skipn (S b) l). { clear - E. revert l ys E. induction b as [| b IHb]; intros [| z l] ys E; try discriminate E; cbn [skipn] in E |- *; [now injection E as _ -> | exact (IHb l ys E)]. }
        rewrite Ey, <- IHv by lia. apply map_ext. intros i. f_equal. lia. }
      rewrite (Q w (w * k)) by lia.
      rewrite <- (firstn_skipn (w * k) l) at 3. rewrite firstn_app, firstn_length, Nat.min_l by lia. rewrite (firstn_all2 (firstn _ _)) by (rewrite firstn_length; lia). f_equal. f_equal. lia. }
    rewrite P by lia. symmetry. apply firstn_skipn. }
  destruct (K R zero gdim coordinates Hg) as [rx [Ex Hx]]. destruct (K nat 0 (tdim + 1) cells ltac:(lia)) as [rc [Ec Hc]].
  exists rx, rc. cbn. assert (F : forall A w (f : nat -> nat -> A) k, Forall (fun r => length r = w) (map (fun i => map (f i) (seq 0 w)) (seq 0 k))).
  { intros A w f k. apply Forall_forall. intros r Hr. apply in_map_iff in Hr. destruct Hr as [i [<- _]]. rewrite map_length, seq_length. reflexivity. }
  split; [exact Ex |]. split; [exact Hx |]. split; [apply F |]. split; [exact Ec |]. split; [exact Hc |]. apply F.
Qed.
(** so arrays whose columns do not fit the dimensions are not refused: three points of 2d are two
    vertices of 3d *)
Theorem C89_columns_refuted : exists coordinates cells, Forall (fun x => length x = 2) coordinates /\
  make_mesh 0 coordinates cells 1 3 None = Mesh 1 3 [[1; 2; 3]; [4; 5; 6]] cells.
Proof. exists [[1; 2]; [3; 4]; [5; 6]], [[0; 1]; [1; 2]]. split; [repeat constructor | reflexivity]. Qed.

Example case_square : make_mesh 0 [[0; 0]; [1; 0]; [1; 1]; [0; 1]] [[0; 1; 2]; [0; 2; 3]] 2 2 (Some (Mesh 1 1 [[7]] [])) = Mesh 2 2 [[0; 0]; [1; 0]; [1; 1]; [0; 1]] [[0; 1; 2]; [0; 2; 3]].
Proof. reflexivity. Qed.

Print Assumptions C89_mesh.
Print Assumptions C89_flat.
Print Assumptions C89_columns_refuted.
