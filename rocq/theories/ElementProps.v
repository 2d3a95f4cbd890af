(** C71: the space of a reduced function has the values of the function. *)
From Verif Require Import Base ElementModel ElementProofs.

(** Traces of elements built from finite elements, vectors of any length,
    square matrices and mixtures: the space over the facets has functions of
    the same shape, its components are discontinuous polynomials of the same
    degrees in the same order, on the facets. *)
Theorem C71_trace c f e :
  facet c f -> on c e -> usual (c_gdim c) e ->
  exists t, trace_space e f = Ok t /\ value_shape t = value_shape e /\
    parts t = map (fun p => (DiscLagrange, f, snd p)) (parts e).
Proof.
  intros Hf Ho Hu. destruct (trace_element_ok c f Hf e Ho Hu) as (t & Et & Ht & Hs & Hp).
  exists t. unfold trace_space. rewrite Et. cbn [bind]. rewrite (on_cell f t Ht). cbn [bind].
  rewrite cell_eqb_refl. split; [reflexivity |]. split; [exact Hs | exact Hp].
Qed.
Print Assumptions C71_trace.

(** Taylor-Hood elements on tetrahedra: three quadratic and one linear
    component. *)
Definition tet := Cell Tetrahedron 3.
Definition tri := Cell Triangle 3.
Definition line := Cell Interval 3.
Definition taylor_hood := ME [VE (FE Lagrange tet 2) 3; FE Lagrange tet 1].
Example C71_trace_ex :
  facet tet tri /\ on tet taylor_hood /\ usual (c_gdim tet) taylor_hood /\
  trace_space taylor_hood tri = Ok (ME [VE (FE DiscLagrange tri 2) 3; FE DiscLagrange tri 1]).
Proof.
  split; [split; [reflexivity | left; split; reflexivity] |].
  split; [cbn; repeat split; discriminate |]. split; [cbn; repeat split; discriminate | reflexivity].
Qed.

(** A trace space asked for on other cells than the facets is refused. *)
Theorem C71_trace_cells c m e t : on c e -> trace_space e m = Ok t -> facet c m /\ on m t.
Proof.
  intros Ho. unfold trace_space. destruct (trace_element e) as [t' | x] eqn:Et; cbn [bind]; [| discriminate].
  destruct (trace_on c e t' Ho Et) as (f & Hf & Hon). rewrite (on_cell f t' Hon). cbn [bind].
  destruct (cell_eqb f m) eqn:Em; [| discriminate]. intros E. injection E as <-. apply cell_eqb_eq in Em. subst m.
  split; [apply facet_trace; exact Hf | exact Hon].
Qed.
Print Assumptions C71_trace_cells.
Example C71_trace_cells_ex : trace_space (FE Lagrange line 1) tri = Err KeyError /\ trace_space taylor_hood line = Err RuntimeError.
Proof. split; reflexivity. Qed.

(** Matrices that are not square get a square space. *)
Theorem C71_trace_matrices c f fam d sh t :
  facet c f -> value_shape (FE fam c d) = [] -> length sh = 2 -> trace_space (TE (FE fam c d) sh) f = Ok t ->
  (value_shape t = value_shape (TE (FE fam c d) sh) <-> sh = [c_gdim c; c_gdim c]).
Proof.
  intros Hf Hs Hn. unfold trace_space. cbn [trace_element e_cell bind]. rewrite (proj1 (facet_trace c f) Hf). cbn [bind].
  change (value_shape (TE (FE fam c d) sh)) with (sh ++ value_shape (FE fam c d)). rewrite Hs, app_nil_r, Hn. cbn [by_rank bind e_cell]. rewrite cell_eqb_refl.
  intros E. injection E as <-. cbn. rewrite (proj1 Hf). split; intros H; [symmetry; exact H | rewrite H; reflexivity].
Qed.
Print Assumptions C71_trace_matrices.
Theorem C71_trace_refuted :
  exists c f e t, facet c f /\ on c e /\ trace_space e f = Ok t /\ value_shape t <> value_shape e.
Proof.
  exists tet, tri, (TE (FE Lagrange tet 1) [2; 3]), (TE (FE DiscLagrange tri 1) [3; 3]).
  split; [split; [reflexivity | left; split; reflexivity] |]. split; [reflexivity |]. split; [reflexivity | discriminate].
Qed.
Print Assumptions C71_trace_refuted.

(** Averages: the space is there exactly for up to two axes, on lines in the
    same space; its functions are discontinuous of the largest degree; they
    have the shape of the averaged functions exactly when every axis has the
    geometric dimension for its length. *)
Theorem C71_average c e m :
  on c e ->
  ((exists t, average_space e m = Ok t) <->
   (c_name c = Tetrahedron /\ m = Cell Interval (c_gdim c) /\ length (value_shape e) <= 2)) /\
  (forall t, average_space e m = Ok t ->
     on m t /\
     (value_shape t = value_shape e <-> Forall (eq (c_gdim c)) (value_shape e)) /\
     (forall fam k d, In (fam, k, d) (parts t) -> fam = DiscLagrange /\ k = m /\ forall fam' k' d', In (fam', k', d') (parts e) -> d' <= d)).
Proof.
  intros Ho. unfold average_space. rewrite (on_cell c e Ho). cbn [bind].
  destruct c as [nc g]. unfold average_cell. cbn [c_name c_gdim]. split.
  - split.
    + intros (t & E). destruct nc; cbn [bind] in E; try discriminate E.
      destruct (cell_eqb m (Cell Interval g)) eqn:Em; [| discriminate E]. apply cell_eqb_eq in Em. subst m.
      apply by_rank_ok in E; [| left; reflexivity]. split; [reflexivity |]. split; [reflexivity | apply E].
    + intros (-> & -> & Hr). cbn [bind]. rewrite cell_eqb_refl. apply by_rank_total. exact Hr.
  - intros t E. destruct nc; cbn [bind] in E; try discriminate E.
    destruct (cell_eqb m (Cell Interval g)) eqn:Em; [| discriminate E]. apply cell_eqb_eq in Em. subst m.
    apply by_rank_ok in E; [| left; reflexivity]. destruct E as (Hr & Hon & Hs & Hd & _ & Hp).
    split; [exact Hon |]. split.
    + rewrite Hs. apply repeat_forall. reflexivity.
    + intros fam k d Hin. rewrite Hp in Hin. apply In_copies in Hin. destruct Hin as [Hin | []]. injection Hin as <- <- <-.
      split; [reflexivity |]. split; [reflexivity |]. intros fam' k' d' Hin'. exact (parts_degree e fam' k' d' Hin').
Qed.
Print Assumptions C71_average.
Example C71_average_ex :
  on tet (VE (FE Lagrange tet 2) 3) /\ average_space (VE (FE Lagrange tet 2) 3) line = Ok (VE (FE DiscLagrange line 2) 3).
Proof. split; reflexivity. Qed.

(** Two components become three. *)
Theorem C71_average_refuted :
  exists c e m t, on c e /\ average_space e m = Ok t /\ value_shape t <> value_shape e.
Proof.
  exists tet, (VE (FE Lagrange tet 1) 2), line, (VE (FE DiscLagrange line 1) 3).
  split; [reflexivity |]. split; [reflexivity | discriminate].
Qed.
Print Assumptions C71_average_refuted.

(** Averaged fluxes of vector fields are scalar functions. *)
Theorem C71_flux c e m t :
  on c e -> flux_average_space e m = Ok t ->
  c_name c = Tetrahedron /\ m = Cell Interval (c_gdim c) /\ (exists n, value_shape e = [n]) /\
  exists d, t = FE DiscLagrange m d /\ forall fam k d', In (fam, k, d') (parts e) -> d' <= d.
Proof.
  intros Ho. unfold flux_average_space. rewrite (on_cell c e Ho). cbn [bind].
  destruct c as [nc g]. unfold average_cell. cbn [c_name c_gdim]. destruct nc; cbn [bind]; try discriminate.
  destruct (cell_eqb m (Cell Interval g)) eqn:Em; [| discriminate]. apply cell_eqb_eq in Em. subst m.
  destruct (length (value_shape e) =? 1) eqn:En; [| discriminate]. apply Nat.eqb_eq in En. intros E. injection E as <-.
  split; [reflexivity |]. split; [reflexivity |]. split.
  - destruct (value_shape e) as [| n [| m l]]; try discriminate En. exists n. reflexivity.
  - exists (e_degree e). split; [reflexivity |]. intros fam k d' Hin. exact (parts_degree e fam k d' Hin).
Qed.
Print Assumptions C71_flux.
Example C71_flux_ex : flux_average_space (FE (VFam 0) tet 1) line = Ok (FE DiscLagrange line 1).
Proof. reflexivity. Qed.

(** Values in points: as many numbers, in the same shape.  [None] (no space)
    is returned for three and more axes. *)
Theorem C71_point c e o :
  on c e -> point_trace_space e c = Ok o ->
  match o with
  | Some t => on c t /\ value_shape t = value_shape e /\
              parts t = map (fun _ => (Real, c, 0)) (parts e)
  | None => 3 <= length (value_shape e)
  end.
Proof.
  intros Ho. unfold point_trace_space. pose proof (parts_length e) as Hl.
  assert (Hm : forall n, length (parts e) = n -> map (fun _ => (Real, c, 0)) (parts e) = copies n [(Real, c, 0)]).
  { intros n <-. clear. induction (parts e) as [| p l IH]; cbn; [reflexivity |]. rewrite IH. reflexivity. }
  destruct (value_shape e) as [| n [| m [| k l]]] eqn:Es.
  - intros E. injection E as <-. cbn. split; [reflexivity |]. split; [reflexivity |]. rewrite (Hm 1 Hl). reflexivity.
  - destruct e; try discriminate. intros E. injection E as <-. cbn. split; [reflexivity |]. split; [reflexivity |].
    symmetry. apply Hm. rewrite Hl. cbn. apply Nat.mul_1_r.
  - destruct e; try discriminate. intros E. injection E as <-. cbn [on value_shape parts app]. split; [reflexivity |]. split; [reflexivity |].
    symmetry. apply Hm. exact Hl.
  - intros E. injection E as <-. cbn. lia.
Qed.
Print Assumptions C71_point.
Example C71_point_ex :
  on tet (VE (FE Lagrange tet 1) 2) /\ point_trace_space (VE (FE Lagrange tet 1) 2) tet = Ok (Some (VE (FE Real tet 0) 2)).
Proof. split; reflexivity. Qed.

(** Means and derivatives in a point are single numbers of scalar functions. *)
Theorem C71_numbers c e m t :
  on c e ->
  (gradient_point_trace_space e m = Ok t -> value_shape e = [] /\ t = FE Real m 0) /\
  (mean_space e m = Ok t -> m = c /\ value_shape e = [] /\ t = FE Real m 0) /\
  (surface_mean_space e m = Ok t -> facet c m /\ value_shape e = [] /\ t = FE Real m 0).
Proof.
  intros Ho. unfold gradient_point_trace_space, mean_space, surface_mean_space. rewrite (on_cell c e Ho). cbn [bind].
  split; [| split].
  - destruct (value_shape e); [| discriminate]. intros E. injection E as <-. split; reflexivity.
  - destruct (cell_eqb m c) eqn:Em; [| discriminate]. apply cell_eqb_eq in Em. subst m.
    destruct (value_shape e); [| discriminate]. intros E. injection E as <-. repeat split.
  - destruct (value_shape e); [| discriminate]. destruct (trace_cell c) as [f | x] eqn:Ef; cbn [bind]; [| discriminate].
    destruct (cell_eqb f m) eqn:Em; [| discriminate]. apply cell_eqb_eq in Em. subst m. intros E. injection E as <-.
    split; [apply facet_trace; exact Ef |]. split; reflexivity.
Qed.
Print Assumptions C71_numbers.
Example C71_numbers_ex :
  gradient_point_trace_space (FE DiscLagrange line 1) line = Ok (FE Real line 0) /\
  mean_space (FE Lagrange tet 2) tet = Ok (FE Real tet 0) /\ surface_mean_space (FE Lagrange tet 2) tri = Ok (FE Real tri 0).
Proof. repeat split. Qed.

(** Restrictions and injections keep the element, over cells of one kind. *)
Theorem C71_same c e m : on c e -> (restriction_space e m = Ok e <-> m = c) /\ (forall t, restriction_space e m = Ok t -> t = e).
Proof.
  intros Ho. unfold restriction_space. rewrite (on_cell c e Ho). cbn [bind]. destruct (cell_eqb m c) eqn:Em.
  - apply cell_eqb_eq in Em. split; [split; [intros _; exact Em | reflexivity] |]. intros t E. injection E as <-. reflexivity.
  - split; [| discriminate]. split; [discriminate |]. intros ->. rewrite cell_eqb_refl in Em. discriminate Em.
Qed.
Print Assumptions C71_same.
Example C71_same_ex : on tet taylor_hood /\ restriction_space taylor_hood tet = Ok taylor_hood /\ restriction_space taylor_hood tri = Err AssertionError.
Proof. split; [cbn; repeat split; discriminate |]. split; reflexivity. Qed.

(** Transposed traces of Lagrange elements: the element is over the cells
    whose facets carry the functions, with the same degree; the shape is kept
    exactly when all axes have the geometric dimension; and its trace space
    is over the facets again, with the shape of the element. *)
Theorem C71_transpose c e t :
  on c e -> single e -> transpose_trace_element e = Ok t ->
  exists b, facet b c /\ on b t /\ e_family e = Lagrange /\ e_family t = Lagrange /\ e_degree t = e_degree e /\
    (value_shape t = value_shape e <-> Forall (eq (c_gdim c)) (value_shape e)) /\
    (c_gdim c <> 0 -> exists t', trace_space t c = Ok t' /\ value_shape t' = value_shape t).
Proof.
  intros Ho Hs Et.
  assert (G : exists b, transpose_trace_cell c = Ok b /\ e_family e = Lagrange /\ by_rank (length (value_shape e)) Lagrange b (e_degree e) = Ok t).
  { pose proof (on_cell c e Ho) as Hc. unfold single in Hs.
    destruct e as [f0 c0 d0 | s n | s sh | l]; [| | | destruct Hs]; cbn [transpose_trace_element] in Et; rewrite Hc in Et; cbn [bind] in Et;
      match type of Et with match ?f with _ => _ end = _ => destruct f eqn:Ef; try discriminate Et end;
      (destruct (transpose_trace_cell c) as [b | x]; cbn [bind] in Et; [| discriminate Et]; exists b; split; [reflexivity |]; split; [reflexivity | exact Et]). }
  destruct G as (b & Hb & Hfam & Hr). apply by_rank_ok in Hr as Hr'; [| right; reflexivity].
  destruct Hr' as (Hn & Hon & Hsh & Hd & Hf & Hp). exists b.
  assert (Hfc : facet b c).
  { destruct c as [nc g]. unfold transpose_trace_cell in Hb. cbn in Hb. destruct nc; inversion Hb; subst b; split; auto. }
  split; [exact Hfc |]. split; [exact Hon |]. split; [exact Hfam |]. split; [exact Hf |]. split; [exact Hd |].
  destruct Hfc as [Hg Hfc']. split.
  - rewrite Hsh, <- Hg. apply repeat_forall. reflexivity.
  - intros Hg0. destruct (C71_trace b c t (conj Hg Hfc') Hon) as (t' & Et' & Hs' & _).
    + unfold by_rank in Hr. destruct (length (value_shape e)) as [| [| [| k]]]; inversion Hr; subst t; cbn.
      * discriminate.
      * split; [discriminate |]. rewrite <- Hg. exact Hg0.
      * split; [reflexivity |]. split; [| reflexivity]. exists Lagrange, b, (e_degree e). reflexivity.
    + exists t'. split; [exact Et' | exact Hs'].
Qed.
Print Assumptions C71_transpose.
Example C71_transpose_ex :
  on tri (VE (FE Lagrange tri 1) 3) /\ transpose_trace_element (VE (FE Lagrange tri 1) 3) = Ok (VE (FE Lagrange tet 1) 3).
Proof. split; reflexivity. Qed.
Theorem C71_transpose_refuted :
  exists c e t, on c e /\ transpose_trace_element e = Ok t /\ value_shape t <> value_shape e.
Proof.
  exists tri, (VE (FE Lagrange tri 1) 2), (VE (FE Lagrange tet 1) 3). split; [reflexivity |]. split; [reflexivity | discriminate].
Qed.
Print Assumptions C71_transpose_refuted.

(** Extensions of functions on lines are functions on triangles of the same
    degree; Lagrange stays Lagrange. *)
Theorem C71_extension c e t :
  on c e -> single e -> extension_element e = Ok t ->
  c_name c = Interval /\ (c_gdim c = 2 \/ c_gdim c = 3) /\ on (Cell Triangle (c_gdim c)) t /\ e_degree t = e_degree e /\
  e_family t = (match e_family e with Lagrange => Lagrange | _ => DiscLagrange end) /\
  (value_shape t = value_shape e <-> Forall (eq (c_gdim c)) (value_shape e)).
Proof.
  intros Ho Hs Et.
  assert (G : exists b, extension_cell c = Ok b /\ by_rank (length (value_shape e)) (match e_family e with Lagrange => Lagrange | _ => DiscLagrange end) b (e_degree e) = Ok t).
  { pose proof (on_cell c e Ho) as Hc. unfold single in Hs.
    destruct e as [f0 c0 d0 | s n | s sh | l]; [| | | destruct Hs]; cbn [extension_element] in Et; rewrite Hc in Et; cbn [bind] in Et;
      (destruct (extension_cell c) as [b | x]; cbn [bind] in Et; [| discriminate Et]; exists b; split; [reflexivity | exact Et]). }
  destruct G as (b & Hb & Hr). apply by_rank_ok in Hr; [| destruct (e_family e); auto].
  destruct Hr as (Hn & Hon & Hsh & Hd & Hf & Hp). unfold extension_cell in Hb.
  destruct (((c_gdim c =? 2) || (c_gdim c =? 3)) && (c_tdim c =? 1)) eqn:Eg; [| discriminate Hb]. injection Hb as <-.
  apply andb_true_iff in Eg. destruct Eg as [Eg Etd]. apply orb_true_iff in Eg. rewrite !Nat.eqb_eq in Eg. apply Nat.eqb_eq in Etd.
  split. { destruct c as [[| |] g]; cbn in Etd; [reflexivity | discriminate | discriminate]. }
  split; [exact Eg |]. split; [exact Hon |]. split; [exact Hd |]. split; [exact Hf |].
  rewrite Hsh. apply repeat_forall. reflexivity.
Qed.
Print Assumptions C71_extension.
Example C71_extension_ex : on line (FE Lagrange line 2) /\ extension_element (FE Lagrange line 2) = Ok (FE Lagrange tri 2).
Proof. split; reflexivity. Qed.

(** A line in the plane does not extend to a line. *)
Theorem C71_extension_refuted c : c_name c = Interval -> c_gdim c = 2 -> exists f, extension_cell c = Ok f /\ c_name f = Triangle.
Proof. destruct c as [n g]. cbn. intros -> ->. eexists. split; reflexivity. Qed.
Print Assumptions C71_extension_refuted.
