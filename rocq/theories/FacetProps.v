(** C75: functions on facets; C76: is_delaunay. *)
From Verif Require Import Base BaseProofs GeomModel GeomProofs FacetModel FacetProofs.
From Coq Require Import Psatz.
Local Open Scope R_scope.

(** ** C75 *)

(** pcws_constant: the function has on each cell the marker of the cell,
    whatever the numbering of the dofs. *)
Theorem C75_constant tdim dim c2d marker :
  NoDup c2d -> Forall (fun i => (i < length c2d)%nat) c2d -> length marker = length c2d ->
  (tdim <> dim -> pcws_constant tdim dim c2d marker = Err AssertionError) /\
  (tdim = dim -> exists values, pcws_constant tdim dim c2d marker = Ok values /\ length values = length c2d /\
     forall c, (c < length c2d)%nat -> nth (nth c c2d 0%nat) values 0 = INR (nth c marker 0%nat)).
Proof.
  intros Hn Hb Hl. unfold pcws_constant. split.
  - intros H. rewrite (proj2 (Nat.eqb_neq tdim dim) H). reflexivity.
  - intros ->. rewrite Nat.eqb_refl. cbn [negb]. eexists. split; [reflexivity |]. split; [rewrite scatter_length; apply repeat_length |].
    intros c Hc. rewrite scatter_at; [| exact Hn | rewrite repeat_length; exact Hb | rewrite map_length; exact Hl | exact Hc].
    change 0 with (INR 0). apply map_nth.
Qed.
Print Assumptions C75_constant.
Example C75_constant_ex : pcws_constant 2 2 [2; 0; 1]%nat [7; 8; 9]%nat = Ok [INR 8; INR 9; INR 7].
Proof. reflexivity. Qed.

(** OrientedFacetNormal: on facets between cells with different markers the
    normal of the cell with the larger marker, on exterior facets the normal
    of the cell. *)
Theorem C75_oriented tdim c2d marker facets vs :
  NoDup c2d -> Forall (fun i => (i < length c2d)%nat) c2d -> length marker = length c2d ->
  Forall (fun f => f_area f <> 0 /\ (f_plus f < length c2d)%nat /\ forall k, f_minus f = Some k -> (k < length c2d)%nat) facets ->
  OrientedFacetNormal tdim tdim c2d marker facets = Ok vs ->
  Forall2 (fun f v => exists high, seen_from f high v /\
    forall other n, seen_from f other n -> (nth other marker 0 <= nth high marker 0)%nat) facets vs.
Proof.
  intros Hn Hb Hl Hf. unfold OrientedFacetNormal.
  destruct (C75_constant tdim tdim c2d marker Hn Hb Hl) as (_ & H). destruct (H eq_refl) as (values & E & _ & Hv). clear H.
  rewrite E. cbn [bind]. unfold orient_facet_normal. cbn [negb]. intros G. injection G as <-.
  induction Hf as [| f facets (Ha & Hp & Hm) Hf IH]; cbn [map]; constructor; [| exact IH].
  rewrite !average_id by exact Ha. destruct (f_minus f) as [k |] eqn:Ek.
  - rewrite average_id by exact Ha. rewrite !Hv by (try exact Hp; apply Hm; reflexivity).
    assert (S : forall other n, seen_from f other n -> other = f_plus f \/ other = k).
    { intros other n [| k' Ek']; [left; reflexivity |]. right. rewrite Ek in Ek'. injection Ek' as <-. reflexivity. }
    destruct (Rgt_dec (INR (nth (f_plus f) marker 0%nat)) (INR (nth k marker 0%nat))) as [g | g].
    + exists (f_plus f). split; [constructor |]. intros other n So. apply INR_lt in g. destruct (S other n So) as [-> | ->]; lia.
    + exists k. split; [constructor; exact Ek |]. assert (g' : (nth (f_plus f) marker 0 <= nth k marker 0)%nat).
      { apply INR_le. lra. } intros other n So. destruct (S other n So) as [-> | ->]; lia.
  - exists (f_plus f). split; [constructor |]. intros other n [| k' Ek']; [lia | congruence].
Qed.
Print Assumptions C75_oriented.

(** So on flat meshes it points out of the cell with the larger marker and
    into the other. *)
Theorem C75_points high low qs f v :
  seen_from f high v -> seen_from f low (rscale (-1) v) -> (forall cell n c, seen_from f c n -> nth_error qs c = Some cell -> outward cell (f_verts f) n) ->
  forall ch cl, nth_error qs high = Some ch -> nth_error qs low = Some cl ->
  outward ch (f_verts f) v /\ forall p q, In p cl -> In q (f_verts f) -> row_times v q <= row_times v p.
Proof.
  intros Sh Sl Ho ch cl Eh El. split; [exact (Ho ch v high Sh Eh) |]. intros p q Ip Iq.
  pose proof (Ho cl _ low Sl El p q Ip Iq) as H.
  assert (G : forall x, row_times (rscale (-1) v) x = - row_times v x).
  { intros x. change (rdot (rscale (-1) v) x = - rdot v x). rewrite (rdot_comm (rscale (-1) v) x), rdot_rscale_r, (rdot_comm x v). ring. }
  rewrite !G in H. lra.
Qed.
Print Assumptions C75_points.

(** Two triangles and their common edge. *)
Definition lower := [[-2; 0]; [2; 0]; [0; -1]].
Definition upper := [[-2; 0]; [2; 0]; [0; 1]].
Definition edge := Facet 0 (Some 1%nat) 4 [[-2; 0]; [2; 0]] [0; 1] [0; -1].
Example C75_oriented_ex :
  OrientedFacetNormal 2 2 [1; 0]%nat [3; 5]%nat [edge] = Ok [[1 / 4 * (4 * 0); 1 / 4 * (4 * (-1))]] /\
  (forall cell n c, seen_from edge c n -> nth_error [lower; upper] c = Some cell -> outward cell (f_verts edge) n).
Proof.
  split.
  - unfold OrientedFacetNormal, orient_facet_normal. cbn. destruct (Rgt_dec _ _) as [g | g]; [| reflexivity]. exfalso. lra.
  - intros cell n c [| k Ek] E; [| injection Ek as <-]; cbn in E; injection E as <-; intros p q Ip Iq; cbn in Ip, Iq;
      destruct Ip as [<- | [<- | [<- | []]]]; destruct Iq as [<- | [<- | []]]; cbn [row_times f_np f_nm edge]; lra.
Qed.

(** The normal does not depend on which cell is '+', if the markers differ. *)
Theorem C75_sides_partial same K facets facets' :
  Forall2 (fun f g => f = g \/ turned f g /\ forall k, f_minus f = Some k -> K (f_plus f) <> K k) facets facets' ->
  orient_facet_normal same K facets = orient_facet_normal same K facets'.
Proof.
  intros H. unfold orient_facet_normal. destruct same; [| reflexivity]. cbn [negb]. f_equal.
  induction H as [| f g fs gs Hfg H IH]; cbn [map]; [reflexivity |]. rewrite IH. f_equal.
  destruct Hfg as [-> | ((k & Ek & ->) & Hk)]; [reflexivity |]. rewrite Ek. cbn [f_minus f_plus f_np f_nm]. specialize (Hk k Ek).
  unfold average. cbn [f_area]. f_equal. f_equal. destruct (Rgt_dec (K (f_plus f)) (K k)), (Rgt_dec (K k) (K (f_plus f))); try reflexivity; exfalso; lra.
Qed.
Print Assumptions C75_sides_partial.
Theorem C75_sides_refuted :
  exists K f g v v', turned f g /\ orient_facet_normal true K [f] = Ok [v] /\ orient_facet_normal true K [g] = Ok [v'] /\ v <> v'.
Proof.
  exists (fun _ => 0), edge, (Facet 1 (Some 0%nat) 4 [[-2; 0]; [2; 0]] [0; -1] [0; 1]), [0; -1], [0; 1].
  split; [exists 1%nat; split; reflexivity |]. unfold orient_facet_normal. cbn [negb map f_minus f_plus f_np f_nm edge].
  destruct (Rgt_dec 0 0) as [g | _]; [lra |]. rewrite !average_id by (cbn; lra). split; [reflexivity |]. split; [reflexivity |].
  intros E. injection E as E. lra.
Qed.
Print Assumptions C75_sides_refuted.

(** CentroidVector, CircumVector: on each facet the difference of the two
    points. *)
Theorem C75_vector m Center cs vs :
  (1 < m_tdim m)%nat -> Center m = Ok cs -> Forall (fun c => length c = m_gdim m) cs ->
  Forall (sound_facet (m_gdim m) (length cs)) (m_facets m) -> CenterVector m Center = Ok vs ->
  Forall2 (fun f v => exists x y, ends (m_gdim m) cs f x y /\ length v = m_gdim m /\ forall k, nth k v 0 = nth k x 0 - nth k y 0) (m_facets m) vs.
Proof.
  intros Ht Ec Hc Hf. unfold CenterVector. rewrite Ec. cbn [bind]. apply Nat.ltb_lt in Ht. rewrite Ht. intros E. injection E as <-.
  clear Ec. rewrite Forall_forall in Hc. assert (G : forall k, (k < length cs)%nat -> nth_error cs k = Some (center cs k) /\ length (center cs k) = m_gdim m).
  { intros k Hk. unfold center. split; [apply nth_error_nth'; exact Hk | apply Hc, nth_In; exact Hk]. }
  induction Hf as [| f fs (Ha & Hv & Hl & Hp & Hm) Hf IH]; cbn [map]; constructor; [| exact IH].
  destruct (G _ Hp) as (Ep & Lp). unfold jump. destruct (f_minus f) as [k |] eqn:Ek.
  - destruct (G k (Hm k eq_refl)) as (Ek' & Lk). exists (center cs (f_plus f)), (center cs k).
    split; [exact (ends_interior _ _ _ _ _ k Ek Ep Ek') |]. rewrite average_id by exact Ha. split; [rewrite rsub_length; lia |].
    intros i. apply nth_rsub. lia.
  - exists (center cs (f_plus f)), (facet_centroid m f). unfold facet_centroid. rewrite !average_id by exact Ha.
    pose proof (mean_ok _ _ Hv Hl) as Hmean. split; [exact (ends_exterior _ _ _ _ _ Ek Ep Hmean) |]. pose proof (proj1 Hmean).
    split; [rewrite rsub_length; lia |]. intros i. apply nth_rsub. lia.
Qed.
Print Assumptions C75_vector.

(** CentroidDistance, CircumDistance: their distance. *)
Theorem C75_distance m Center cs ds :
  (1 < m_tdim m)%nat -> Center m = Ok cs -> Forall (fun c => length c = m_gdim m) cs ->
  Forall (sound_facet (m_gdim m) (length cs)) (m_facets m) -> CenterDistance m (fun m => CenterVector m Center) = Ok ds ->
  Forall2 (fun f r => exists x y, ends (m_gdim m) cs f x y /\ r = dist x y) (m_facets m) ds.
Proof.
  intros Ht Ec Hc Hf. unfold CenterDistance. destruct (CenterVector m Center) as [vs | e] eqn:Ev; cbn [bind]; [| discriminate].
  pose proof (C75_vector m Center cs vs Ht Ec Hc Hf Ev) as H. apply Nat.ltb_lt in Ht. rewrite Ht. intros E. injection E as <-. clear Ec Ev Ht.
  induction H as [| f v fs vs (x & y & He & Lv & Hk) H IH]; cbn [combine map]; constructor.
  - exists x, y. split; [exact He |]. inversion Hf as [| ? ? (Ha & _) _]. cbn [fst snd]. rewrite average1_id by exact Ha.
    assert (L : length x = m_gdim m /\ length y = m_gdim m).
    { rewrite Forall_forall in Hc. destruct He as [k Ek Ex Ey | Ek Ex (Ly & _)]; (split; [apply Hc; eapply nth_error_In; exact Ex |]); [apply Hc; eapply nth_error_In; exact Ey | exact Ly]. }
    rewrite <- rnorm_dist. f_equal. apply list_ext; [rewrite rsub_length; lia |]. intros i _. rewrite Hk, nth_rsub by lia. reflexivity.
  - apply IH. inversion Hf. assumption.
Qed.
Print Assumptions C75_distance.
Example C75_distance_ex : forall lu, solves_regular lu -> exists m, (1 < m_tdim m)%nat /\ m_facets m <> [] /\ CentroidDistance m = Ok [rnorm [0; -2 / 3]] /\
  exists cs, CellCircumcenter lu m = Ok cs.
Proof.
  intros lu Hlu. exists (FMesh 2 2 [lower; upper] [edge]). split; [cbn; lia |]. split; [discriminate |]. split.
  - unfold CentroidDistance, CenterDistance, CentroidVector, CenterVector. cbn [CellCentroid bind m_tdim Nat.ltb Nat.leb m_facets map combine fst snd m_cells m_gdim].
    unfold jump. cbn [f_minus edge f_plus center nth]. rewrite average_id, average1_id by (cbn; lra). f_equal. f_equal. f_equal.
    unfold mean. cbn. repeat (f_equal; try field).
  - unfold CellCircumcenter. cbn [mapM m_cells m_tdim m_gdim cell_circumcenter lower upper concat app bind]. eexists. reflexivity.
Qed.

(** CircumDistance2: the sum of the distances from the centers to the mean
    of the vertices of the facet, on exterior facets that of the one center;
    it is not smaller than the distance of the centers. *)
Theorem C75_distance2 m Center cs ds :
  Center m = Ok cs -> Forall (fun c => length c = m_gdim m) cs ->
  Forall (sound_facet (m_gdim m) (length cs)) (m_facets m) -> CenterDistance2 m (fun m => CenterVectors m Center) = Ok ds ->
  Forall2 (fun f r => exists x z, nth_error cs (f_plus f) = Some x /\ mean_of (m_gdim m) (f_verts f) z /\
     match f_minus f with
     | Some k => exists y, nth_error cs k = Some y /\ r = dist x z + dist y z /\ dist x y <= r
     | None => r = dist x z
     end) (m_facets m) ds.
Proof.
  intros Ec Hc Hf. unfold CenterDistance2, CenterVectors. destruct (1 <? m_tdim m)%nat; cbn [negb]; [| discriminate]. rewrite Ec. cbn [bind].
  destruct (nonzero _); cbn [negb bind]; [| discriminate]. destruct (nonzero _); cbn [negb bind]; [| discriminate].
  intros E. injection E as <-. clear Ec. rewrite Forall_forall in Hc.
  assert (G : forall k, (k < length cs)%nat -> nth_error cs k = Some (center cs k) /\ length (center cs k) = m_gdim m).
  { intros k Hk. unfold center. split; [apply nth_error_nth'; exact Hk | apply Hc, nth_In; exact Hk]. }
  induction Hf as [| f fs (Ha & Hv & Hl & Hp & Hm) Hf IH]; cbn [map combine]; constructor; [| exact IH].
  destruct (G _ Hp) as (Ep & Lp). pose proof (mean_ok _ _ Hv Hl) as Hmean.
  exists (center cs (f_plus f)), (facet_centroid m f). split; [exact Ep |]. unfold facet_centroid. rewrite !average_id by exact Ha. split; [exact Hmean |].
  destruct (f_minus f) as [k |]; rewrite !average1_id, !rnorm_dist by exact Ha.
  - destruct (G k (Hm k eq_refl)) as (Ek & Lk). exists (center cs k). split; [exact Ek |]. split; [reflexivity |].
    apply triangle_inequality; rewrite (proj1 Hmean); assumption.
  - lra.
Qed.
Print Assumptions C75_distance2.

(** With circumcenters on meshes of triangles and tetrahedra: the distances of the points that are equally far from
    the vertices of the cells, always without failure; the second one fails exactly as below *)
Theorem C75_circum : forall lu d m, solves_regular lu -> simplicial d m ->
  exists cs ds, Forall2 (circumcenter d) (m_cells m) cs /\ CircumDistance lu m = Ok ds /\
    Forall2 (fun f r => exists x y, ends d cs f x y /\ r = dist x y) (m_facets m) ds /\
    forall ds2, CircumDistance2 lu m = Ok ds2 ->
      Forall2 (fun f r => exists x z, nth_error cs (f_plus f) = Some x /\ mean_of d (f_verts f) z /\
        match f_minus f with
        | Some k => exists y, nth_error cs k = Some y /\ r = dist x z + dist y z /\ dist x y <= r
        | None => r = dist x z
        end) (m_facets m) ds2.
Proof.
  intros lu d m Hlu S. destruct (circumcenters_ok lu d m Hlu S) as (cs & Ec & Fc). pose proof (vector_is_jump lu d m cs S Ec) as Ev. destruct S as (Hd & Et & Eg & Hc & Hf).
  assert (T : (1 < m_tdim m)%nat) by (rewrite Et; destruct Hd as [-> | ->]; lia).
  assert (L : Forall (fun c => length c = m_gdim m) cs).
  { rewrite Eg. clear - Fc. induction Fc as [| a b la lb ((Hl & _) & _) F IH]; constructor; assumption. }
  assert (N : length cs = length (m_cells m)) by (clear - Fc; induction Fc; cbn [length]; congruence).
  assert (SF : Forall (sound_facet (m_gdim m) (length cs)) (m_facets m)).
  { rewrite Eg, N. eapply Forall_impl; [| exact Hf]. intros f (Ha & (Lv & Hv) & _ & _ & _ & _ & (c & Hp & _) & Hm). repeat split; [exact Ha | destruct (f_verts f); [destruct Hd as [-> | ->]; discriminate Lv | discriminate] | exact Hv | apply nth_error_Some; congruence |].
    intros k Ek. destruct (Hm k Ek) as (c' & Hc' & _). apply nth_error_Some. congruence. }
  exists cs. unfold CircumDistance. destruct (CenterDistance m (CircumVector lu)) as [ds | e] eqn:Ed.
  - exists ds. split; [exact Fc |]. split; [reflexivity |]. rewrite <- Eg. split.
    + apply (C75_distance m (CellCircumcenter lu) cs ds T Ec L SF). exact Ed.
    + intros ds2 E2. apply (C75_distance2 m (CellCircumcenter lu) cs ds2 Ec L SF). exact E2.
  - exfalso. unfold CenterDistance in Ed. rewrite Ev in Ed. discriminate Ed.
Qed.
Print Assumptions C75_circum.

(** It is refused on meshes of intervals and if all centers are at the
    origin. *)
Theorem C75_returns m Center cs :
  Center m = Ok cs -> (1 < m_tdim m)%nat -> Forall (fun f => f_area f <> 0) (m_facets m) ->
  ((exists ds, CenterDistance2 m (fun m => CenterVectors m Center) = Ok ds) <->
   (exists f i, In f (m_facets m) /\ nth i (nth (f_plus f) cs []) 0 <> 0) /\
   (exists f i, In f (m_facets m) /\ nth i (nth (match f_minus f with Some k => k | None => f_plus f end) cs []) 0 <> 0)).
Proof.
  intros Ec Ht Ha. unfold CenterDistance2, CenterVectors. apply Nat.ltb_lt in Ht. rewrite Ht, Ec. cbn [negb bind].
  assert (G : forall g : facet -> nat, nonzero (map (fun f => average f (center cs (g f))) (m_facets m)) = true <->
              exists f i, In f (m_facets m) /\ nth i (nth (g f) cs []) 0 <> 0).
  { intros g. unfold nonzero. rewrite existsb_exists. split.
    - intros (v & Iv & Hv). apply in_map_iff in Iv. destruct Iv as (f & <- & If). rewrite Forall_forall in Ha. rewrite average_id in Hv by exact (Ha f If).
      apply existsb_exists in Hv. destruct Hv as (x & Ix & Hx). destruct (Req_EM_T x 0) as [_ | N]; [discriminate Hx |].
      apply (In_nth _ _ 0) in Ix. destruct Ix as (i & _ & Ei). exists f, i. split; [exact If |]. unfold center in Ei. rewrite Ei. exact N.
    - intros (f & i & If & Hi). exists (average f (center cs (g f))). split; [apply in_map_iff; exists f; split; [reflexivity | exact If] |].
      rewrite Forall_forall in Ha. rewrite average_id by exact (Ha f If). apply existsb_exists. exists (nth i (center cs (g f)) 0). split.
      + apply nth_In. destruct (Nat.lt_ge_cases i (length (center cs (g f)))) as [L | L]; [exact L |]. rewrite nth_overflow in Hi by exact L. congruence.
      + unfold center. destruct (Req_EM_T _ 0) as [E | _]; [contradiction | reflexivity]. }
  pose proof (G f_plus) as G1. pose proof (G (fun f => match f_minus f with Some k => k | None => f_plus f end)) as G2. cbn beta in G1, G2.
  rewrite <- G1, <- G2. clear G G1 G2.
  destruct (nonzero _); cbn [negb bind]; [| split; [intros (? & E); discriminate E | intros (E & _); discriminate E]].
  destruct (nonzero _); cbn [negb bind]; [| split; [intros (? & E); discriminate E | intros (_ & E); discriminate E]].
  split; [intros _; split; reflexivity | intros _; eexists; reflexivity].
Qed.
Print Assumptions C75_returns.
Definition single := FMesh 2 2 [[[-1; 0]; [1; 0]; [0; 0]]] [Facet 0 None 2 [[-1; 0]; [1; 0]] [0; 1] []].
Theorem C75_origin_refuted : exists m, (1 < m_tdim m)%nat /\ m_facets m <> [] /\ Forall (sound_facet 2 (length (m_cells m))) (m_facets m) /\
  CenterDistance2 m CentroidVector2 = Err AssertionError.
Proof.
  exists single. split; [cbn; lia |]. split; [discriminate |]. split.
  - constructor; [| constructor]. split; [cbn; lra |]. split; [discriminate |]. split; [repeat constructor |]. split; [cbn; lia |]. intros k Ek. discriminate Ek.
  - assert (N : ~ exists ds, CenterDistance2 single CentroidVector2 = Ok ds).
    { unfold CentroidVector2. rewrite (C75_returns single CellCentroid _ eq_refl ltac:(cbn; lia) ltac:(constructor; [cbn; lra | constructor])).
      intros ((f & i & [<- | []] & Hi) & _). apply Hi. destruct i as [| [| [| i]]]; cbn; try (field || reflexivity). }
    unfold CenterDistance2, CentroidVector2, CenterVectors in *. cbn [single m_tdim Nat.ltb Nat.leb negb CellCentroid bind m_facets] in *.
    destruct (nonzero _); cbn [negb bind] in *; [| reflexivity]. exfalso. apply N. eexists. reflexivity.
Qed.
Print Assumptions C75_origin_refuted.

(** CentroidDistance2 is no distance: on a facet it is the length of the
    vector of the coordinates of both centroids. *)
Theorem C75_centroid2 m cs ds :
  (1 < m_tdim m)%nat -> CellCentroid m = Ok cs -> Forall (fun f => f_area f <> 0) (m_facets m) -> CentroidDistance2 m = Ok ds ->
  Forall2 (fun f r => r = sqrt (row_times (nth (f_plus f) cs []) (nth (f_plus f) cs []) +
                                let o := match f_minus f with Some k => k | None => f_plus f end in row_times (nth o cs []) (nth o cs []))) (m_facets m) ds.
Proof.
  intros Ht Ec Ha. unfold CentroidDistance2, CenterDistance, CentroidVector2, CenterVectors. rewrite Ec. cbn [bind]. apply Nat.ltb_lt in Ht. rewrite Ht.
  destruct (nonzero _); cbn [negb bind]; [| discriminate]. destruct (nonzero _); cbn [negb bind]; [| discriminate].
  intros E. injection E as <-. induction Ha as [| f fs Hf Ha IH]; cbn [map combine]; constructor; [| exact IH].
  cbn [fst snd]. rewrite average1_id, !average_id by exact Hf. unfold rnorm. f_equal.
  assert (G : forall x y, rdot (x ++ y) (x ++ y) = rdot x x + rdot y y).
  { clear. induction x as [| a x IH]; intros y; cbn [app rdot]; [ring | rewrite IH; ring]. }
  rewrite G. reflexivity.
Qed.
Print Assumptions C75_centroid2.
Definition shifted := FMesh 2 2 [[[-2; 3]; [2; 3]; [0; 2]]; [[-2; 3]; [2; 3]; [0; 4]]] [Facet 0 (Some 1%nat) 4 [[-2; 3]; [2; 3]] [0; 1] [0; -1]].
Theorem C75_centroid2_refuted :
  exists m r, (1 < m_tdim m)%nat /\ CentroidDistance m = Ok [r] /\ forall ds, CentroidDistance2 m = Ok ds -> exists r', ds = [r'] /\ r < r'.
Proof.
  exists shifted, (2 / 3). split; [cbn; lia |]. 
  assert (Ec : CellCentroid shifted = Ok [mean 2 [[-2; 3]; [2; 3]; [0; 2]]; mean 2 [[-2; 3]; [2; 3]; [0; 4]]]) by reflexivity.
  assert (E1 : mean 2 [[-2; 3]; [2; 3]; [0; 2]] = [0; 8 / 3]) by (unfold mean; cbn; repeat (f_equal; try field)).
  assert (E2 : mean 2 [[-2; 3]; [2; 3]; [0; 4]] = [0; 10 / 3]) by (unfold mean; cbn; repeat (f_equal; try field)).
  rewrite E1, E2 in Ec. split.
  - unfold CentroidDistance, CenterDistance, CentroidVector, CenterVector. rewrite Ec.
    cbn [bind m_tdim shifted Nat.ltb Nat.leb m_facets map combine fst snd]. unfold jump. cbn [f_minus f_plus center nth].
    rewrite average_id, average1_id by (cbn; lra). f_equal. f_equal. unfold rnorm. cbn [rsub rdot].
    replace ((0 - 0) * (0 - 0) + ((8 / 3 - 10 / 3) * (8 / 3 - 10 / 3) + 0)) with (2 / 3 * (2 / 3)) by field. apply sqrt_square. lra.
  - intros ds Hd. pose proof (C75_centroid2 shifted _ ds ltac:(cbn; lia) Ec ltac:(constructor; [cbn; lra | constructor]) Hd) as H.
    inversion H as [| f r' fs rs Hr Hn E3 E4]. subst. inversion Hn. subst. eexists. split; [reflexivity |]. cbn [f_plus f_minus nth row_times].
    rewrite <- (sqrt_square (2 / 3)) by lra. apply sqrt_lt_1; lra.
Qed.
Print Assumptions C75_centroid2_refuted.

(** On meshes of intervals the functions have one value for each cell, not
    for each facet. *)
Definition two_intervals := FMesh 1 1 [[[0]; [1]]; [[1]; [2]]]
  [Facet 0 None 1 [[0]] [-1] []; Facet 0 (Some 1%nat) 1 [[1]] [1] [-1]; Facet 1 None 1 [[2]] [1] []].
Theorem C75_line_refuted :
  exists m ds, m_tdim m = 1%nat /\ CentroidDistance m = Ok ds /\ length ds <> length (m_facets m) /\ ds = [1; 1 / 2].
Proof.
  exists two_intervals, [1; 1 / 2]. split; [reflexivity |]. split; [| split; [discriminate | reflexivity]].
  assert (E0 : CellCentroid two_intervals = Ok [[1 / 2]; [3 / 2]]).
  { unfold CellCentroid, mean. cbn. repeat (f_equal; try field). }
  assert (EV : CentroidVector two_intervals = Ok [[- (1 / 2)]; [- (1 / 2)]]).
  { unfold CentroidVector, CenterVector. rewrite E0. cbn [bind]. unfold plus_facets, jump, facet_centroid, average, mean. cbn. repeat (f_equal; try field). }
  unfold CentroidDistance, CenterDistance. rewrite EV. cbn [bind].
  assert (EN : rnorm [- (1 / 2)] = 1 / 2).
  { unfold rnorm. cbn [rdot]. replace (- (1 / 2) * - (1 / 2) + 0) with (1 / 2 * (1 / 2)) by field. apply sqrt_square. lra. }
  unfold plus_facets, average1. cbn [two_intervals m_tdim Nat.ltb Nat.leb m_cells length seq map m_facets filter f_plus Nat.eqb nth]. rewrite EN.
  unfold lsum. cbn. repeat (f_equal; try field).
Qed.
Print Assumptions C75_line_refuted.

(** ** C76 *)

(** On the interior facets of every simplicial mesh in 2d and 3d with
    different circumcenters next to each other the answer is zero, be it
    Delaunay or not. *)
Theorem C76_interior lu d m tol :
  solves_regular lu -> simplicial d m -> 0 < tol < 1 -> (exists f k, In f (m_facets m) /\ f_minus f = Some k) ->
  distinct d m (fun f => f_minus f <> None) -> is_delaunay_on lu is_interior m tol = Ok (Some 0).
Proof.
  intros Hlu Hs Ht (f0 & k0 & I0 & E0) Hd. destruct (circumcenters_ok lu d m Hlu Hs) as (cs & Ec & F).
  rewrite (delaunay_value lu is_interior m tol (jump m cs) (vector_is_jump lu d m cs Hs Ec) (fits_basic d m Hs) Ht).
  set (l := map _ _).
  assert (Hn : l <> []).
  { intros E. apply map_eq_nil in E. assert (I : In f0 (filter is_interior (m_facets m))) by (apply filter_In; split; [exact I0 | unfold is_interior; rewrite E0; reflexivity]).
    rewrite E in I. destruct I. }
  assert (Hz : Forall (fun o => o = Some 0) l).
  { apply Forall_map, Forall_forall. intros f Hi. apply filter_In in Hi. destruct Hi as (Hi & Hm).
    assert (Hm' : f_minus f <> None) by (unfold is_interior in Hm; destruct (f_minus f); [discriminate | discriminate Hm]).
    destruct (facet_defect d m cs f Hs F Hi) as (v & Ev & _ & Hv).
    { intros f' c x y If' <-. apply Hd; assumption. }
    rewrite Ev. f_equal. apply Hv. intros E. contradiction. }
  destruct (norm_inf_values l Hn) as (v & -> & _ & Hv).
  { eapply Forall_impl; [| exact Hz]. intros o ->. exists 0. split; [reflexivity | lra]. }
  do 2 f_equal. apply Hv. exact Hz.
Qed.
Print Assumptions C76_interior.

(** On the exterior facets the answer is zero exactly if the mean of the
    vertices of each facet is equally far from them. *)
Theorem C76_exterior lu d m tol :
  solves_regular lu -> simplicial d m -> 0 < tol < 1 -> (exists f, In f (m_facets m) /\ f_minus f = None) ->
  distinct d m (fun f => f_minus f = None) ->
  exists v, is_delaunay_on lu (fun f => negb (is_interior f)) m tol = Ok (Some v) /\ 0 <= v /\
    (v = 0 <-> forall f y p q, In f (m_facets m) -> f_minus f = None -> mean_of d (f_verts f) y -> In p (f_verts f) -> In q (f_verts f) -> dist y p = dist y q).
Proof.
  intros Hlu Hs Ht (f0 & I0 & E0) Hd. destruct (circumcenters_ok lu d m Hlu Hs) as (cs & Ec & F).
  rewrite (delaunay_value lu _ m tol (jump m cs) (vector_is_jump lu d m cs Hs Ec) (fits_basic d m Hs) Ht).
  set (l := map _ _).
  assert (Hn : l <> []).
  { intros E. apply map_eq_nil in E. assert (I : In f0 (filter (fun f => negb (is_interior f)) (m_facets m))) by (apply filter_In; split; [exact I0 | unfold is_interior; rewrite E0; reflexivity]).
    rewrite E in I. destruct I. }
  assert (D : forall f, In f (m_facets m) -> f_minus f = None -> exists v, defect (f_np f) (jump m cs f) = Some v /\ 0 <= v /\
    (v = 0 <-> forall y p q, mean_of d (f_verts f) y -> In p (f_verts f) -> In q (f_verts f) -> sq_dist y p = sq_dist y q)).
  { intros f Hi Hm. destruct (facet_defect d m cs f Hs F Hi) as (v & Ev & Pv & Hv).
    { intros f' c x y If' <-. apply Hd; assumption. }
    exists v. split; [exact Ev |]. split; [exact Pv |]. rewrite Hv. split; [intros H; exact (H Hm) | intros H _; exact H]. }
  assert (X : forall f, In f (filter (fun f => negb (is_interior f)) (m_facets m)) <-> In f (m_facets m) /\ f_minus f = None).
  { intros f. rewrite filter_In. unfold is_interior. destruct (f_minus f); cbn; split; intros (A & B); split; congruence || assumption. }
  destruct (norm_inf_values l Hn) as (v & Ev & Pv & Hv).
  { apply Forall_map, Forall_forall. intros f Hi. apply X in Hi. destruct Hi as (Hi & Hm). destruct (D f Hi Hm) as (v & Ev & Pv & _). exists v. split; assumption. }
  exists v. split; [exact Ev |]. split; [exact Pv |]. rewrite Hv. unfold l. rewrite Forall_map, Forall_forall. split.
  - intros H f y p q Hi Hm Hy Ip Iq. unfold dist. f_equal. pose proof (H f (proj2 (X f) (conj Hi Hm))) as E.
    destruct (D f Hi Hm) as (w & Ew & _ & Hw). rewrite Ew in E. injection E as E. exact (proj1 Hw E y p q Hy Ip Iq).
  - intros H f Hi. apply X in Hi. destruct Hi as (Hi & Hm). destruct (D f Hi Hm) as (w & Ew & _ & Hw). rewrite Ew. f_equal. apply Hw.
    intros y p q Hy Ip Iq. pose proof (H f y p q Hi Hm Hy Ip Iq) as E. unfold dist in E.
    assert (N : forall a b, 0 <= sq_dist a b) by (intros a b; rewrite <- sq_dist_rdot; apply rdot_nonneg).
    apply sqrt_inj; [apply N | apply N | exact E].
Qed.
Print Assumptions C76_exterior.

(** In 2d the mean of the ends of an edge is equally far from them: the
    answer is zero on every mesh. *)
Theorem C76_plane lu m tol :
  solves_regular lu -> simplicial 2 m -> 0 < tol < 1 ->
  (exists f k, In f (m_facets m) /\ f_minus f = Some k) -> (exists f, In f (m_facets m) /\ f_minus f = None) -> distinct 2 m (fun _ => True) ->
  is_delaunay lu m tol = Ok (Some 0, Some 0).
Proof.
  intros Hlu Hs Ht Hi He Hd. unfold is_delaunay.
  rewrite (C76_interior lu 2 m tol Hlu Hs Ht Hi) by (intros f c x y If _; exact (Hd f c x y If I)). cbn [bind].
  destruct (C76_exterior lu 2 m tol Hlu Hs Ht He) as (v & -> & _ & Hv); [intros f c x y If _; exact (Hd f c x y If I) |]. cbn [bind].
  do 3 f_equal. apply Hv. intros f y p q If Em (Ly & My) Ip Iq. destruct Hs as (_ & _ & _ & _ & Hf). rewrite Forall_forall in Hf.
  destruct (Hf f If) as (_ & Hc & _). destruct (cell_2_2 _ Hc) as (ax & ay & bx & by_ & E). rewrite E in *. cbn [length map total] in My.
  destruct y as [| y1 [| y2 [| ? ?]]]; try discriminate Ly. pose proof (My 0%nat ltac:(lia)) as M0. pose proof (My 1%nat ltac:(lia)) as M1. cbn in M0, M1.
  assert (y1 = (ax + bx) / 2) by lra. assert (y2 = (ay + by_) / 2) by lra. subst y1 y2.
  unfold dist. f_equal. destruct Ip as [<- | [<- | []]]; destruct Iq as [<- | [<- | []]]; cbn; field.
Qed.
Print Assumptions C76_plane.

(** The first answer is that for the interior facets, the second that for the others. *)
Theorem C76_both lu m tol a b :
  is_delaunay lu m tol = Ok (a, b) <-> is_delaunay_on lu (fun f => match f_minus f with Some _ => true | None => false end) m tol = Ok a /\
    is_delaunay_on lu (fun f => match f_minus f with Some _ => false | None => true end) m tol = Ok b.
Proof.
  unfold is_delaunay. replace (is_delaunay_on lu (fun f => match f_minus f with Some _ => false | None => true end) m tol) with (is_delaunay_on lu (fun f => negb (is_interior f)) m tol).
  - change (fun f => match f_minus f with Some _ => true | None => false end) with is_interior. destruct (is_delaunay_on lu is_interior m tol) as [x | e]; cbn [bind]; [| split; [discriminate | intros [H _]; discriminate]].
    destruct (is_delaunay_on lu (fun f => negb (is_interior f)) m tol) as [y | e]; cbn [bind]; [| split; [discriminate | intros [_ H]; discriminate]].
    split; [intros H; injection H as -> ->; split; reflexivity | intros [H1 H2]; injection H1 as ->; injection H2 as ->; reflexivity].
  - f_equal. apply Coq.Logic.FunctionalExtensionality.functional_extensionality. intros f. unfold is_interior. destruct (f_minus f); reflexivity.
Qed.
Print Assumptions C76_both.

(** Without interior facets there is no answer. *)
Theorem C76_single_refuted lu d m tol :
  solves_regular lu -> simplicial d m -> 0 < tol < 1 -> (forall f, In f (m_facets m) -> f_minus f = None) -> is_delaunay lu m tol = Err ValueError.
Proof.
  intros Hlu Hs Ht H. destruct (circumcenters_ok lu d m Hlu Hs) as (cs & Ec & F). unfold is_delaunay.
  rewrite (delaunay_value lu is_interior m tol (jump m cs) (vector_is_jump lu d m cs Hs Ec) (fits_basic d m Hs) Ht).
  replace (filter is_interior (m_facets m)) with (@nil facet); [reflexivity |]. symmetry.
  clear - H. induction (m_facets m) as [| f l IH]; [reflexivity |]. cbn. unfold is_interior at 1. rewrite (H f (or_introl eq_refl)).
  apply IH. intros g Hg. apply H. right. exact Hg.
Qed.
Print Assumptions C76_single_refuted.

(** Neighbours with one circumcenter give nan. *)
Theorem C76_nan lu d m tol f k c c' x :
  solves_regular lu -> simplicial d m -> 0 < tol < 1 -> In f (m_facets m) -> f_minus f = Some k ->
  nth_error (m_cells m) (f_plus f) = Some c -> nth_error (m_cells m) k = Some c' ->
  (forall y, circumcenter d c y -> y = x) -> (forall y, circumcenter d c' y -> y = x) ->
  is_delaunay_on lu is_interior m tol = Ok None.
Proof.
  intros Hlu Hs Ht If Ek E1 E2 U1 U2. destruct (circumcenters_ok lu d m Hlu Hs) as (cs & Ec & F).
  rewrite (delaunay_value lu is_interior m tol (jump m cs) (vector_is_jump lu d m cs Hs Ec) (fits_basic d m Hs) Ht).
  apply norm_inf_nan. apply in_map_iff. exists f. split; [| apply filter_In; split; [exact If | unfold is_interior; rewrite Ek; reflexivity]].
  unfold jump. rewrite Ek, average_id by (pose proof (fits_basic d m Hs) as Hb; rewrite Forall_forall in Hb; exact (proj1 (Hb f If))).
  rewrite (U1 _ (center_of d m cs _ _ F E1)), (U2 _ (center_of d m cs _ _ F E2)).
  unfold defect, cosine. assert (N : rnorm (rsub x x) = 0).
  { rewrite rnorm_dist. unfold dist. replace (sq_dist x x) with 0; [apply sqrt_0 |]. clear. induction x as [| a x IH]; cbn [sq_dist]; [reflexivity | rewrite <- IH; ring]. }
  rewrite N. destruct (Req_EM_T 0 0); [reflexivity | congruence].
Qed.
Print Assumptions C76_nan.

Ltac dependent_points :=
  cbn [f_verts];
  let w := fresh "w" in let Hl := fresh "Hl" in let Ht := fresh "Ht" in let Hw := fresh "Hw" in
  intros w Hl Ht Hw; cbn [length] in Hl;
  repeat (destruct w as [| ? w]; try discriminate Hl);
  pose proof (Hw 0%nat ltac:(lia)); pose proof (Hw 1%nat ltac:(lia)); try pose proof (Hw 2%nat ltac:(lia));
  cbn [weighted nth total] in *; repeat constructor; lra.
Ltac cases_in := repeat match goal with H : In _ (_ :: _) |- _ => destruct H as [<- | H] | H : In _ [] |- _ => destruct H end.
Ltac facet_fits :=
  split; [cbn; lra |]; split; [split; [reflexivity | repeat constructor] |]; split; [dependent_points |]; split; [reflexivity |];
  split; [cbn [row_times f_np]; lra |];
  split; [intros p q Ip Iq; cbn [f_verts f_np] in *; cases_in; cbn [row_times]; lra |];
  split; [eexists; split; [reflexivity |]; intros p Ip; cbn [f_verts] in Ip; cases_in; first [left; reflexivity | right; left; reflexivity | right; right; left; reflexivity | right; right; right; left; reflexivity] |
          intros k Ek; cbn [f_minus] in Ek; first [discriminate Ek | injection Ek as <-; eexists; split; [reflexivity |];
          intros p Ip; cbn [f_verts] in Ip; cases_in; first [left; reflexivity | right; left; reflexivity | right; right; left; reflexivity | right; right; right; left; reflexivity]]].

(** A rhombus of two triangles with an obtuse angle each. *)
Definition tri_up := [[-4; 0]; [4; 0]; [0; 3]].
Definition tri_down := [[-4; 0]; [4; 0]; [0; -3]].
Definition rhombus := FMesh 2 2 [tri_up; tri_down]
  [Facet 0 (Some 1%nat) 8 [[-4; 0]; [4; 0]] [0; -1] [0; 1];
   Facet 0 None 5 [[4; 0]; [0; 3]] [3 / 5; 4 / 5] []; Facet 0 None 5 [[-4; 0]; [0; 3]] [-3 / 5; 4 / 5] [];
   Facet 1 None 5 [[4; 0]; [0; -3]] [3 / 5; -4 / 5] []; Facet 1 None 5 [[-4; 0]; [0; -3]] [-3 / 5; -4 / 5] []].
Lemma center_up x : circumcenter 2 tri_up x -> x = [0; -7 / 6].
Proof.
  intros ((Lx & _) & E). destruct x as [| x1 [| x2 [| ? ?]]]; try discriminate Lx.
  pose proof (E [-4; 0] [4; 0] ltac:(cbn; auto) ltac:(cbn; auto)) as A. pose proof (E [-4; 0] [0; 3] ltac:(cbn; auto) ltac:(cbn; auto)) as B. cbn [sq_dist] in A, B.
  repeat f_equal; lra.
Qed.
Lemma center_down x : circumcenter 2 tri_down x -> x = [0; 7 / 6].
Proof.
  intros ((Lx & _) & E). destruct x as [| x1 [| x2 [| ? ?]]]; try discriminate Lx.
  pose proof (E [-4; 0] [4; 0] ltac:(cbn; auto) ltac:(cbn; auto)) as A. pose proof (E [-4; 0] [0; -3] ltac:(cbn; auto) ltac:(cbn; auto)) as B. cbn [sq_dist] in A, B.
  repeat f_equal; lra.
Qed.
Lemma rhombus_simplicial : simplicial 2 rhombus.
Proof.
  split; [left; reflexivity |]. split; [reflexivity |]. split; [reflexivity |]. split.
  - apply Forall_cons; [| apply Forall_cons; [| apply Forall_nil]].
    + split; [split; [reflexivity | repeat constructor] | unfold tri_up; dependent_points].
    + split; [split; [reflexivity | repeat constructor] | unfold tri_down; dependent_points].
  - repeat (apply Forall_cons; [facet_fits |]). apply Forall_nil.
Qed.

Lemma rhombus_distinct : distinct 2 rhombus (fun _ => True).
Proof.
  intros f c x y If _ Ec Hx. cbn [rhombus m_facets In] in If.
  destruct If as [<- | [<- | [<- | [<- | [<- | []]]]]]; cbn [f_minus f_plus f_verts rhombus m_cells nth_error] in *.
  - injection Ec as <-. intros c' Ec' Hy. injection Ec' as <-. rewrite (center_up x Hx), (center_down y Hy). intros E. injection E as E. lra.
  - injection Ec as <-. intros (Ly & My) E. rewrite (center_up x Hx) in E. subst y. pose proof (My 0%nat ltac:(lia)) as M. cbn [length INR map total nth] in M. lra.
  - injection Ec as <-. intros (Ly & My) E. rewrite (center_up x Hx) in E. subst y. pose proof (My 0%nat ltac:(lia)) as M. cbn [length INR map total nth] in M. lra.
  - injection Ec as <-. intros (Ly & My) E. rewrite (center_down x Hx) in E. subst y. pose proof (My 0%nat ltac:(lia)) as M. cbn [length INR map total nth] in M. lra.
  - injection Ec as <-. intros (Ly & My) E. rewrite (center_down x Hx) in E. subst y. pose proof (My 0%nat ltac:(lia)) as M. cbn [length INR map total nth] in M. lra.
Qed.

(** So a mesh that is not Delaunay gets the answer of those that are, *)
Theorem C76_refuted :
  exists m, simplicial 2 m /\ ~ delaunay 2 (m_cells m) /\ forall lu tol, solves_regular lu -> 0 < tol < 1 -> is_delaunay lu m tol = Ok (Some 0, Some 0).
Proof.
  exists rhombus. split; [exact rhombus_simplicial |]. split.
  - intros H. assert (Hc : circumcenter 2 tri_up [0; -7 / 6]).
    { split.
      - split; [reflexivity |]. exists [25 / 36; 25 / 36; -7 / 18]. split; [reflexivity |]. split; [cbn [total]; lra |].
        intros [| [| i]] Hi; [| | lia]; cbn [weighted nth tri_up]; lra.
      - intros p q Ip Iq. cbn [In tri_up] in Ip, Iq.
        destruct Ip as [<- | [<- | [<- | []]]]; destruct Iq as [<- | [<- | [<- | []]]]; cbn [sq_dist]; lra. }
    pose proof (H tri_up [0; -7 / 6] [0; 3] [0; -3] ltac:(cbn; auto) Hc ltac:(cbn; auto) ltac:(cbn; auto 10)) as E. cbn [sq_dist] in E. lra.
  - intros lu tol Hlu Ht. apply C76_plane; [exact Hlu | exact rhombus_simplicial | exact Ht | | | exact rhombus_distinct].
    + eexists. exists 1%nat. split; [left; reflexivity | reflexivity].
    + eexists. split; [right; left; reflexivity | reflexivity].
Qed.
Print Assumptions C76_refuted.

(** a rectangle of two triangles, which is Delaunay, has none, *)
Definition tri_right := [[0; 0]; [4; 0]; [4; 3]].
Definition tri_left := [[0; 0]; [4; 3]; [0; 3]].
Definition rectangle := FMesh 2 2 [tri_right; tri_left]
  [Facet 0 (Some 1%nat) 5 [[0; 0]; [4; 3]] [-3 / 5; 4 / 5] [3 / 5; -4 / 5];
   Facet 0 None 4 [[0; 0]; [4; 0]] [0; -1] []; Facet 0 None 3 [[4; 0]; [4; 3]] [1; 0] [];
   Facet 1 None 4 [[4; 3]; [0; 3]] [0; 1] []; Facet 1 None 3 [[0; 0]; [0; 3]] [-1; 0] []].
Lemma center_right x : circumcenter 2 tri_right x -> x = [2; 3 / 2].
Proof.
  intros ((Lx & _) & E). destruct x as [| x1 [| x2 [| ? ?]]]; try discriminate Lx.
  pose proof (E [0; 0] [4; 0] ltac:(cbn; auto) ltac:(cbn; auto)) as A. pose proof (E [0; 0] [4; 3] ltac:(cbn; auto) ltac:(cbn; auto)) as B. cbn [sq_dist] in A, B.
  assert (x1 = 2) by lra. subst x1. repeat f_equal; lra.
Qed.
Lemma center_left x : circumcenter 2 tri_left x -> x = [2; 3 / 2].
Proof.
  intros ((Lx & _) & E). destruct x as [| x1 [| x2 [| ? ?]]]; try discriminate Lx.
  pose proof (E [0; 0] [0; 3] ltac:(cbn; auto) ltac:(cbn; auto)) as A. pose proof (E [0; 0] [4; 3] ltac:(cbn; auto) ltac:(cbn; auto)) as B. cbn [sq_dist] in A, B.
  assert (x2 = 3 / 2) by lra. subst x2. repeat f_equal; lra.
Qed.
Theorem C76_nan_refuted :
  exists m, simplicial 2 m /\ delaunay 2 (m_cells m) /\ forall lu tol, solves_regular lu -> 0 < tol < 1 -> is_delaunay_on lu is_interior m tol = Ok None.
Proof.
  assert (Hs : simplicial 2 rectangle).
  { split; [left; reflexivity |]. split; [reflexivity |]. split; [reflexivity |]. split.
    - apply Forall_cons; [| apply Forall_cons; [| apply Forall_nil]].
      + split; [split; [reflexivity | repeat constructor] | unfold tri_right; dependent_points].
      + split; [split; [reflexivity | repeat constructor] | unfold tri_left; dependent_points].
    - repeat (apply Forall_cons; [facet_fits |]). apply Forall_nil. }
  exists rectangle. split; [exact Hs |]. split.
  - intros c x p v Ic Hx Ip Iv. assert (E : x = [2; 3 / 2]).
    { destruct Ic as [<- | [<- | []]]; [exact (center_right x Hx) | exact (center_left x Hx)]. }
    subst x. assert (Q : forall p, In p (concat (m_cells rectangle)) -> sq_dist [2; 3 / 2] p = 25 / 4).
    { intros r Ir. cbn [rectangle m_cells tri_right tri_left concat app In] in Ir. repeat (destruct Ir as [<- | Ir]; [cbn [sq_dist]; lra |]). destruct Ir. }
    rewrite (Q v Iv), (Q p); [lra |]. apply in_concat. exists c. split; [exact Ic | exact Ip].
  - intros lu tol Hlu Ht.
    apply (C76_nan lu 2 rectangle tol (Facet 0 (Some 1%nat) 5 [[0; 0]; [4; 3]] [-3 / 5; 4 / 5] [3 / 5; -4 / 5]) 1 tri_right tri_left [2; 3 / 2]);
      [exact Hlu | exact Hs | exact Ht | left; reflexivity | reflexivity | reflexivity | reflexivity | exact center_right | exact center_left].
Qed.
Print Assumptions C76_nan_refuted.

(** and in 3d the answer on the boundary is not zero for Delaunay meshes. *)
Definition tet := [[0; 0; 0]; [2; 0; 0]; [0; 1; 0]; [0; 0; 1]].
Definition solid := FMesh 3 3 [tet]
  [Facet 0 None 1 [[0; 0; 0]; [2; 0; 0]; [0; 1; 0]] [0; 0; -1] []; Facet 0 None 1 [[0; 0; 0]; [2; 0; 0]; [0; 0; 1]] [0; -1; 0] [];
   Facet 0 None (1 / 2) [[0; 0; 0]; [0; 1; 0]; [0; 0; 1]] [-1; 0; 0] []; Facet 0 None (3 / 2) [[2; 0; 0]; [0; 1; 0]; [0; 0; 1]] [1 / 3; 2 / 3; 2 / 3] []].
Lemma center_tet x : circumcenter 3 tet x -> x = [1; 1 / 2; 1 / 2].
Proof.
  intros ((Lx & _) & E). destruct x as [| x1 [| x2 [| x3 [| ? ?]]]]; try discriminate Lx.
  pose proof (E [0; 0; 0] [2; 0; 0] ltac:(cbn; auto) ltac:(cbn; auto)) as A. pose proof (E [0; 0; 0] [0; 1; 0] ltac:(cbn; auto) ltac:(cbn; auto)) as B.
  pose proof (E [0; 0; 0] [0; 0; 1] ltac:(cbn; auto) ltac:(cbn; auto)) as C. cbn [sq_dist] in A, B, C.
  repeat f_equal; lra.
Qed.
Theorem C76_solid_refuted :
  exists m, simplicial 3 m /\ delaunay 3 (m_cells m) /\ forall lu tol, solves_regular lu -> 0 < tol < 1 ->
    exists v, is_delaunay_on lu (fun f => negb (is_interior f)) m tol = Ok (Some v) /\ v <> 0.
Proof.
  assert (Hs : simplicial 3 solid).
  { split; [right; reflexivity |]. split; [reflexivity |]. split; [reflexivity |]. split.
    - apply Forall_cons; [| apply Forall_nil]. split; [split; [reflexivity | repeat constructor] | unfold tet; dependent_points].
    - repeat (apply Forall_cons; [facet_fits |]). apply Forall_nil. }
  exists solid. split; [exact Hs |]. split.
  - intros c x p v [<- | []] Hx Ip Iv. cbn [solid m_cells concat app] in Iv. rewrite app_nil_r in Iv. rewrite (proj2 Hx p v Ip Iv). lra.
  - intros lu tol Hlu Ht. destruct (C76_exterior lu 3 solid tol Hlu Hs Ht) as (v & Ev & _ & Hv).
    + eexists. split; [left; reflexivity | reflexivity].
    + intros f c x y If Em Ec Hx. rewrite Em. cbn [solid m_facets In] in If.
      destruct If as [<- | [<- | [<- | [<- | []]]]]; cbn [f_plus f_verts solid m_cells nth_error] in *; injection Ec as <-; intros (Ly & My) E;
        rewrite (center_tet x Hx) in E; subst y; pose proof (My 0%nat ltac:(lia)) as M0; cbn [length INR map total nth] in M0; lra.
    + exists v. split; [exact Ev |]. intros ->.
      pose proof (proj1 Hv eq_refl (Facet 0 None 1 [[0; 0; 0]; [2; 0; 0]; [0; 1; 0]] [0; 0; -1] []) [2 / 3; 1 / 3; 0] [0; 0; 0] [2; 0; 0]
                  (or_introl eq_refl) eq_refl) as E. unfold dist in E. cbn [f_verts sq_dist] in E.
      assert (Hm : mean_of 3 [[0; 0; 0]; [2; 0; 0]; [0; 1; 0]] [2 / 3; 1 / 3; 0]).
      { split; [reflexivity |]. intros [| [| [| k]]] Hk; [| | | lia]; cbn [length INR map total nth]; lra. }
      specialize (E Hm (or_introl eq_refl) (or_intror (or_introl eq_refl))). apply sqrt_inj in E; lra.
Qed.
Print Assumptions C76_solid_refuted.
