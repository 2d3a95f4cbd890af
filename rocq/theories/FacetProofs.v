(** Specification vocabulary for functions on facets, and lemmas. *)
From Verif Require Import Base BaseProofs GeomModel GeomProofs FacetModel.
From Coq Require Import Psatz.
Local Open Scope R_scope.

(** ** Vocabulary *)

(** [c] is a cell next to facet [f], [n] its normal there *)
Inductive seen_from (f : facet) : nat -> list R -> Prop :=
| seen_plus : seen_from f (f_plus f) (f_np f)
| seen_minus k : f_minus f = Some k -> seen_from f k (f_nm f).

(** [n] points out of the cell with vertices [ps] through the facet with
    vertices [qs] *)
Definition outward (ps qs : list (list R)) (n : list R) : Prop :=
  forall p q, In p ps -> In q qs -> 0 <= row_times n q - row_times n p.

(** the facet with its sides exchanged *)
Definition turned (f g : facet) : Prop :=
  exists k, f_minus f = Some k /\ g = Facet k (Some (f_plus f)) (f_area f) (f_verts f) (f_nm f) (f_np f).

(** [m] is the mean of the points *)
Definition mean_of (gdim : nat) (ps : list (list R)) (m : list R) : Prop :=
  length m = gdim /\ forall k, (k < gdim)%nat -> INR (length ps) * nth k m 0 = total (map (fun p => nth k p 0) ps).

(** the points that are compared on a facet: the centers of the two cells, or
    the center of the cell and the mean of the vertices of the facet *)
Inductive ends (gdim : nat) (cs : list (list R)) (f : facet) (x y : list R) : Prop :=
| ends_interior k : f_minus f = Some k -> nth_error cs (f_plus f) = Some x -> nth_error cs k = Some y -> ends gdim cs f x y
| ends_exterior : f_minus f = None -> nth_error cs (f_plus f) = Some x -> mean_of gdim (f_verts f) y -> ends gdim cs f x y.

(** every facet has a size, and its vertices and cells are there *)
Definition sound_facet (gdim ncells : nat) (f : facet) : Prop :=
  f_area f <> 0 /\ f_verts f <> [] /\ Forall (fun p => length p = gdim) (f_verts f) /\
  (f_plus f < ncells)%nat /\ (forall k, f_minus f = Some k -> (k < ncells)%nat).

(** the point of the hull of a cell that is equally far from the vertices *)
Definition circumcenter (gdim : nat) (cell : list (list R)) (x : list R) : Prop :=
  in_hull gdim cell x /\ forall p q, In p cell -> In q cell -> sq_dist x p = sq_dist x q.

(** no vertex inside the circumscribed sphere of a cell *)
Definition delaunay (gdim : nat) (cells : list (list (list R))) : Prop :=
  forall c x p v, In c cells -> circumcenter gdim c x -> In p c -> In v (concat cells) -> sq_dist x p <= sq_dist x v.

(** simplices of full dimension, and facets with unit normals *)
Definition fits (d : nat) (m : fmesh) (f : facet) : Prop :=
  f_area f <> 0 /\ is_cell d d (f_verts f) /\ nondegenerate d (f_verts f) /\
  length (f_np f) = d /\ row_times (f_np f) (f_np f) = 1 /\
  (forall p q, In p (f_verts f) -> In q (f_verts f) -> row_times (f_np f) p = row_times (f_np f) q) /\
  (exists c, nth_error (m_cells m) (f_plus f) = Some c /\ incl (f_verts f) c) /\
  (forall k, f_minus f = Some k -> exists c, nth_error (m_cells m) k = Some c /\ incl (f_verts f) c).
Definition simplicial (d : nat) (m : fmesh) : Prop :=
  (d = 2 \/ d = 3)%nat /\ m_tdim m = d /\ m_gdim m = d /\
  Forall (fun c => is_cell (S d) d c /\ nondegenerate d c) (m_cells m) /\ Forall (fits d m) (m_facets m).
(** on chosen facets the points that are compared differ *)
Definition distinct (d : nat) (m : fmesh) (chosen : facet -> Prop) : Prop :=
  forall f c x y, In f (m_facets m) -> chosen f -> nth_error (m_cells m) (f_plus f) = Some c -> circumcenter d c x ->
    match f_minus f with
    | Some k => forall c', nth_error (m_cells m) k = Some c' -> circumcenter d c' y -> x <> y
    | None => mean_of d (f_verts f) y -> x <> y
    end.

(** ** Lemmas *)
Lemma average_id f v : f_area f <> 0 -> average f v = v.
Proof.
  intros H. unfold average, rscale. rewrite map_map. rewrite <- (map_id v) at 2. apply map_ext. intros a. field. exact H.
Qed.
Lemma average1_id f x : f_area f <> 0 -> average1 f x = x.
Proof. intros H. unfold average1. field. exact H. Qed.

Lemma set_nth_length l i x : length (set_nth l i x) = length l.
Proof. revert i. induction l as [| a l IH]; intros [| i]; cbn; try reflexivity. rewrite IH. reflexivity. Qed.
Lemma set_nth_same l i x : (i < length l)%nat -> nth i (set_nth l i x) 0 = x.
Proof. revert i. induction l as [| a l IH]; intros [| i] H; cbn in *; try lia; try reflexivity; apply IH; lia. Qed.
Lemma set_nth_other l i j x : i <> j -> nth j (set_nth l i x) 0 = nth j l 0.
Proof. revert i j. induction l as [| a l IH]; intros [| i] [| j] H; cbn; try reflexivity; try congruence. apply IH. congruence. Qed.
Lemma scatter_length idx : forall xs l, length (scatter l idx xs) = length l.
Proof. induction idx as [| i idx IH]; intros [| x xs] l; cbn; try reflexivity. rewrite IH. apply set_nth_length. Qed.
Lemma scatter_other idx : forall xs l j, ~ In j idx -> nth j (scatter l idx xs) 0 = nth j l 0.
Proof.
  induction idx as [| i idx IH]; intros [| x xs] l j H; cbn; try reflexivity. cbn in H. rewrite IH by tauto.
  apply set_nth_other. tauto.
Qed.
Lemma scatter_at idx : forall xs l c, NoDup idx -> Forall (fun i => (i < length l)%nat) idx -> length xs = length idx -> (c < length idx)%nat ->
  nth (nth c idx 0%nat) (scatter l idx xs) 0 = nth c xs 0.
Proof.
  induction idx as [| i idx IH]; intros [| x xs] l c Hn Hb Hl Hc; cbn in *; try lia.
  inversion Hn as [| ? ? Hi Hn']. inversion Hb as [| ? ? Hil Hb']. subst. destruct c as [| c].
  - rewrite scatter_other by exact Hi. apply set_nth_same. exact Hil.
  - apply IH; try lia; [exact Hn' |]. rewrite set_nth_length. exact Hb'.
Qed.

Lemma sq_dist_rdot x y : rdot (rsub x y) (rsub x y) = sq_dist x y.
Proof. revert y. induction x as [| a x IH]; intros [| b y]; cbn [rsub rdot sq_dist]; try reflexivity. rewrite IH. ring. Qed.
Lemma rnorm_dist x y : rnorm (rsub x y) = dist x y.
Proof. unfold rnorm, dist. rewrite sq_dist_rdot. reflexivity. Qed.
Lemma row_times_rdot x y : row_times x y = rdot x y.
Proof. reflexivity. Qed.

Lemma sums_length gdim ps : Forall (fun p => length p = gdim) ps -> length (fold_right radd (repeat 0 gdim) ps) = gdim.
Proof.
  induction 1 as [| p ps Hp H IH]; cbn [fold_right]; [apply repeat_length |]. rewrite radd_length; lia.
Qed.
Lemma sums_nth gdim ps k : Forall (fun p => length p = gdim) ps -> (k < gdim)%nat ->
  nth k (fold_right radd (repeat 0 gdim) ps) 0 = total (map (fun p => nth k p 0) ps).
Proof.
  intros H Hk. induction H as [| p ps Hp H IH]; cbn [fold_right map total].
  - apply nth_repeat.
  - rewrite nth_radd, IH; [reflexivity |]. rewrite sums_length; assumption.
Qed.
Lemma mean_ok gdim ps : ps <> [] -> Forall (fun p => length p = gdim) ps -> mean_of gdim ps (mean gdim ps).
Proof.
  intros Hn Hp. unfold mean. split.
  - unfold rscale. rewrite map_length. apply sums_length. exact Hp.
  - intros k Hk. rewrite nth_rscale, sums_nth by assumption. field. apply not_0_INR. destruct ps; [congruence | discriminate].
Qed.
Lemma mean_of_unique gdim ps x y : ps <> [] -> mean_of gdim ps x -> mean_of gdim ps y -> x = y.
Proof.
  intros Hn (Hx & Ex) (Hy & Ey). apply list_ext; [lia |]. intros i Hi. assert (Hd : INR (length ps) <> 0).
  { apply not_0_INR. destruct ps; [congruence | discriminate]. }
  apply (Rmult_eq_reg_l (INR (length ps))); [| exact Hd]. rewrite Ex, Ey by lia. reflexivity.
Qed.

Lemma equal_distances : forall c d p q, length c = length p -> length d = length p -> length q = length p ->
  sq_dist c p - sq_dist c q - (sq_dist d p - sq_dist d q) = 2 * rdot (rsub c d) (rsub q p).
Proof.
  induction c as [| a c IH]; intros [| b d] [| e p] [| g q] Hc Hd Hq; cbn in Hc, Hd, Hq; try lia; cbn [sq_dist rsub rdot]; [ring |].
  injection Hc as Hc. injection Hd as Hd. injection Hq as Hq. pose proof (IH d p q Hc Hd Hq) as H. nra.
Qed.

Lemma rdot_sub_r : forall x y z, length y = length z -> rdot x (rsub y z) = rdot x y - rdot x z.
Proof.
  induction x as [| a x IH]; intros [| b y] [| c z] H; cbn in *; try lia; try ring. rewrite IH by lia. ring.
Qed.
Lemma rdot_rscale_r : forall a x y, rdot x (rscale a y) = a * rdot x y.
Proof. intros a. unfold rscale. induction x as [| b x IH]; intros [| c y]; cbn in *; try ring. rewrite IH. ring. Qed.

Lemma rsub_zero : forall x y, length x = length y -> rdot (rsub x y) (rsub x y) = 0 -> x = y.
Proof.
  intros x y Hl H. apply list_ext; [exact Hl |]. intros i Hi. pose proof (rdot_zero _ H i) as E. rewrite nth_rsub in E by exact Hl. lra.
Qed.

(** a vector orthogonal to the facet is a multiple of the normal *)
Lemma cross3 u1 u2 u3 n1 n2 n3 w1 w2 w3 :
  w1 * w1 + w2 * w2 + w3 * w3 <> 0 ->
  u2 * w3 - u3 * w2 = 0 -> u3 * w1 - u1 * w3 = 0 -> u1 * w2 - u2 * w1 = 0 ->
  n2 * w3 - n3 * w2 = 0 -> n3 * w1 - n1 * w3 = 0 -> n1 * w2 - n2 * w1 = 0 ->
  (n1 * u1 + n2 * u2 + n3 * u3) * (n1 * u1 + n2 * u2 + n3 * u3) = (n1 * n1 + n2 * n2 + n3 * n3) * (u1 * u1 + u2 * u2 + u3 * u3).
Proof.
  intros Hw A1 A2 A3 B1 B2 B3.
  assert (U1 : (w1 * w1 + w2 * w2 + w3 * w3) * u1 = (u1 * w1 + u2 * w2 + u3 * w3) * w1) by (assert (Z : w2 * (u1 * w2 - u2 * w1) - w3 * (u3 * w1 - u1 * w3) = 0) by (rewrite A3, A2; ring); lra).
  assert (U2 : (w1 * w1 + w2 * w2 + w3 * w3) * u2 = (u1 * w1 + u2 * w2 + u3 * w3) * w2) by (assert (Z : w3 * (u2 * w3 - u3 * w2) - w1 * (u1 * w2 - u2 * w1) = 0) by (rewrite A1, A3; ring); lra).
  assert (U3 : (w1 * w1 + w2 * w2 + w3 * w3) * u3 = (u1 * w1 + u2 * w2 + u3 * w3) * w3) by (assert (Z : w1 * (u3 * w1 - u1 * w3) - w2 * (u2 * w3 - u3 * w2) = 0) by (rewrite A2, A1; ring); lra).
  assert (N1 : (w1 * w1 + w2 * w2 + w3 * w3) * n1 = (n1 * w1 + n2 * w2 + n3 * w3) * w1) by (assert (Z : w2 * (n1 * w2 - n2 * w1) - w3 * (n3 * w1 - n1 * w3) = 0) by (rewrite B3, B2; ring); lra).
  assert (N2 : (w1 * w1 + w2 * w2 + w3 * w3) * n2 = (n1 * w1 + n2 * w2 + n3 * w3) * w2) by (assert (Z : w3 * (n2 * w3 - n3 * w2) - w1 * (n1 * w2 - n2 * w1) = 0) by (rewrite B1, B3; ring); lra).
  assert (N3 : (w1 * w1 + w2 * w2 + w3 * w3) * n3 = (n1 * w1 + n2 * w2 + n3 * w3) * w3) by (assert (Z : w1 * (n3 * w1 - n1 * w3) - w2 * (n2 * w3 - n3 * w2) = 0) by (rewrite B2, B1; ring); lra).
  set (W := w1 * w1 + w2 * w2 + w3 * w3) in *. set (U := u1 * w1 + u2 * w2 + u3 * w3) in *. set (N := n1 * w1 + n2 * w2 + n3 * w3) in *.
  assert (E1 : n1 * u2 - n2 * u1 = 0).
  { apply (Rmult_eq_reg_l (W * W)); [| apply Rmult_integral_contrapositive_currified; exact Hw].
    transitivity ((W * n1) * (W * u2) - (W * n2) * (W * u1)); [ring |]. rewrite U1, U2, N1, N2. ring. }
  assert (E2 : n2 * u3 - n3 * u2 = 0).
  { apply (Rmult_eq_reg_l (W * W)); [| apply Rmult_integral_contrapositive_currified; exact Hw].
    transitivity ((W * n2) * (W * u3) - (W * n3) * (W * u2)); [ring |]. rewrite U2, U3, N2, N3. ring. }
  assert (E3 : n3 * u1 - n1 * u3 = 0).
  { apply (Rmult_eq_reg_l (W * W)); [| apply Rmult_integral_contrapositive_currified; exact Hw].
    transitivity ((W * n3) * (W * u1) - (W * n1) * (W * u3)); [ring |]. rewrite U1, U3, N1, N3. ring. }
  assert (G : (n1 * n1 + n2 * n2 + n3 * n3) * (u1 * u1 + u2 * u2 + u3 * u3) - (n1 * u1 + n2 * u2 + n3 * u3) * (n1 * u1 + n2 * u2 + n3 * u3)
              = (n1 * u2 - n2 * u1) * (n1 * u2 - n2 * u1) + (n2 * u3 - n3 * u2) * (n2 * u3 - n3 * u2) + (n3 * u1 - n1 * u3) * (n3 * u1 - n1 * u3)) by ring.
  rewrite E1, E2, E3 in G. lra.
Qed.

Lemma orthogonal_parallel d qs n u :
  (d = 2 \/ d = 3)%nat -> is_cell d d qs -> nondegenerate d qs -> length n = d -> length u = d -> rdot n n = 1 ->
  (forall p q, In p qs -> In q qs -> rdot n p = rdot n q) -> (forall p q, In p qs -> In q qs -> rdot u p = rdot u q) ->
  rdot n u * rdot n u = rdot u u.
Proof.
  intros [-> | ->] Hc Hd Hn Hu N1 Pn Pu.
  - destruct (cell_2_2 qs Hc) as (ax & ay & bx & by_ & ->).
    destruct n as [| n1 [| n2 [| ? ?]]]; try discriminate Hn. destruct u as [| u1 [| u2 [| ? ?]]]; try discriminate Hu.
    pose proof (Pn [ax; ay] [bx; by_] (or_introl eq_refl) (or_intror (or_introl eq_refl))) as A.
    pose proof (Pu [ax; ay] [bx; by_] (or_introl eq_refl) (or_intror (or_introl eq_refl))) as B.
    cbn [rdot] in *.
    assert (Ht : (bx - ax) * (bx - ax) + (by_ - ay) * (by_ - ay) <> 0).
    { intros E. apply sq_zero_sum in E. destruct E as (E1 & E2). assert (bx = ax) by lra. assert (by_ = ay) by lra. subst.
      assert (F : Forall (fun a => a = 0) [1; -1]).
      { apply Hd; [reflexivity | cbn; lra |]. intros [| [| i]] Hi; cbn; lra || lia. }
      inversion F as [| ? ? F1 _]. lra. }
    assert (A' : n1 * (bx - ax) + n2 * (by_ - ay) = 0) by lra. assert (B' : u1 * (bx - ax) + u2 * (by_ - ay) = 0) by lra.
    set (t1 := bx - ax) in *. set (t2 := by_ - ay) in *. clearbody t1 t2.
    assert (E : n1 * u2 - n2 * u1 = 0).
    { apply (Rmult_eq_reg_l (t1 * t1 + t2 * t2)); [| exact Ht]. 
      transitivity ((n1 * t1 + n2 * t2) * (t1 * u2 - t2 * u1) - (u1 * t1 + u2 * t2) * (t1 * n2 - t2 * n1)); [ring | rewrite A', B'; ring]. }
    assert (G : (n1 * n1 + n2 * n2) * (u1 * u1 + u2 * u2) - (n1 * u1 + n2 * u2) * (n1 * u1 + n2 * u2) = (n1 * u2 - n2 * u1) * (n1 * u2 - n2 * u1)) by ring.
    rewrite E in G. replace (n1 * n1 + n2 * n2) with 1 in G by lra. lra.
  - destruct (cell_3_3 qs Hc) as (ax & ay & az & bx & by_ & bz & cx & cy & cz & ->).
    destruct n as [| n1 [| n2 [| n3 [| ? ?]]]]; try discriminate Hn. destruct u as [| u1 [| u2 [| u3 [| ? ?]]]]; try discriminate Hu.
    pose proof (Pn [ax; ay; az] [bx; by_; bz] (or_introl eq_refl) (or_intror (or_introl eq_refl))) as A.
    pose proof (Pn [ax; ay; az] [cx; cy; cz] (or_introl eq_refl) (or_intror (or_intror (or_introl eq_refl)))) as A2.
    pose proof (Pu [ax; ay; az] [bx; by_; bz] (or_introl eq_refl) (or_intror (or_introl eq_refl))) as B.
    pose proof (Pu [ax; ay; az] [cx; cy; cz] (or_introl eq_refl) (or_intror (or_intror (or_introl eq_refl)))) as B2.
    pose proof (nondeg_2_3 _ _ _ _ _ _ _ _ _ Hd) as Hw. cbn [rdot] in *.
    assert (A' : n1 * (bx - ax) + n2 * (by_ - ay) + n3 * (bz - az) = 0) by lra.
    assert (A2' : n1 * (cx - ax) + n2 * (cy - ay) + n3 * (cz - az) = 0) by lra.
    assert (B' : u1 * (bx - ax) + u2 * (by_ - ay) + u3 * (bz - az) = 0) by lra.
    assert (B2' : u1 * (cx - ax) + u2 * (cy - ay) + u3 * (cz - az) = 0) by lra.
    set (s1 := bx - ax) in *. set (s2 := by_ - ay) in *. set (s3 := bz - az) in *.
    set (t1 := cx - ax) in *. set (t2 := cy - ay) in *. set (t3 := cz - az) in *. clearbody s1 s2 s3 t1 t2 t3.
    pose proof (cross3 u1 u2 u3 n1 n2 n3 (s2 * t3 - s3 * t2) (s3 * t1 - s1 * t3) (s1 * t2 - s2 * t1)) as C.
    assert (R : n1 * n1 + n2 * n2 + n3 * n3 = 1) by lra. rewrite R in C.
    replace (u1 * u1 + (u2 * u2 + (u3 * u3 + 0))) with (1 * (u1 * u1 + u2 * u2 + u3 * u3)) by ring. rewrite <- C; clear C.
    + ring.
    + intros E. apply Hw. rewrite <- E. ring.
    + transitivity (s1 * (u1 * t1 + u2 * t2 + u3 * t3) - t1 * (u1 * s1 + u2 * s2 + u3 * s3)); [ring | rewrite B', B2'; ring].
    + transitivity (s2 * (u1 * t1 + u2 * t2 + u3 * t3) - t2 * (u1 * s1 + u2 * s2 + u3 * s3)); [ring | rewrite B', B2'; ring].
    + transitivity (s3 * (u1 * t1 + u2 * t2 + u3 * t3) - t3 * (u1 * s1 + u2 * s2 + u3 * s3)); [ring | rewrite B', B2'; ring].
    + transitivity (s1 * (n1 * t1 + n2 * t2 + n3 * t3) - t1 * (n1 * s1 + n2 * s2 + n3 * s3)); [ring | rewrite A', A2'; ring].
    + transitivity (s2 * (n1 * t1 + n2 * t2 + n3 * t3) - t2 * (n1 * s1 + n2 * s2 + n3 * s3)); [ring | rewrite A', A2'; ring].
    + transitivity (s3 * (n1 * t1 + n2 * t2 + n3 * t3) - t3 * (n1 * s1 + n2 * s2 + n3 * s3)); [ring | rewrite A', A2'; ring].
Qed.

(** and conversely *)
Lemma parallel_orthogonal n u t : length n = length u -> rdot n n = 1 -> rdot n u * rdot n u = rdot u u -> rdot n t = 0 -> rdot u t = 0.
Proof.
  intros Hl N1 E P.
  assert (Hz : u = rscale (rdot n u) n).
  { apply rsub_zero; [unfold rscale; rewrite map_length; lia |].
    assert (Hl' : length u = length (rscale (rdot n u) n)) by (unfold rscale; rewrite map_length; lia).
    rewrite rdot_sub_r by exact Hl'. rewrite rdot_rscale_r, (rdot_comm _ u), (rdot_comm _ n), !rdot_sub_r by exact Hl'.
    rewrite !rdot_rscale_r, N1, (rdot_comm u n). rewrite <- E. ring. }
  rewrite Hz, rdot_comm, rdot_rscale_r, (rdot_comm t n), P. ring.
Qed.

Lemma combine_map {A B} (f : A -> B) l : combine l (map f l) = map (fun x => (x, f x)) l.
Proof. induction l as [| a l IH]; cbn; [reflexivity | rewrite IH; reflexivity]. Qed.
Lemma filter_map_comm {A B} (f : A -> B) p l : filter p (map f l) = map f (filter (fun x => p (f x)) l).
Proof. induction l as [| a l IH]; cbn; [reflexivity |]. destruct (p (f a)); cbn; rewrite IH; reflexivity. Qed.
Lemma filter_ext_in' {A} (p q : A -> bool) l : (forall x, In x l -> p x = q x) -> filter p l = filter q l.
Proof.
  induction l as [| a l IH]; intros H; cbn; [reflexivity |]. rewrite (H a) by (left; reflexivity). rewrite IH; [reflexivity |].
  intros x Hx. apply H. right. exact Hx.
Qed.

Definition defect (n nu : list R) : option R := match cosine n nu with Some x => Some (Rabs (Rabs x - 1)) | None => None end.

Lemma all_zeros_number l : Forall (fun o => o = Some 0) l -> exists xs, all_numbers l = Some xs /\ Forall (fun x => x = 0) xs.
Proof.
  induction 1 as [| o l Ho H (xs & E & Hxs)]; cbn; [exists []; split; [reflexivity | constructor] |].
  subst o. rewrite E. exists (0 :: xs). split; [reflexivity | constructor; [reflexivity | exact Hxs]].
Qed.
Lemma norm2_zeros l tol : 0 < tol -> Forall (fun o => o = Some 0) l -> norm2_below l tol = true.
Proof.
  intros Ht H. unfold norm2_below. destruct (all_zeros_number l H) as (xs & -> & Hx).
  replace (lsum (map (fun x => x * x) xs)) with 0.
  - rewrite sqrt_0. destruct (Rlt_dec 0 tol); [reflexivity | contradiction].
  - symmetry. unfold lsum. clear H. induction Hx as [| x xs Ex H IH]; cbn; [reflexivity |]. rewrite IH, Ex. ring.
Qed.

Lemma delaunay_value lu chosen m tol J :
  CircumVector lu m = Ok (map J (m_facets m)) -> Forall (fun f => f_area f <> 0 /\ rdot (f_np f) (f_np f) = 1) (m_facets m) -> 0 < tol < 1 ->
  is_delaunay_on lu chosen m tol = norm_inf (map (fun f => defect (f_np f) (J f)) (filter chosen (m_facets m))).
Proof.
  intros E Hf Ht. unfold is_delaunay_on. rewrite E. cbn [bind]. rewrite combine_map, !filter_map_comm. cbn [fst snd].
  rewrite Forall_forall in Hf.
  assert (M : forall f, In f (m_facets m) ->
    (if Rgt_dec (Rabs (if chosen f then average1 f (rdot (f_np f) (f_np f)) else 0)) tol then true else false) = chosen f).
  { intros f Hi. destruct (Hf f Hi) as (Ha & Hn). rewrite average1_id, Hn by exact Ha. destruct (chosen f).
    - destruct (Rgt_dec (Rabs 1) tol) as [_ | N]; [reflexivity |]. exfalso. apply N. rewrite Rabs_R1. lra.
    - destruct (Rgt_dec (Rabs 0) tol) as [G | _]; [| reflexivity]. rewrite Rabs_R0 in G. lra. }
  rewrite (filter_ext_in' _ (fun f => negb (chosen f)) (m_facets m)) by (intros f Hi; rewrite M by exact Hi; reflexivity).
  rewrite (filter_ext_in' _ chosen (m_facets m) M).
  rewrite !map_map. cbn [fst snd].
  rewrite norm2_zeros; [| lra |].
  - cbn [negb]. f_equal. apply map_ext_in. intros f Hi. apply filter_In in Hi. destruct Hi as (Hi & Hc). rewrite Hc.
    unfold defect. destruct (cosine (f_np f) (J f)) as [x |]; [| reflexivity]. rewrite average1_id by exact (proj1 (Hf f Hi)). reflexivity.
  - apply Forall_map, Forall_forall. intros f Hi. apply filter_In in Hi. destruct Hi as (_ & Hc).
    destruct (chosen f); [discriminate Hc | reflexivity].
Qed.

Lemma norm_inf_values l : l <> [] -> Forall (fun o => exists x, o = Some x /\ 0 <= x) l ->
  exists v, norm_inf l = Ok (Some v) /\ 0 <= v /\ (v = 0 <-> Forall (fun o => o = Some 0) l).
Proof.
  intros Hn H. assert (G : exists v xs, all_numbers l = Some xs /\ v = fold_right Rmax 0 (map Rabs xs) /\ 0 <= v /\ (v = 0 <-> Forall (fun o => o = Some 0) l)).
  { clear Hn. induction H as [| o l (x & -> & Hx) H (v & xs & E & Ev & Hv & Hz)].
    - exists 0, []. repeat split; try lra. constructor.
    - exists (Rmax x v), (x :: xs). cbn. rewrite E. rewrite (Rabs_right x) by lra. rewrite <- Ev. split; [reflexivity |]. split; [reflexivity |].
      pose proof (Rmax_l x v). pose proof (Rmax_r x v). split; [lra |]. split.
      + intros Z. assert (x = 0) by lra. assert (v = 0) by lra. subst x. constructor; [reflexivity | apply Hz; assumption].
      + intros F. inversion F as [| ? ? F1 F2]. injection F1 as ->. apply Hz in F2. rewrite F2. unfold Rmax. destruct (Rle_dec 0 0); reflexivity. }
  destruct G as (v & xs & E & Ev & Hv & Hz). exists v. unfold norm_inf. destruct l as [| o l]; [congruence |]. rewrite E, <- Ev.
  split; [reflexivity |]. split; assumption.
Qed.
Lemma norm_inf_nan l : In None l -> norm_inf l = Ok None.
Proof.
  intros H. assert (E : all_numbers l = None).
  { induction l as [| o l IH]; [destruct H |]. cbn. destruct H as [-> | H]; [reflexivity |]. destruct o; [| reflexivity]. rewrite (IH H). reflexivity. }
  unfold norm_inf. destruct l; [destruct H |]. rewrite E. reflexivity.
Qed.

(** the defect is zero for multiples of the normal *)
Lemma defect_value n u : rdot n n = 1 -> rdot u u <> 0 ->
  exists x, defect n u = Some x /\ 0 <= x /\ (x = 0 <-> rdot n u * rdot n u = rdot u u).
Proof.
  intros Hn Hu. unfold defect, cosine. assert (Hr : 0 < rnorm u).
  { unfold rnorm. apply sqrt_lt_R0. pose proof (rdot_nonneg u). lra. }
  destruct (Req_EM_T (rnorm u) 0) as [E | _]; [lra |].
  eexists. split; [reflexivity |]. split; [apply Rabs_pos |]. rewrite rdot_rscale_r.
  pose proof (rnorm_sq u) as Hs. set (r := rnorm u) in *. set (a := rdot n u) in *.
  assert (Ha : Rabs (1 / r * a) = Rabs a / r).
  { unfold Rdiv. rewrite Rmult_1_l, Rabs_mult, Rmult_comm. f_equal. apply Rabs_right. apply Rle_ge. left. apply Rinv_0_lt_compat. exact Hr. }
  rewrite Ha. split.
  - intros E. assert (Z : Rabs a / r - 1 = 0) by (destruct (Req_EM_T (Rabs a / r - 1) 0) as [Z | Z]; [exact Z | apply Rabs_no_R0 in Z; contradiction]).
    assert (A : Rabs a = r) by (replace (Rabs a) with (Rabs a / r * r) by (field; lra); replace (Rabs a / r) with 1 by lra; ring).
    rewrite <- Hs, <- A. unfold Rabs. destruct (Rcase_abs a); ring.
  - intros E. assert (A : Rabs a = r).
    { apply Rsqr_inj; [apply Rabs_pos | lra |]. rewrite <- Rsqr_abs. unfold Rsqr. lra. }
    rewrite A. replace (r / r - 1) with 0 by (field; lra). apply Rabs_R0.
Qed.

(** circumcenters of the cells *)
Lemma circumcenters_ok lu d m : solves_regular lu -> simplicial d m ->
  exists cs, CellCircumcenter lu m = Ok cs /\ Forall2 (circumcenter d) (m_cells m) cs.
Proof.
  intros Hlu (Hd & Et & Eg & Hc & _). unfold CellCircumcenter. rewrite Et, Eg. clear Et Eg.
  induction Hc as [| c cells (H1 & H2) Hc (cs & E & F)]; cbn [mapM]; [exists []; split; [reflexivity | constructor] |].
  assert (G : exists x, cell_circumcenter lu d d c = Ok x /\ circumcenter d c x).
  { destruct Hd as [-> | ->].
    - destruct (circ_2_2_ok lu Hlu c H1 H2) as (x & Ex & Hx & Hq). exists x. split; [exact Ex | split; assumption].
    - destruct (circ_3_3_ok lu Hlu c H1 H2) as (x & Ex & Hx & Hq). exists x. split; [exact Ex | split; assumption]. }
  destruct G as (x & Ex & Hx). rewrite Ex. cbn [bind]. rewrite E. cbn [bind]. exists (x :: cs). split; [reflexivity | constructor; assumption].
Qed.
Lemma center_of d m cs c cell : Forall2 (circumcenter d) (m_cells m) cs -> nth_error (m_cells m) c = Some cell -> circumcenter d cell (center cs c).
Proof.
  intros F. revert c. unfold center. induction F as [| a b la lb H F IH]; intros [| c] E; try discriminate E; cbn in *.
  - injection E as <-. exact H.
  - apply IH. exact E.
Qed.

(** the two points of a facet *)
Lemma jump_points d m cs f : simplicial d m -> Forall2 (circumcenter d) (m_cells m) cs -> In f (m_facets m) ->
  exists cell x y, nth_error (m_cells m) (f_plus f) = Some cell /\ circumcenter d cell x /\ jump m cs f = rsub x y /\ length x = d /\ length y = d /\
    match f_minus f with
    | Some k => exists cell', nth_error (m_cells m) k = Some cell' /\ circumcenter d cell' y /\ incl (f_verts f) cell'
    | None => mean_of d (f_verts f) y
    end.
Proof.
  intros (Hd & Et & Eg & _ & Hf) F Hi. rewrite Forall_forall in Hf. destruct (Hf f Hi) as (Ha & Hc & Hn & Ln & N1 & Pn & (cell & Ec & Ic) & Hm).
  exists cell, (center cs (f_plus f)). pose proof (center_of d m cs _ _ F Ec) as Hx. unfold jump. destruct (f_minus f) as [k |].
  - destruct (Hm k eq_refl) as (cell' & Ec' & Ic'). exists (center cs k). pose proof (center_of d m cs _ _ F Ec') as Hy.
    rewrite average_id by exact Ha. split; [exact Ec |]. split; [exact Hx |]. split; [reflexivity |].
    split; [exact (proj1 (proj1 Hx)) |]. split; [exact (proj1 (proj1 Hy)) |]. exists cell'. split; [exact Ec' |]. split; [exact Hy | exact Ic'].
  - exists (facet_centroid m f). rewrite average_id by exact Ha. unfold facet_centroid. rewrite average_id, Eg by exact Ha.
    assert (Hne : f_verts f <> []) by (destruct Hc as (Hl & _); intros E; rewrite E in Hl; cbn in Hl; destruct Hd as [-> | ->]; discriminate Hl).
    pose proof (mean_ok d (f_verts f) Hne (proj2 Hc)) as Hy.
    split; [exact Ec |]. split; [exact Hx |]. split; [reflexivity |]. split; [exact (proj1 (proj1 Hx)) |]. split; [exact (proj1 Hy) | exact Hy].
Qed.

(** the vector is orthogonal to the facet exactly when the second point is
    equally far from its vertices too *)
Lemma orthogonal_iff d qs x y : Forall (fun p => length p = d) qs -> length x = d -> length y = d ->
  (forall p q, In p qs -> In q qs -> sq_dist x p = sq_dist x q) ->
  ((forall p q, In p qs -> In q qs -> rdot (rsub x y) p = rdot (rsub x y) q) <-> (forall p q, In p qs -> In q qs -> sq_dist y p = sq_dist y q)).
Proof.
  intros Hq Hx Hy Ex. rewrite Forall_forall in Hq.
  split; intros H p q Ip Iq; pose proof (Hq p Ip); pose proof (Hq q Iq);
    pose proof (equal_distances x y p q ltac:(lia) ltac:(lia) ltac:(lia)) as E; rewrite (Ex p q Ip Iq), rdot_sub_r in E by lia.
  - rewrite (H p q Ip Iq) in E. lra.
  - rewrite (H p q Ip Iq) in E. lra.
Qed.

Lemma facet_defect d m cs f : simplicial d m -> Forall2 (circumcenter d) (m_cells m) cs -> In f (m_facets m) -> distinct d m (eq f) ->
  exists v, defect (f_np f) (jump m cs f) = Some v /\ 0 <= v /\
    (v = 0 <-> (f_minus f = None -> forall y p q, mean_of d (f_verts f) y -> In p (f_verts f) -> In q (f_verts f) -> sq_dist y p = sq_dist y q)).
Proof.
  intros Hs F Hi Hdist. destruct (jump_points d m cs f Hs F Hi) as (cell & x & y & Ec & Hx & -> & Lx & Ly & Hm).
  destruct Hs as (Hd & Et & Eg & _ & Hf). rewrite Forall_forall in Hf.
  destruct (Hf f Hi) as (Ha & Hc & Hn & Ln & N1 & Pn & (cell0 & Ec0 & Ic) & _).
  rewrite Ec in Ec0. injection Ec0 as <-.
  assert (Hne : rdot (rsub x y) (rsub x y) <> 0).
  { intros E. apply rsub_zero in E; [| lia]. pose proof (Hdist f cell x y Hi eq_refl Ec Hx) as D. destruct (f_minus f) as [k |].
    - destruct Hm as (cell' & Ec' & Hy & _). exact (D cell' Ec' Hy E).
    - exact (D Hm E). }
  destruct (defect_value (f_np f) (rsub x y) N1 Hne) as (v & Ev & Hv & Hz). exists v. split; [exact Ev |]. split; [exact Hv |]. rewrite Hz. clear Hz.
  assert (Ex : forall p q, In p (f_verts f) -> In q (f_verts f) -> sq_dist x p = sq_dist x q).
  { intros p q Ip Iq. apply (proj2 Hx); apply Ic; assumption. }
  assert (Lu : length (rsub x y) = d) by (rewrite rsub_length; lia).
  pose proof (orthogonal_iff d (f_verts f) x y (proj2 Hc) Lx Ly Ex) as Ho.
  assert (K : rdot (f_np f) (rsub x y) * rdot (f_np f) (rsub x y) = rdot (rsub x y) (rsub x y) <->
              (forall p q, In p (f_verts f) -> In q (f_verts f) -> sq_dist y p = sq_dist y q)).
  { rewrite <- Ho. split.
    - intros E p q Ip Iq. pose proof (proj2 Hc) as Hq. rewrite Forall_forall in Hq.
      assert (Z : rdot (rsub x y) (rsub p q) = 0).
      { apply (parallel_orthogonal (f_np f)); [lia | exact N1 | exact E |]. rewrite rdot_sub_r by (rewrite (Hq p Ip), (Hq q Iq); reflexivity).
        pose proof (Pn p q Ip Iq) as P. change (rdot (f_np f) p = rdot (f_np f) q) in P. lra. }
      rewrite rdot_sub_r in Z by (rewrite (Hq p Ip), (Hq q Iq); reflexivity). lra.
    - intros P. exact (orthogonal_parallel d (f_verts f) (f_np f) (rsub x y) Hd Hc Hn Ln Lu N1 Pn P). }
  rewrite K. clear K. destruct (f_minus f) as [k |].
  - destruct Hm as (cell' & Ec' & Hy & Ic'). split; [discriminate |]. intros _ p q Ip Iq. apply (proj2 Hy); apply Ic'; assumption.
  - assert (Hvn : f_verts f <> []) by (destruct Hc as (Hl & _); intros E; rewrite E in Hl; cbn in Hl; destruct Hd as [-> | ->]; discriminate Hl).
    split.
    + intros E _ z p q Hz Ip Iq. rewrite (mean_of_unique d (f_verts f) z y Hvn Hz Hm). exact (E p q Ip Iq).
    + intros E p q Ip Iq. exact (E eq_refl y p q Hm Ip Iq).
Qed.

Lemma vector_is_jump lu d m cs : simplicial d m -> CellCircumcenter lu m = Ok cs -> CircumVector lu m = Ok (map (jump m cs) (m_facets m)).
Proof.
  intros (Hd & Et & _) E. unfold CircumVector, CenterVector. rewrite E, Et. cbn [bind]. destruct Hd as [-> | ->]; reflexivity.
Qed.
Lemma fits_basic d m : simplicial d m -> Forall (fun f => f_area f <> 0 /\ rdot (f_np f) (f_np f) = 1) (m_facets m).
Proof.
  intros (_ & _ & _ & _ & Hf). eapply Forall_impl; [| exact Hf]. intros f (Ha & _ & _ & _ & N1 & _). split; [exact Ha | exact N1].
Qed.

(** ** the triangle inequality *)
Lemma triangle_inequality x y z : length x = length y -> length z = length y -> dist x z <= dist x y + dist z y.
Proof.
  intros Hx Hz. rewrite <- !rnorm_dist. 
  assert (E : rsub x z = rsub (rscale 1 (rsub x y)) (rscale 1 (rsub z y))).
  { apply list_ext.
    - rewrite !rsub_length; unfold rscale; rewrite ?map_length, ?rsub_length; lia.
    - intros i Hi. rewrite nth_rdiff, !nth_rsub by (rewrite ?rsub_length; lia). ring. }
  assert (Lxy : length (rsub x y) = length (rsub z y)) by (rewrite !rsub_length; lia).
  pose proof (rdot_diff 1 1 (rsub x y) (rsub z y) Lxy) as D. rewrite <- E in D.
  pose proof (rnorm_sq (rsub x z)) as S1. pose proof (rnorm_sq (rsub x y)) as S2. pose proof (rnorm_sq (rsub z y)) as S3.
  pose proof (rnorm_nonneg (rsub x y)) as P1. pose proof (rnorm_nonneg (rsub z y)) as P2. pose proof (rnorm_nonneg (rsub x z)) as P3.
  assert (CS : - rdot (rsub x y) (rsub z y) <= rnorm (rsub x y) * rnorm (rsub z y)).
  { pose proof (cauchy_schwarz (rsub x y) (rsub y z)) as C. assert (L : length (rsub x y) = length (rsub y z)) by (rewrite !rsub_length; lia).
    specialize (C L). rewrite (rnorm_sym y z) in C by lia. rewrite (rdot_sub_r (rsub x y) y z) in C by lia. rewrite (rdot_sub_r (rsub x y) z y) by lia. lra. }
  apply Rsqr_incr_0_var; [| lra]. unfold Rsqr. nra.
Qed.
