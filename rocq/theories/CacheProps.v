(** C28, C29, C30: cached reduction matrices. *)
From Verif Require Import Base BaseProofs CacheModel CacheProofs.
From Coq Require Import Permutation.

(** C28, general: a cache is transparent on a history if and only if requests of
    the history with equal keys have equal answers (up to a first exception,
    which is not stored). *)
Theorem C28_key_criterion {Rq Val} (key : Rq -> list katom) (compute : Rq -> res Val) h :
  (forall r r', In r h -> In r' h -> key r = key r' -> compute r = compute r') -> transparent key compute h.
Proof. apply transparent_if. Qed.
Theorem C28_key_criterion_sharp {Rq Val} (key : Rq -> list katom) (compute : Rq -> res Val) r r' v :
  key r = key r' -> compute r = Ok v -> compute r' <> Ok v -> ~ transparent key compute [r; r'].
Proof. apply not_transparent. Qed.

(** C28: the operator Trace stores the given tags, all of them values of the marking function, or all values. *)
Theorem C28_operator marking mm a n t d : trace_operator marking mm a n t = Ok d <->
  a <= 4 /\ t_restriction d = a /\ t_normal d = (if a =? 0 then None else n) /\
  match t, marking mm with
  | Some tags, Some (f, vals) => incl tags vals /\ t_fun d = Some f /\ t_tags d = tags
  | Some _, None => False
  | None, Some (f, vals) => t_fun d = Some f /\ t_tags d = nodup Nat.eq_dec vals
  | None, None => t_fun d = None /\ t_tags d = [0]
  end.
Proof.
  assert (S : forall x y, subset x y = true <-> incl x y).
  { intros x y. unfold subset. rewrite forallb_forall. split; intros H z Hz.
    - specialize (H z Hz). apply existsb_exists in H. destruct H as (w & Hw & E). apply Nat.eqb_eq in E. subst w. exact Hw.
    - apply existsb_exists. exists z. split; [apply H, Hz|apply Nat.eqb_refl]. }
  unfold trace_operator. destruct (Nat.ltb_spec 4 a) as [L|L]; [split; [discriminate|lia]|].
  destruct d as [a' n' f' t']. cbn [t_restriction t_normal t_fun t_tags].
  destruct t as [tags|]; destruct (marking mm) as [[f vals]|]; cbn [bind fst snd].
  - destruct (subset tags vals) eqn:E; cbn [bind fst snd].
    + apply S in E. split; [intros K; injection K as <- <- <- <-; tauto|]. intros (_ & -> & -> & _ & -> & ->). reflexivity.
    + split; [discriminate|]. intros (_ & _ & _ & I & _). apply S in I. congruence.
  - split; [discriminate|tauto].
  - split; [intros K; injection K as <- <- <- <-; tauto|]. intros (_ & -> & -> & -> & ->). reflexivity.
  - split; [intros K; injection K as <- <- <- <-; tauto|]. intros (_ & -> & -> & -> & ->). reflexivity.
Qed.
Print Assumptions C28_operator.
Example C28_operator_ex : trace_operator (fun _ => Some (7, [4; 2; 4])) 0 1 (Some 9) (Some [2]) = Ok (TraceData 1 (Some 9) (Some 7) [2]) /\
  trace_operator (fun _ => Some (7, [4; 2; 4])) 0 1 (Some 9) (Some [2; 3]) = Err AssertionError.
Proof. split; reflexivity. Qed.

(** C28, traces: every history of traces made by the operator Trace, whatever is
    computed from the spaces, mesh, restriction, normal, marking function and
    set of tags. *)
Theorem C28_trace_partial {Val} marking order (G : space -> space -> nat -> trace_data -> res Val) h :
  (forall l, Permutation l (order l)) ->
  (forall V TV m a n f t t', (forall x, In x t <-> In x t') -> G V TV m (TraceData a n f t) = G V TV m (TraceData a n f t')) ->
  well_named h ->
  (forall r, In r h -> exists a n t, trace_operator marking (q_mesh r) a n t = Ok (q_data r)) ->
  transparent (trace_key order) (fun r => G (q_V r) (q_TV r) (q_mesh r) (q_data r)) h.
Proof.
  intros ORD GS W OP. apply transparent_if. intros r r' H H' K. unfold trace_key in K. injection K as E1 E1' E2 E2' E3 E4 E5.
  destruct (space_key_eq h r r' W H H') as (EV & ET & EM); [unfold space_key; congruence..|].
  apply onum_inj in E4. destruct (OP r H) as (a & n & t & O). destruct (OP r' H') as (a' & n' & t' & O').
  rewrite EV, ET, EM. destruct (q_data r) as [ra rn rf rt]. destruct (q_data r') as [sa sn sf st]. cbn [t_restriction t_normal t_tags] in *. subst sa sn.
  assert (F : rf = sf).
  { rewrite EM in O. unfold trace_operator in O, O'. destruct (4 <? a), (4 <? a'); try discriminate.
    destruct (marking (q_mesh r')) as [[f vals]|].
    - destruct t as [t|]; [destruct (subset t vals); [|discriminate]|]; (destruct t' as [t'|]; [destruct (subset t' vals); [|discriminate]|]); cbn in O, O'; congruence.
    - destruct t; [discriminate|]. destruct t'; [discriminate|]. cbn in O, O'. congruence. }
  subst sf. apply GS. intros x. split; intros Hx.
  - eapply Permutation_in; [apply Permutation_sym, ORD|]. rewrite <- E5. eapply Permutation_in; [apply ORD|assumption].
  - eapply Permutation_in; [apply Permutation_sym, ORD|]. rewrite E5. eapply Permutation_in; [apply ORD|assumption].
Qed.

(** C28, averages and flux averages. *)
Theorem C28_average_partial {Val} (G : space -> space -> nat -> option nat -> res Val) h : well_named h ->
  transparent average_key (fun r => G (q_V r) (q_TV r) (q_mesh r) (q_data r)) h.
Proof.
  intros W. apply transparent_if. intros r r' H H' K. unfold average_key in K. injection K as E1 E1' E2 E2' E3.
  destruct (space_key_eq h r r' W H H') as (-> & -> & ->); [unfold space_key; congruence..|]. apply onum_inj in E3. rewrite E3. reflexivity.
Qed.
(** C28, restrictions and surface means (which read no data). *)
Theorem C28_restriction_partial {D Val} (G : space -> space -> nat -> res Val) (h : list (request D)) : well_named h ->
  transparent restriction_key (fun r => G (q_V r) (q_TV r) (q_mesh r)) h.
Proof.
  intros W. apply transparent_if. intros r r' H H' K. unfold restriction_key in K. injection K as E1 E1' E2 E2'.
  destruct (space_key_eq h r r' W H H') as (-> & -> & ->); [unfold space_key; congruence..|]. reflexivity.
Qed.
(** C28, means. *)
Theorem C28_mean_partial {Val} (G : space -> space -> nat -> option nat * option nat -> res Val) h : well_named h ->
  transparent mean_key (fun r => G (q_V r) (q_TV r) (q_mesh r) (q_data r)) h.
Proof.
  intros W. apply transparent_if. intros r r' H H' K. unfold mean_key in K. injection K as E1 E1' E2 E2' E3 E4.
  destruct (space_key_eq h r r' W H H') as (-> & -> & ->); [unfold space_key; congruence..|].
  apply onum_inj in E3. apply onum_inj in E4. destruct (q_data r), (q_data r'); cbn in *. subst. reflexivity.
Qed.
(** C28, transposed traces: the matrix does not depend on the tags at all. *)
Theorem C28_transpose_partial {D Val} (G : space -> space -> nat -> res Val) (h : list (request D)) : well_named h ->
  transparent transpose_key (fun r => G (q_V r) (q_TV r) (q_mesh r)) h.
Proof.
  intros W. apply transparent_if. intros r r' H H' K. unfold transpose_key in K. injection K as E1 E1' E2 E2' E3.
  destruct (space_key_eq h r r' W H H') as (-> & -> & ->); [unfold space_key; congruence..|]. reflexivity.
Qed.

(** The arguments point_trace_mat accepts (point_trace_matrix.py:43-56): a point
    of the dimension of the mesh for Lagrange elements (the cell is optional), a
    vertex number and a cell number otherwise. *)
Definition point_typed (is_cg : nat -> bool) (gdim : nat -> nat) (V : space) (d : point_data) : Prop :=
  if is_cg (s_elem V) then (exists l, p_point d = PTuple l /\ length l = gdim (s_mesh V)) /\ (p_cell d = PNothing \/ exists c, p_cell d = PNum c)
  else exists p c, p_point d = PNum p /\ p_cell d = PNum c.
Lemma point_key_inj {D} is_cg gdim (h : list (request D)) (at_ : D -> point_data) (r r' : request D) :
  well_named h -> In r h -> In r' h -> point_typed is_cg gdim (q_V r) (at_ (q_data r)) -> point_typed is_cg gdim (q_V r') (at_ (q_data r')) ->
  point_key (Req (q_V r) (q_TV r) (q_mesh r) (at_ (q_data r))) = point_key (Req (q_V r') (q_TV r') (q_mesh r') (at_ (q_data r'))) ->
  q_V r = q_V r' /\ q_TV r = q_TV r' /\ q_mesh r = q_mesh r' /\ at_ (q_data r) = at_ (q_data r').
Proof.
  intros W H H' T T' K. unfold point_key in K. cbn [q_V q_TV q_mesh q_data app] in K. injection K as E1 E1' E2 E2' E3.
  destruct (space_key_eq h r r' W H H') as (EV & ET & EM); [unfold space_key; congruence..|]. repeat split; try assumption.
  rewrite <- EV in T'. unfold point_typed in *. destruct (at_ (q_data r)) as [p c], (at_ (q_data r')) as [p' c']. cbn [p_point p_cell] in *.
  destruct (is_cg (s_elem (q_V r))).
  - destruct T as [(l & -> & L) C]. destruct T' as [(l' & -> & L') C']. cbn [flat] in E3.
    apply app_inj_length in E3; [|rewrite !map_length; congruence]. destruct E3 as [E3 E4]. apply map_KNum_inj in E3. subst l'. f_equal.
    destruct C as [->|(z & ->)], C' as [->|(z' & ->)]; cbn in E4; congruence.
  - destruct T as (z & y & -> & ->). destruct T' as (z' & y' & -> & ->). cbn in E3. congruence.
Qed.
(** C28, point traces. *)
Theorem C28_point_trace_partial {Val} is_cg gdim (G : space -> space -> nat -> point_data -> res Val) h : well_named h ->
  (forall r, In r h -> point_typed is_cg gdim (q_V r) (q_data r)) ->
  transparent point_key (fun r => G (q_V r) (q_TV r) (q_mesh r) (q_data r)) h.
Proof.
  intros W T. apply transparent_if. intros r r' H H' K.
  destruct (point_key_inj is_cg gdim h (fun d => d) r r' W H H' (T r H) (T r' H')) as (-> & -> & -> & ->).
  - destruct r, r'; exact K.
  - reflexivity.
Qed.

(** C28 is false for arbitrary spaces: a periodic and an ordinary space with the
    same element on the same mesh share the key. *)
Theorem C28_spaces_refuted :
  exists (G : space -> space -> nat -> res nat) (h : list (request unit)),
    (forall r, In r h -> q_mesh r = s_mesh (q_TV r)) /\
    (forall V TV m, G V TV m = Ok (s_rest V)) /\
    ~ transparent restriction_key (fun r => G (q_V r) (q_TV r) (q_mesh r)) h.
Proof.
  exists (fun V _ _ => Ok (s_rest V)), [Req (Space 1 1 0) (Space 1 2 0) 2 tt; Req (Space 1 1 7) (Space 1 2 0) 2 tt].
  split; [intros r [<-|[<-|[]]]; reflexivity|]. split; [reflexivity|].
  apply (not_transparent _ _ _ _ 0); [reflexivity|reflexivity|discriminate].
Qed.

(** C29 is false: the direction is not part of the key. *)
Theorem C29_direction_refuted :
  exists h : list (request grad_data),
    well_named h /\ (forall r, In r h -> point_typed (fun _ => false) (fun _ => 2) (q_V r) (g_at (q_data r))) /\
    ~ transparent grad_key (fun r => Ok (grad_values (g_tangent (q_data r)))) h.
Proof.
  exists [Req (Space 1 1 0) (Space 2 1 0) 1 (GradData (PointData (PNum 0) (PNum 0)) [1%Z; 0%Z]);
          Req (Space 1 1 0) (Space 2 1 0) 1 (GradData (PointData (PNum 0) (PNum 0)) [(-1)%Z; 0%Z])].
  split; [|split].
  - split; [|intros r [<-|[<-|[]]]; reflexivity].
    intros r r' V V' [<-|[<-|[]]] [<-|[<-|[]]] [->| ->] [->| ->]; cbn; congruence.
  - intros r [<-|[<-|[]]]; exists 0%Z, 0%Z; split; reflexivity.
  - apply (not_transparent _ _ _ _ [(-1)%Z; 1%Z]); [reflexivity|reflexivity|discriminate].
Qed.
(** It holds for histories in which each point and cell has one direction. *)
Theorem C29_one_direction_partial {Val} is_cg gdim (G : space -> space -> nat -> grad_data -> res Val) h : well_named h ->
  (forall r, In r h -> point_typed is_cg gdim (q_V r) (g_at (q_data r))) ->
  (forall r r', In r h -> In r' h -> q_V r = q_V r' -> g_at (q_data r) = g_at (q_data r') -> g_tangent (q_data r) = g_tangent (q_data r')) ->
  transparent grad_key (fun r => G (q_V r) (q_TV r) (q_mesh r) (q_data r)) h.
Proof.
  intros W T ONE. apply transparent_if. intros r r' H H' K.
  destruct (point_key_inj is_cg gdim h g_at r r' W H H' (T r H) (T r' H') K) as (EV & ET & EM & EA).
  assert (q_data r = q_data r').
  { pose proof (ONE r r' H H' EV EA) as E. destruct (q_data r), (q_data r'). cbn in *. congruence. }
  rewrite EV, ET, EM, H0. reflexivity.
Qed.

(** C30 is false: a request for the missing projection is answered with the
    matrix of the interpolation instead of an exception. *)
Theorem C30_method_refuted {Val} (transfer parents : space -> space -> res Val) Vc Vf T :
  transfer Vc Vf = Ok T ->
  let h := [Req Vc Vf (s_mesh Vf) 0; Req Vc Vf (s_mesh Vf) 1] in
  map (injection_matrix transfer parents) h = [Ok T; Err ValueError] /\
  serve transpose_key (injection_matrix transfer parents) [] h = [Ok T; Ok T].
Proof.
  intros E h. unfold h. cbn [map]. unfold injection_matrix. cbn [q_mesh q_TV q_data q_V]. rewrite Nat.eqb_refl. cbn [negb]. rewrite E.
  split; [reflexivity|]. cbn [serve]. unfold cached. cbn [lookup q_mesh q_TV q_data q_V]. rewrite Nat.eqb_refl. cbn [negb]. rewrite E.
  cbn [serve lookup]. rewrite (proj2 (key_eqb_spec _ _)) by reflexivity. reflexivity.
Qed.
(** Two methods that both work also get mixed up. *)
Theorem C30_fallback_refuted {Val} (transfer parents : space -> space -> res Val) Vc Vf T L :
  transfer Vc Vf = Ok T -> parents Vc Vf = Ok L -> T <> L ->
  ~ transparent transpose_key (injection_matrix transfer parents) [Req Vc Vf (s_mesh Vf) 0; Req Vc Vf (s_mesh Vf) 2].
Proof.
  intros E1 E2 N. apply (not_transparent _ _ _ _ T); [reflexivity| |]; unfold injection_matrix; cbn [q_mesh q_TV q_data q_V]; rewrite Nat.eqb_refl; cbn [negb]; congruence.
Qed.
Theorem C30_one_method_partial {Val} (transfer parents : space -> space -> res Val) h : well_named h ->
  (forall r r', In r h -> In r' h -> q_data r = q_data r') ->
  transparent transpose_key (injection_matrix transfer parents) h.
Proof.
  intros W ONE. apply transparent_if. intros r r' H H' K. unfold transpose_key in K. injection K as E1 E1' E2 E2' E3.
  destruct (space_key_eq h r r' W H H') as (EV & ET & EM); [unfold space_key; congruence..|].
  unfold injection_matrix. rewrite EV, ET, EM, (ONE r r' H H'). reflexivity.
Qed.

(** Histories that meet the hypotheses. *)
Definition ex_V := Space 10 1 0.
Definition ex_TV := Space 11 2 0.
Definition ex_marking (m : nat) : option (nat * list nat) := if m =? 2 then Some (5, [1; 2; 2; 3]) else None.
Definition ex_trace : list (request trace_data) :=
  [Req ex_V ex_TV 2 (TraceData 0 None (Some 5) [1; 2; 3]); Req ex_V ex_TV 2 (TraceData 1 (Some 9) (Some 5) [2]); Req ex_V ex_TV 2 (TraceData 0 None (Some 5) [1; 2; 3])].
Example C28_trace_hypotheses_met :
  well_named ex_trace /\ (forall r, In r ex_trace -> exists a n t, trace_operator ex_marking (q_mesh r) a n t = Ok (q_data r)) /\
  serve (trace_key (fun l => l)) (fun r => Ok (length (t_tags (q_data r)))) [] ex_trace = [Ok 3; Ok 1; Ok 3].
Proof.
  split; [|split].
  - split; [|intros r [<-|[<-|[<-|[]]]]; reflexivity].
    intros r r' V V' [<-|[<-|[<-|[]]]] [<-|[<-|[<-|[]]]] [->| ->] [->| ->]; cbn; congruence.
  - intros r [<-|[<-|[<-|[]]]].
    + exists 0, None, None. reflexivity.
    + exists 1, (Some 9), (Some [2]). reflexivity.
    + exists 0, (Some 4), None. reflexivity.
  - reflexivity.
Qed.
Example C28_point_hypotheses_met : let h := [Req ex_V (Space 12 1 0) 1 (PointData (PTuple [1%Z; 2%Z]) PNothing); Req ex_V (Space 12 1 0) 1 (PointData (PTuple [1%Z; 3%Z]) (PNum 4))] in
  well_named h /\ (forall r, In r h -> point_typed (fun _ => true) (fun _ => 2) (q_V r) (q_data r)).
Proof.
  cbn zeta. split; [split|].
  - intros r r' V V' [<-|[<-|[]]] [<-|[<-|[]]] [->| ->] [->| ->]; cbn; congruence.
  - intros r [<-|[<-|[]]]; reflexivity.
  - intros r [<-|[<-|[]]]; (split; [eexists; split; reflexivity|]); [left; reflexivity|right; eexists; reflexivity].
Qed.
Print Assumptions C28_trace_partial.
Print Assumptions C29_direction_refuted.
Print Assumptions C30_method_refuted.
