(** Lemmas for BoxProps.v *)
From Coq Require Import Reals Lra.
From Verif Require Import Base BaseProofs BoxModel.
Local Open Scope R_scope.

(** A point of the segment from A to B lies in the box: the specification *)
Definition in_box (low high X : R * R) : Prop :=
  fst low <= fst X <= fst high /\ snd low <= snd X <= snd high.
Definition on_segment (A B X : R * R) : Prop :=
  exists u, 0 <= u <= 1 /\ fst X = (1 - u) * fst A + u * fst B /\ snd X = (1 - u) * snd A + u * snd B.
Definition meets (A B low high : R * R) : Prop := exists X, on_segment A B X /\ in_box low high X.

Lemma rltb_true a b : rltb a b = true <-> a < b.
Proof. unfold rltb. destruct (Rlt_dec a b); split; auto; discriminate. Qed.
Lemma rltb_false a b : rltb a b = false <-> b <= a.
Proof. unfold rltb. destruct (Rlt_dec a b); split; intros H; try discriminate; auto; lra. Qed.
Lemma reqb_true a b : reqb a b = true <-> a = b.
Proof. unfold reqb. destruct (Req_EM_T a b); split; auto; discriminate. Qed.
Lemma reqb_false a b : reqb a b = false <-> a <> b.
Proof. unfold reqb. destruct (Req_EM_T a b); split; auto; [discriminate | congruence]. Qed.

Definition lo (u1 : option R) (u : R) : Prop := match u1 with None => True | Some a => a <= u end.
Definition hi (u2 : option R) (u : R) : Prop := match u2 with None => True | Some a => u <= a end.
Definition holds (pq : list (R * R)) (u : R) : Prop := Forall (fun pq => u * fst pq <= snd pq) pq.

Lemma neg_bound p q u : p < 0 -> (u * p <= q <-> q / p <= u).
Proof.
  intros Hp. split; intros H.
  - assert (E : q = q / p * p) by (field; lra). nra.
  - assert (E : q = q / p * p) by (field; lra). rewrite E. nra.
Qed.
Lemma pos_bound p q u : 0 < p -> (u * p <= q <-> u <= q / p).
Proof.
  intros Hp. split; intros H.
  - assert (E : q = q / p * p) by (field; lra). nra.
  - assert (E : q = q / p * p) by (field; lra). rewrite E. nra.
Qed.
Lemma Rmax_le a b c : Rmax a b <= c <-> a <= c /\ b <= c.
Proof. unfold Rmax. destruct (Rle_dec a b); lra. Qed.
Lemma Rmin_ge a b c : c <= Rmin a b <-> c <= a /\ c <= b.
Proof. unfold Rmin. destruct (Rle_dec a b); lra. Qed.

Lemma clip_none pq : forall u1 u2, clip pq u1 u2 = None -> forall u, ~ holds pq u.
Proof.
  induction pq as [| [p q] pq IH]; intros u1 u2 H u Hu; [discriminate |].
  inversion Hu as [| ? ? H1 H2]; subst. cbn [fst snd] in H1. cbn [clip] in H.
  destruct (reqb p 0 && rltb q 0) eqn:E.
  - apply andb_true_iff in E. destruct E as [E1 E2]. apply reqb_true in E1. apply rltb_true in E2. subst. lra.
  - destruct (rltb p 0 && low_lt u1 (q / p)); [exact (IH _ _ H u H2) |].
    destruct (rltb 0 p && high_gt u2 (q / p)); exact (IH _ _ H u H2).
Qed.

Lemma clip_some pq : forall u1 u2 v1 v2, clip pq u1 u2 = Some (v1, v2) ->
  (forall a, u1 = Some a -> 0 <= a) -> (forall a, u2 = Some a -> a <= 1) ->
  (forall u, 0 <= u <= 1 -> (lo u1 u /\ hi u2 u /\ holds pq u <-> lo v1 u /\ hi v2 u)) /\
  (forall a, v1 = Some a -> 0 <= a) /\ (forall a, v2 = Some a -> a <= 1) /\
  ((exists a, u1 = Some a) \/ (exists x, In x pq /\ fst x < 0) -> exists a, v1 = Some a) /\
  ((exists a, u2 = Some a) \/ (exists x, In x pq /\ 0 < fst x) -> exists a, v2 = Some a) /\
  (v1 <> None -> u1 <> None \/ exists x, In x pq /\ fst x < 0) /\
  (v2 <> None -> u2 <> None \/ exists x, In x pq /\ 0 < fst x).
Proof.
  induction pq as [| [p q] pq IH]; intros u1 u2 v1 v2 H B1 B2; cbn [clip] in H.
  - injection H as <- <-.
    split; [intros u _; split; [intros [K1 [K2 _]]; auto | intros [K1 K2]; repeat split; auto; apply Forall_nil] |].
    split; [exact B1 |]. split; [exact B2 |].
    split; [intros [K | [x [[] _]]]; auto |]. split; [intros [K | [x [[] _]]]; auto |]. auto.
  - destruct (reqb p 0 && rltb q 0) eqn:E; [discriminate |].
    assert (EQ : p = 0 -> 0 <= q).
    { intros ->. apply andb_false_iff in E. destruct E as [E | E]; [apply reqb_false in E; congruence | apply rltb_false in E; exact E]. }
    destruct (rltb p 0 && low_lt u1 (q / p)) eqn:E1.
    + apply andb_true_iff in E1. destruct E1 as [Hp Hlow]. apply rltb_true in Hp.
      destruct (IH _ _ _ _ H) as [HU [C1 [C2 [D1 [D2 [F1 F2]]]]]].
      { intros a Ha. injection Ha as <-. apply Rmax_l. } { exact B2. }
      split; [| repeat split; auto].
      * intros u Hu. rewrite <- HU by exact Hu. cbn [lo]. rewrite Rmax_le. unfold holds. rewrite Forall_cons_iff. cbn [fst snd].
        rewrite neg_bound by exact Hp.
        assert (L : q / p <= u -> lo u1 u). { intros Hq. destruct u1 as [a |]; cbn [lo low_lt] in *; auto. apply rltb_true in Hlow. lra. }
        intuition lra.
      * intros _. apply D1. left. eexists; reflexivity.
      * intros [K | [x [[<- | Hx] Hx2]]]; apply D2; auto; [cbn [fst] in Hx2; lra | right; exists x; auto].
      * intros _. right. exists (p, q). split; [left; auto | exact Hp].
      * intros K. destruct (F2 K) as [K2 | [x [Hx Hx2]]]; auto. right. exists x. split; [right |]; auto.
    + destruct (rltb 0 p && high_gt u2 (q / p)) eqn:E2.
      * apply andb_true_iff in E2. destruct E2 as [Hp Hhigh]. apply rltb_true in Hp.
        destruct (IH _ _ _ _ H) as [HU [C1 [C2 [D1 [D2 [F1 F2]]]]]].
        { exact B1. } { intros a Ha. injection Ha as <-. apply Rmin_l. }
        split; [| repeat split; auto].
        -- intros u Hu. rewrite <- HU by exact Hu. cbn [hi]. rewrite Rmin_ge. unfold holds. rewrite Forall_cons_iff. cbn [fst snd].
           rewrite pos_bound by exact Hp.
           assert (L : u <= q / p -> hi u2 u). { intros Hq. destruct u2 as [a |]; cbn [hi high_gt] in *; auto. apply rltb_true in Hhigh. lra. }
           intuition lra.
        -- intros [K | [x [[<- | Hx] Hx2]]]; apply D1; auto; [cbn [fst] in Hx2; lra | right; exists x; auto].
        -- intros _. apply D2. left. eexists; reflexivity.
        -- intros K. destruct (F1 K) as [K2 | [x [Hx Hx2]]]; auto. right. exists x. split; [right |]; auto.
        -- intros _. right. exists (p, q). split; [left; auto | exact Hp].
      * destruct (IH _ _ _ _ H B1 B2) as [HU [C1 [C2 [D1 [D2 [F1 F2]]]]]].
        apply andb_false_iff in E1. apply andb_false_iff in E2.
        split; [| repeat split; auto].
        -- intros u Hu. rewrite <- HU by exact Hu. unfold holds. rewrite Forall_cons_iff. cbn [fst snd].
           assert (L : lo u1 u -> hi u2 u -> u * p <= q).
           { intros L1 L2. destruct (Rtotal_order p 0) as [Hp | [Hp | Hp]].
             - apply neg_bound; auto. destruct E1 as [E1 | E1]; [apply rltb_false in E1; lra |].
               destruct u1 as [a |]; cbn [lo low_lt] in *; [apply rltb_false in E1; lra | discriminate].
             - subst. specialize (EQ eq_refl). lra.
             - apply pos_bound; auto. destruct E2 as [E2 | E2]; [apply rltb_false in E2; lra |].
               destruct u2 as [a |]; cbn [hi high_gt] in *; [apply rltb_false in E2; lra | discriminate]. }
           tauto.
        -- intros [K | [x [[<- | Hx] Hx2]]]; apply D1; auto; [| right; exists x; auto].
           left. cbn [fst] in Hx2. destruct E1 as [E1 | E1]; [apply rltb_false in E1; lra |]. destruct u1; [eexists; reflexivity | discriminate].
        -- intros [K | [x [[<- | Hx] Hx2]]]; apply D2; auto; [| right; exists x; auto].
           left. cbn [fst] in Hx2. destruct E2 as [E2 | E2]; [apply rltb_false in E2; lra |]. destruct u2; [eexists; reflexivity | discriminate].
        -- intros K. destruct (F1 K) as [K2 | [x [Hx Hx2]]]; auto. right. exists x. split; [right |]; auto.
        -- intros K. destruct (F2 K) as [K2 | [x [Hx Hx2]]]; auto. right. exists x. split; [right |]; auto.
Qed.

Lemma collides_meets A B low high : collides A B low high = true <-> meets A B low high.
Proof.
  destruct A as [x y], B as [x' y'], low as [lx ly], high as [hx hy]. unfold collides. cbn [fst snd combine].
  set (pq := [(- (x' - x), x - lx); (x' - x, hx - x); (- (y' - y), y - ly); (y' - y, hy - y)]).
  assert (M : meets (x, y) (x', y') (lx, ly) (hx, hy) <-> exists u, 0 <= u <= 1 /\ holds pq u).
  { unfold meets, on_segment, in_box, holds, pq. split.
    - intros [[X Y] [[u [Hu [E1 E2]]] H]]. cbn [fst snd] in *. exists u. split; auto. repeat (apply Forall_cons; cbn [fst snd]); try lra. apply Forall_nil.
    - intros [u [Hu H]]. exists ((1 - u) * x + u * x', (1 - u) * y + u * y'). cbn [fst snd]. split; [exists u; auto |].
      rewrite !Forall_cons_iff in H. cbn [fst snd] in H. lra. }
  rewrite M. clear M. destruct (clip pq None None) as [[v1 v2] |] eqn:E.
  - destruct (clip_some pq None None v1 v2 E) as [HU [C1 [C2 [D1 [D2 [F1 F2]]]]]]; try discriminate.
    assert (S : (exists x, In x pq /\ fst x < 0) <-> (exists x, In x pq /\ 0 < fst x)).
    { unfold pq. cbn [In]. split; intros [z [[<- | [<- | [<- | [<- | []]]]] Hz]]; cbn [fst] in Hz.
      all: first [exists (- (x' - x), x - lx); cbn [fst]; split; [tauto | lra] | exists (x' - x, hx - x); cbn [fst]; split; [tauto | lra]
                 | exists (- (y' - y), y - ly); cbn [fst]; split; [tauto | lra] | exists (y' - y, hy - y); cbn [fst]; split; [tauto | lra]]. }
    rewrite negb_true_iff. split.
    + intros H. destruct v1 as [a |].
      * assert (N : exists b, v2 = Some b). { apply D2. right. apply S. destruct F1 as [K | K]; [discriminate | congruence | exact K]. }
        destruct N as [b ->]. cbn [crossed] in H. apply rltb_false in H. specialize (C1 a eq_refl). specialize (C2 b eq_refl).
        exists a. split; [lra |]. apply (HU a); [lra |]. cbn [lo hi]. lra.
      * destruct v2 as [b |].
        -- destruct D1 as [a Ha]; [| discriminate]. right. apply S. destruct F2 as [K | K]; [discriminate | congruence | exact K].
        -- exists 0. split; [lra |]. apply (HU 0); [lra |]. cbn. auto.
    + intros [u [Hu Hh]]. destruct (proj1 (HU u Hu)) as [H1 H2]; [cbn; auto |].
      destruct v1 as [a |]; [| reflexivity]. destruct v2 as [b |]; [| reflexivity]. cbn [lo hi crossed] in *. apply rltb_false. lra.
  - split; [discriminate |]. intros [u [_ Hu]]. elim (clip_none _ _ _ E u Hu).
Qed.

Lemma least_le x l : least x l <= x /\ (forall y, In y l -> least x l <= y) /\ In (least x l) (x :: l).
Proof.
  revert x. induction l as [| z l IH]; intros x; cbn [least]; [repeat split; auto; [lra | intros y [] | left; auto] |].
  destruct (IH z) as [H1 [H2 H3]]. split; [apply Rmin_l |]. split.
  - intros y [<- | Hy]; [eapply Rle_trans; [apply Rmin_r | exact H1] | eapply Rle_trans; [apply Rmin_r | auto]].
  - unfold Rmin. destruct (Rle_dec x (least z l)); [left; auto | right; exact H3].
Qed.
Lemma greatest_ge x l : x <= greatest x l /\ (forall y, In y l -> y <= greatest x l) /\ In (greatest x l) (x :: l).
Proof.
  revert x. induction l as [| z l IH]; intros x; cbn [greatest]; [repeat split; auto; [lra | intros y [] | left; auto] |].
  destruct (IH z) as [H1 [H2 H3]]. split; [apply Rmax_l |]. split.
  - intros y [<- | Hy]; [eapply Rle_trans; [exact H1 | apply Rmax_r] | eapply Rle_trans; [| apply Rmax_r]; auto].
  - unfold Rmax. destruct (Rle_dec x (greatest z l)); [right; exact H3 | left; auto].
Qed.
(** The box of points is the smallest box with the points *)
Lemma bbox_smallest shape : shape <> [] -> exists low high, bbox shape = Ok (low, high) /\
  (forall X, In X shape -> in_box low high X) /\
  (forall low' high', (forall X, In X shape -> in_box low' high' X) -> forall X, in_box low high X -> in_box low' high' X).
Proof.
  destruct shape as [| X r]; [congruence |]. intros _.
  destruct (least_le (fst X) (map fst r)) as [A1 [A2 A3]]. destruct (least_le (snd X) (map snd r)) as [B1 [B2 B3]].
  destruct (greatest_ge (fst X) (map fst r)) as [C1 [C2 C3]]. destruct (greatest_ge (snd X) (map snd r)) as [D1 [D2 D3]].
  do 2 eexists. split; [reflexivity |]. unfold in_box. cbn [fst snd]. split.
  - intros Y [<- | HY]; [lra |]. pose proof (A2 _ (in_map fst _ _ HY)). pose proof (B2 _ (in_map snd _ _ HY)).
    pose proof (C2 _ (in_map fst _ _ HY)). pose proof (D2 _ (in_map snd _ _ HY)). lra.
  - intros low' high' H Y HY.
    change (fst X :: map fst r) with (map fst (X :: r)) in *. change (snd X :: map snd r) with (map snd (X :: r)) in *.
    apply in_map_iff in A3, B3, C3, D3. destruct A3 as [P1 [E1 I1]], B3 as [P2 [E2 I2]], C3 as [P3 [E3 I3]], D3 as [P4 [E4 I4]].
    pose proof (H _ I1). pose proof (H _ I2). pose proof (H _ I3). pose proof (H _ I4). lra.
Qed.
