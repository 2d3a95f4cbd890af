(** Specification vocabulary for extensions, and lemmas. *)
From Verif Require Import Base Mat MatProofs ExtensionModel.

(** ** Vocabulary *)

(** squared distance of two points of the plane or space *)
Definition d2 (x y : vec) : Qc := sumn (length x) (fun i => (vnth x i - vnth y i) * (vnth x i - vnth y i))%Qc.

(** point number [k] is the nearest to [x]; of several the first *)
Definition nearest (pts : list vec) (x : vec) (k : nat) : Prop :=
  k < length pts /\
  (forall j, j < length pts -> (d2 x (nth k pts []) <= d2 x (nth j pts []))%Qc) /\
  (forall j, j < k -> (d2 x (nth k pts []) < d2 x (nth j pts []))%Qc).

(** points have as many coordinates as the space *)
Definition sound (V : fspace) : Prop := Forall (fun x => length x = f_gdim V) (f_pts V).

(** the components of a point follow each other *)
Definition interleaved (V : fspace) (n : nat) : Prop :=
  f_comps V = Some n /\ forall p k, p < length (f_pts V) -> k < n -> f_dof V (n * p + k) = (p, k).

(** ** Lemmas *)
Lemma sqdist_d2 x y : length x = length y -> sqdist x y = d2 x y.
Proof.
  unfold sqdist, d2. revert y. induction x as [| a x IH]; intros y Hl.
  - destruct y; reflexivity.
  - destruct y as [| b y]; [discriminate Hl |]. injection Hl as Hl. cbn [combine map fold_right length fst snd].
    rewrite IH by exact Hl. rewrite sumn_first. reflexivity.
Qed.

Lemma argmin_from_first L l k best bv :
  skipn k L = l -> best < k -> k <= length L -> bv = nth best L q0 ->
  (forall j, j < k -> (bv <= nth j L q0)%Qc) -> (forall j, j < best -> (bv < nth j L q0)%Qc) ->
  let r := argmin_from k best bv l in
  r < length L /\ (forall j, j < length L -> (nth r L q0 <= nth j L q0)%Qc) /\ (forall j, j < r -> (nth r L q0 < nth j L q0)%Qc).
Proof.
  revert k best bv. induction l as [| x l IH]; intros k best bv Hl Hb Hk Hv Hle Hlt; cbn [argmin_from].
  - assert (length L <= k). { pose proof (f_equal (@length Qc) Hl) as E. rewrite skipn_length in E. cbn in E. lia. }
    rewrite <- Hv. split; [lia |]. split; [intros j Hj; apply Hle; lia | exact Hlt].
  - assert (Hk' : k < length L). { pose proof (f_equal (@length Qc) Hl) as E. rewrite skipn_length in E. cbn in E. lia. }
    assert (Hx : nth k L q0 = x).
    { rewrite <- (firstn_skipn k L), Hl, app_nth2; rewrite firstn_length_le by lia; [rewrite Nat.sub_diag; reflexivity | lia]. }
    assert (Hl' : skipn (S k) L = l).
    { clear - Hl. revert k Hl. induction L as [| a L IHL]; intros k Hl; [destruct k; discriminate Hl |].
      destruct k as [| k]; cbn in *; [congruence | exact (IHL k Hl)]. }
    destruct (qltb x bv) eqn:Q.
    + apply qltb_lt in Q. apply IH; try assumption; try lia; try (symmetry; exact Hx).
      * intros j Hj. destruct (Nat.eq_dec j k) as [-> | Hne]; [rewrite Hx; apply Qcle_refl |].
        eapply Qcle_trans; [apply Qclt_le_weak; exact Q |]. apply Hle. lia.
      * intros j Hj. eapply Qclt_le_trans; [exact Q |]. apply Hle. exact Hj.
    + assert (N : (bv <= x)%Qc). { apply Qcnot_lt_le. rewrite <- qltb_lt, Q. discriminate. }
      apply IH; try assumption; try lia. intros j Hj. destruct (Nat.eq_dec j k) as [-> | Hne]; [rewrite Hx; exact N | apply Hle; lia].
Qed.

Lemma argmin_first L : L <> [] ->
  let r := argmin L in
  r < length L /\ (forall j, j < length L -> (nth r L q0 <= nth j L q0)%Qc) /\ (forall j, j < r -> (nth r L q0 < nth j L q0)%Qc).
Proof.
  destruct L as [| x l]; intros H; [contradiction H; reflexivity |]. unfold argmin.
  apply argmin_from_first; cbn; try lia; try reflexivity.
  intros j Hj. replace j with 0 by lia. apply Qcle_refl.
Qed.

Lemma argmin_nearest pts x g : pts <> [] -> Forall (fun y => length y = g) pts -> length x = g ->
  nearest pts x (argmin (map (sqdist x) pts)).
Proof.
  intros Hne Hg Hx. destruct (argmin_first (map (sqdist x) pts)) as (H1 & H2 & H3).
  { intros E. destruct pts; [exact (Hne eq_refl) | discriminate E]. }
  rewrite map_length in H1, H2.
  assert (G : forall j, j < length pts -> nth j (map (sqdist x) pts) q0 = d2 x (nth j pts [])).
  { intros j Hj. rewrite (nth_indep _ q0 (sqdist x [])) by (rewrite map_length; exact Hj). rewrite map_nth. apply sqdist_d2.
    rewrite Forall_forall in Hg. rewrite Hx. symmetry. apply Hg. apply nth_In. exact Hj. }
  split; [exact H1 |]. split.
  - intros j Hj. rewrite <- !G by assumption. apply H2. exact Hj.
  - intros j Hj. rewrite <- !G by lia. apply H3. exact Hj.
Qed.

Lemma nearest_unique pts x k j : nearest pts x k -> nearest pts x j -> k = j.
Proof.
  intros (K1 & K2 & K3) (J1 & J2 & J3). destruct (Nat.lt_total k j) as [H | [H | H]]; [| exact H |].
  - exfalso. apply (Qcle_not_lt _ _ (K2 j J1)). apply J3. exact H.
  - exfalso. apply (Qcle_not_lt _ _ (J2 k K1)). apply K3. exact H.
Qed.

(** a row with a single one picks an entry *)
Lemma pick_mv m n col u i : i < m -> col i < n ->
  vnth (mv (Mat m n (fun i j => if j =? col i then q1 else q0)) u) i = vnth u (col i).
Proof.
  intros Hi Hc. rewrite vnth_mv by exact Hi. cbn [nc ent]. rewrite (sumn_single n (col i)) by
    (try exact Hc; intros j _ Hj; apply Nat.eqb_neq in Hj; rewrite Hj; unfold q0; ring).
  rewrite Nat.eqb_refl. unfold q1. ring.
Qed.

(** component k of point p in an interleaved list *)
Lemma nth_interleaved n cols p k d : p < length cols -> k < n ->
  nth (n * p + k) (flat_map (fun c => map (fun k => n * c + k) (seq 0 n)) cols) d = n * nth p cols 0 + k.
Proof.
  revert p. induction cols as [| c cols IH]; intros p Hp Hk; [cbn in Hp; lia |].
  cbn [flat_map]. destruct p as [| p].
  - rewrite app_nth1 by (rewrite map_length, seq_length; lia). rewrite Nat.mul_0_r, Nat.add_0_l.
    rewrite (nth_indep _ d (n * c + 0)) by (rewrite map_length, seq_length; lia).
    rewrite (map_nth (fun k => n * c + k)), seq_nth by lia. reflexivity.
  - rewrite app_nth2; rewrite map_length, seq_length; [| nia]. replace (n * S p + k - n) with (n * p + k) by nia.
    apply IH; [cbn in Hp; lia | exact Hk].
Qed.
Lemma interleaved_length n cols : length (flat_map (fun c => map (fun k => n * c + k) (seq 0 n)) cols) = n * length cols.
Proof. induction cols as [| c cols IH]; cbn; [lia |]. rewrite app_length, map_length, seq_length, IH. lia. Qed.

(** squares *)
Lemma qsq_nonneg (a : Qc) : (0 <= a * a)%Qc.
Proof.
  destruct (Qclt_le_dec a 0) as [H | H].
  - replace (a * a)%Qc with ((- a) * (- a))%Qc by ring. assert (N : (0 <= - a)%Qc) by (apply (Qcopp_le_compat a 0); apply Qclt_le_weak; exact H).
    replace 0%Qc with (0 * (- a))%Qc by ring. apply Qcmult_le_compat_r; exact N.
  - replace 0%Qc with (0 * a)%Qc by ring. apply Qcmult_le_compat_r; exact H.
Qed.
Lemma d2_nonneg x y : (0 <= d2 x y)%Qc.
Proof.
  unfold d2. induction (length x) as [| n IH]; cbn [sumn]; [apply Qcle_refl |].
  replace 0%Qc with (0 + 0)%Qc by ring. apply Qcplus_le_compat; [exact IH | apply qsq_nonneg].
Qed.
Lemma d2_refl x : d2 x x = 0%Qc.
Proof. unfold d2. apply sumn_zero. intros i _. unfold q0. ring. Qed.
Lemma d2_zero x y : length x = length y -> d2 x y = 0%Qc -> x = y.
Proof.
  intros Hl H. unfold d2 in H. apply (nth_ext _ _ q0 q0); [exact Hl |]. intros i Hi.
  assert (G : forall n, sumn n (fun i => ((vnth x i - vnth y i) * (vnth x i - vnth y i))%Qc) = 0%Qc -> forall i, i < n -> vnth x i = vnth y i).
  { clear. induction n as [| n IH]; intros H i Hi; [lia |]. cbn [sumn] in H.
    set (s := sumn n _) in *. set (t := ((vnth x n - vnth y n) * (vnth x n - vnth y n))%Qc) in *.
    assert (S0 : (0 <= s)%Qc). { unfold s. clear. induction n as [| n IH]; cbn [sumn]; [apply Qcle_refl |].
      replace 0%Qc with (0 + 0)%Qc by ring. apply Qcplus_le_compat; [exact IH | apply qsq_nonneg]. }
    assert (T0 : (0 <= t)%Qc) by apply qsq_nonneg.
    assert (Es : s = 0%Qc). { apply Qcle_antisym; [| exact S0]. rewrite <- H. replace s with (s + 0)%Qc at 1 by ring. apply Qcplus_le_compat; [apply Qcle_refl | exact T0]. }
    assert (Et : t = 0%Qc). { rewrite Es in H. rewrite <- H. ring. }
    destruct (Nat.eq_dec i n) as [-> | Hne]; [| apply (IH Es); lia].
    apply Qcmult_integral in Et. replace (vnth x n) with ((vnth x n - vnth y n) + vnth y n)%Qc by ring.
    destruct Et as [-> | ->]; ring. }
  exact (G (length x) H i Hi).
Qed.
