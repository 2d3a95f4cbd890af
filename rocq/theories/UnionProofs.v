(** Specification vocabulary and proofs for UnionModel.v. *)
From Verif Require Import UnionModel GeomProofs LineProofs BaseProofs WalkProofs.
From Coq Require Import Psatz Permutation Sorted.
Local Open Scope R_scope.

(** ** Specification *)
Definition pt (m : umesh) (v : nat) : list R := nth v (u_x m) [].
Definition nv (m : umesh) : nat := length (u_x m).
Definition wf_mesh (m : umesh) : Prop :=
  Forall (Forall (fun v => v < nv m)%nat) (u_cells m) /\ Forall (fun p => length p = u_gdim m) (u_x m).
(** [lg] maps the vertices of [m] to vertices of [r] that are nearer than [tol], one to one *)
Definition sits (tol : R) (r m : umesh) (lg : list nat) : Prop :=
  length lg = nv m /\ (forall k, (k < nv m)%nat -> (nth k lg 0 < nv r)%nat /\ dist (pt r (nth k lg 0%nat)) (pt m k) < tol) /\ NoDup lg.
Definition moved (lg : list nat) (cells : list (list nat)) : list (list nat) := map (map (fun v => nth v lg 0%nat)) cells.
Definition is_leaf (l : option (list (nat * list nat))) : bool := match l with None => true | Some _ => false end.
Definition leafs_of (m : umesh) : list (nat * list nat) := match u_leafs m with None => [(u_id m, seq 0 (nv m))] | Some l => l end.
(** A facet of cell [i] which is in no other cell *)
Definition boundary_vertex (cells : list (list nat)) (v : nat) : Prop :=
  exists i w, (i < length cells)%nat /\ In w (nth i cells []) /\ w <> v /\ In v (nth i cells []) /\
  forall j, (j < length cells)%nat -> j <> i -> ~ (forall u, In u (nth i cells []) -> u <> w -> In u (nth j cells [])).
Definition simplices (cells : list (list nat)) : Prop := exists n, (2 <= n)%nat /\ Forall (fun c => NoDup c /\ length c = n) cells.

(** ** Distances *)
Lemma dist_sym p q : length p = length q -> dist p q = dist q p.
Proof. intros L. rewrite <- !rnorm_dist. apply rnorm_sym, L. Qed.
Lemma rdot_add p q : length p = length q -> rdot (radd p q) (radd p q) = rdot p p + rdot q q + 2 * rdot p q.
Proof. revert q. induction p as [|a p IH]; intros [|b q] L; try discriminate L; [cbn; ring|]. injection L as L. cbn. specialize (IH q L). unfold rdot in *. cbn. lra. Qed.
Lemma dist_triangle p q r : length p = length q -> length q = length r -> dist p r <= dist p q + dist q r.
Proof.
  intros L1 L2. rewrite <- !rnorm_dist. set (a := rsub p q). set (b := rsub q r). assert (LA : length a = length p) by (unfold a; rewrite rsub_length; lia). assert (LB : length b = length p) by (unfold b; rewrite rsub_length; lia).
  assert (E : rsub p r = radd a b). { apply GeomProofs.list_ext; [rewrite rsub_length, GeomProofs.radd_length; lia|]. intros i _. unfold a, b. rewrite nth_radd, !nth_rsub by (try rewrite !rsub_length; lia). ring. }
  rewrite E. pose proof (cauchy_schwarz a b ltac:(lia)) as CS. pose proof (rnorm_sq (radd a b)) as S. rewrite rdot_add, <- (rnorm_sq a), <- (rnorm_sq b) in S by lia. pose proof (rnorm_nonneg (radd a b)). pose proof (rnorm_nonneg a). pose proof (rnorm_nonneg b). nra.
Qed.

(** ** Removal *)
Lemma remove_at_map {A B} (f : A -> B) l : forall i, remove_at i (map f l) = map f (remove_at i l).
Proof. induction l as [|a l IH]; intros [|i]; cbn; try reflexivity. rewrite IH. reflexivity. Qed.
Lemma remove_at_incl {A} (l : list A) : forall i a, In a (remove_at i l) -> In a l.
Proof. induction l as [|b l IH]; intros [|i] a H; cbn in *; [contradiction|contradiction|auto|]. destruct H as [H|H]; [auto|right; exact (IH i a H)]. Qed.
Lemma remove_at_keep {A} (l : list A) d : forall i a, In a l -> a <> nth i l d -> In a (remove_at i l).
Proof. induction l as [|b l IH]; intros [|i] a H N; cbn in *; [contradiction|contradiction| |]. - destruct H as [H|H]; [congruence|exact H]. - destruct H as [H|H]; [auto|right; exact (IH i a H N)]. Qed.
Lemma remove_at_gone {A} (l : list A) d : NoDup l -> forall i, (i < length l)%nat -> ~ In (nth i l d) (remove_at i l).
Proof. induction 1 as [|b l NI N IH]; intros [|i] H; cbn in *; [lia|lia|exact NI|]. intros [E|E]; [apply NI; rewrite E; apply nth_In; lia|exact (IH i ltac:(lia) E)]. Qed.
Lemma remove_at_nodup {A} (l : list A) : NoDup l -> forall i, NoDup (remove_at i l).
Proof. induction 1 as [|b l NI N IH]; intros [|i]; cbn; [constructor|constructor|exact N|]. constructor; [intros H; apply NI, (remove_at_incl l i b H)|apply IH]. Qed.
Lemma remove_at_length {A} (l : list A) : forall i, (i < length l)%nat -> length (remove_at i l) = (length l - 1)%nat.
Proof. induction l as [|b l IH]; intros [|i] H; cbn in *; [lia|lia|lia|]. rewrite IH by lia. lia. Qed.

(** ** Matching *)
Lemma dict_set_fresh k v d : ~ In k (map fst d) -> dict_set k v d = d ++ [(k, v)].
Proof. induction d as [|[k' v'] d IH]; intros H; [reflexivity|]. cbn in *. destruct (Nat.eqb_spec k' k) as [-> |N]; [exfalso; auto|]. rewrite IH by auto. reflexivity. Qed.
Section Matching.
  Variables (tol : R) (X0 X1 : list (list R)).
  Let near i k := dist (nth k X1 []) (nth i X0 []) < tol.
  Lemma match_step b0 i b1 shared r : (i < length X0)%nat -> match_vertices tol X0 (i :: b0) (map (fun k => nth k X1 []) b1) b1 shared = Ok r ->
    exists imin, (imin < length b1)%nat /\ (forall k, In k b1 -> dist (nth (nth imin b1 0%nat) X1 []) (nth i X0 []) <= dist (nth k X1 []) (nth i X0 [])) /\
    ((near i (nth imin b1 0%nat) /\ match_vertices tol X0 b0 (map (fun k => nth k X1 []) (remove_at imin b1)) (remove_at imin b1) (dict_set (nth imin b1 0%nat) i shared) = Ok r) \/
     (~ near i (nth imin b1 0%nat) /\ match_vertices tol X0 b0 (map (fun k => nth k X1 []) b1) b1 shared = Ok r)).
  Proof.
    intros I H. cbn [match_vertices] in H. rewrite (nth_error_nth' X0 [] I) in H. cbn [opt_res bind] in H. rewrite map_map in H. set (D := map (fun k => rnorm (rsub (nth k X1 []) (nth i X0 []))) b1) in *.
    destruct b1 as [|k0 b1']; [discriminate H|]. set (b1 := k0 :: b1') in *. destruct (argmin_spec D) as [imin [E [L M]]]; [discriminate|]. rewrite E in H. cbn [bind] in H. unfold D in L. rewrite map_length in L.
    assert (AT : forall j, (j < length b1)%nat -> at_ D j = dist (nth (nth j b1 0%nat) X1 []) (nth i X0 [])). { intros j J. unfold D, at_. rewrite (nth_indep _ 0 (rnorm (rsub (nth 0 X1 []) (nth i X0 [])))) by (rewrite map_length; exact J). rewrite (map_nth (fun k => rnorm (rsub (nth k X1 []) (nth i X0 [])))). apply rnorm_dist. }
    exists imin. split; [exact L|]. split.
    - intros k K. apply (In_nth _ _ 0%nat) in K. destruct K as [j [J <-]]. rewrite <- !AT by assumption. apply M. unfold D. rewrite map_length. exact J.
    - rewrite AT in H by exact L. unfold near. destruct (Rlt_dec (dist (nth (nth imin b1 0%nat) X1 []) (nth i X0 [])) tol) as [G|G]; [left|right; split; assumption]. split; [exact G|]. rewrite (nth_error_nth' b1 0%nat L) in H. cbn [opt_res bind] in H. rewrite remove_at_map in H. exact H.
  Qed.
  Definition state (b0 b1 : list nat) (shared : list (nat * nat)) : Prop :=
    NoDup b0 /\ NoDup b1 /\ Forall (fun i => i < length X0)%nat b0 /\ NoDup (map fst shared) /\ NoDup (map snd shared) /\ (forall kv, In kv shared -> ~ In (fst kv) b1 /\ ~ In (snd kv) b0).
  Lemma state_next i b0 b1 shared imin : (imin < length b1)%nat -> state (i :: b0) b1 shared ->
    dict_set (nth imin b1 0%nat) i shared = shared ++ [(nth imin b1 0%nat, i)] /\ state b0 (remove_at imin b1) (shared ++ [(nth imin b1 0%nat, i)]).
  Proof.
    intros L [N0 [N1 [R0 [K [V D]]]]]. inversion N0 as [|i0 b0' NI N0']; subst. apply Forall_cons_iff in R0. destruct R0 as [_ R0].
    assert (FK : ~ In (nth imin b1 0%nat) (map fst shared)). { intros I. apply in_map_iff in I. destruct I as [kv [E I]]. destruct (D kv I) as [A _]. apply A. rewrite E. apply nth_In, L. }
    assert (FV : ~ In i (map snd shared)). { intros I. apply in_map_iff in I. destruct I as [kv [E I]]. destruct (D kv I) as [_ A]. apply A. rewrite E. left. reflexivity. }
    split; [apply dict_set_fresh, FK|]. split; [exact N0'|]. split; [apply remove_at_nodup, N1|]. split; [exact R0|]. rewrite !map_app. cbn [map fst snd]. split; [apply NoDup_snoc; auto|]. split; [apply NoDup_snoc; auto|].
    intros kv I. apply in_app_iff in I. destruct I as [I|[<- |[]]].
    - destruct (D kv I) as [A B]. split; [intros C; apply A, (remove_at_incl _ _ _ C)|intros C; apply B; right; exact C].
    - cbn [fst snd]. split; [apply remove_at_gone; assumption|exact NI].
  Qed.
  Lemma state_skip i b0 b1 shared : state (i :: b0) b1 shared -> state b0 b1 shared.
  Proof. intros [N0 [N1 [R0 [K [V D]]]]]. inversion N0 as [|i0 b0' NI N0']; subst. apply Forall_cons_iff in R0. destruct R0 as [_ R0]. split; [exact N0'|]. split; [exact N1|]. split; [exact R0|]. split; [exact K|]. split; [exact V|]. intros kv I. destruct (D kv I) as [A B]. split; [exact A|intros C; apply B; right; exact C]. Qed.
  Lemma match_sound b0 : forall b1 shared r, state b0 b1 shared -> match_vertices tol X0 b0 (map (fun k => nth k X1 []) b1) b1 shared = Ok r ->
    NoDup (map fst r) /\ NoDup (map snd r) /\ (forall kv, In kv shared -> In kv r) /\ (forall kv, In kv r -> In kv shared \/ (In (fst kv) b1 /\ In (snd kv) b0 /\ near (snd kv) (fst kv))).
  Proof.
    induction b0 as [|i b0 IH]; intros b1 shared r S H.
    - injection H as <-. destruct S as [_ [_ [_ [K [V _]]]]]. split; [exact K|]. split; [exact V|]. split; auto.
    - assert (I : (i < length X0)%nat) by (destruct S as [_ [_ [R0 _]]]; apply Forall_cons_iff in R0; tauto). destruct (match_step b0 i b1 shared r I H) as [imin [L [_ [[N H']|[N H']]]]].
      + destruct (state_next i b0 b1 shared imin L S) as [E S']. rewrite E in H'. destruct (IH _ _ _ S' H') as [A [B [C D]]]. split; [exact A|]. split; [exact B|]. split; [intros kv J; apply C, in_app_iff; left; exact J|]. intros kv J. destruct (D kv J) as [J1|[J1 [J2 J3]]].
        * apply in_app_iff in J1. destruct J1 as [J1|[<- |[]]]; [left; exact J1|right]. cbn [fst snd]. split; [apply nth_In, L|]. split; [left; reflexivity|exact N].
        * right. split; [exact (remove_at_incl _ _ _ J1)|]. split; [right; exact J2|exact J3].
      + destruct (IH _ _ _ (state_skip _ _ _ _ S) H') as [A [B [C D]]]. split; [exact A|]. split; [exact B|]. split; [exact C|]. intros kv J. destruct (D kv J) as [J1|[J1 [J2 J3]]]; [left; exact J1|right]. split; [exact J1|]. split; [right; exact J2|exact J3].
  Qed.
  (** Vertices nearer than [tol] are matched if those of a mesh are two [tol] apart *)
  Lemma match_complete g b0 : Forall (fun p => length p = g) X0 -> Forall (fun p => length p = g) X1 -> forall b1 shared r, state b0 b1 shared -> Forall (fun k => k < length X1)%nat b1 ->
    (forall i j, In i b0 -> In j b0 -> i <> j -> 2 * tol <= dist (nth i X0 []) (nth j X0 [])) ->
    (forall k l, In k b1 -> In l b1 -> k <> l -> 2 * tol <= dist (nth k X1 []) (nth l X1 [])) ->
    match_vertices tol X0 b0 (map (fun k => nth k X1 []) b1) b1 shared = Ok r -> forall i k, In i b0 -> In k b1 -> near i k -> In (k, i) r.
  Proof.
    intros G0 G1. assert (L0 : forall i, (i < length X0)%nat -> length (nth i X0 []) = g) by (intros i I; rewrite Forall_forall in G0; apply G0, nth_In, I). assert (L1 : forall i, (i < length X1)%nat -> length (nth i X1 []) = g) by (intros i I; rewrite Forall_forall in G1; apply G1, nth_In, I).
    induction b0 as [|i0 b0 IH]; intros b1 shared r S R1 S0 S1 H i k I K N; [destruct I|]. pose proof S as [N0 [N1 [R0 _]]]. pose proof R0 as R0'. apply Forall_cons_iff in R0'. destruct R0' as [I0 R0']. rewrite Forall_forall in R0, R1. destruct (match_step b0 i0 b1 shared r I0 H) as [imin [L [M C]]]. set (k' := nth imin b1 0%nat) in *. assert (K' : In k' b1) by (apply nth_In, L).
    destruct I as [<- |I].
    - specialize (M k K). destruct C as [[NE H']|[NE H']]; [|unfold near in *; lra]. destruct (Nat.eq_dec k k') as [-> |D].
      + destruct (state_next i0 b0 b1 shared imin L S) as [E S']. fold k' in E, S'. rewrite E in H'. destruct (match_sound _ _ _ _ S' H') as [_ [_ [Q _]]]. apply Q, in_app_iff. right. left. reflexivity.
      + specialize (S1 k k' K K' D). unfold near in *. pose proof (L0 i0 I0) as E0. pose proof (L1 k (R1 k K)) as E1. pose proof (L1 k' (R1 k' K')) as E2. pose proof (dist_triangle (nth k X1 []) (nth i0 X0 []) (nth k' X1 []) ltac:(congruence) ltac:(congruence)) as T. rewrite (dist_sym (nth i0 X0 []) (nth k' X1 [])) in T by congruence. lra.
    - assert (ID : i0 <> i) by (inversion N0; subst; intros ->; contradiction). assert (S0' : forall a b, In a b0 -> In b b0 -> a <> b -> 2 * tol <= dist (nth a X0 []) (nth b X0 [])) by (intros; apply S0; auto; right; assumption). destruct C as [[NE H']|[NE H']].
      + destruct (state_next i0 b0 b1 shared imin L S) as [E S']. fold k' in E, S'. rewrite E in H'. destruct (Nat.eq_dec k k') as [-> |D].
        * exfalso. specialize (S0 i0 i (or_introl eq_refl) (or_intror I) ID). unfold near in *. pose proof (L0 i0 I0) as E0. pose proof (L0 i (R0 i (or_intror I))) as E1. pose proof (L1 k' (R1 k' K')) as E2. pose proof (dist_triangle (nth i0 X0 []) (nth k' X1 []) (nth i X0 []) ltac:(congruence) ltac:(congruence)) as T. rewrite (dist_sym (nth i0 X0 []) (nth k' X1 [])) in T by congruence. lra.
        * apply (IH (remove_at imin b1) (shared ++ [(k', i0)]) r S'); try assumption.
          -- apply Forall_forall. intros a A. apply R1, (remove_at_incl _ _ _ A).
          -- intros a b A B. apply S1; eapply remove_at_incl; eassumption.
          -- apply (remove_at_keep b1 0%nat); [exact K|exact D].
      + apply (IH b1 shared r (state_skip _ _ _ _ S)); try assumption. apply Forall_forall. exact R1.
  Qed.
  (** The loop ends if a boundary vertex is left over *)
  Lemma match_returns b0 k : forall b1 shared, Forall (fun i => i < length X0)%nat b0 -> NoDup b1 -> In k b1 -> (forall i, In i b0 -> ~ near i k) -> exists r, match_vertices tol X0 b0 (map (fun k => nth k X1 []) b1) b1 shared = Ok r.
  Proof.
    induction b0 as [|i b0 IH]; intros b1 shared R0 N1 K F; [eexists; reflexivity|]. apply Forall_cons_iff in R0. destruct R0 as [I R0]. cbn [match_vertices]. rewrite (nth_error_nth' X0 [] I). cbn [opt_res bind]. rewrite map_map. set (D := map (fun k => rnorm (rsub (nth k X1 []) (nth i X0 []))) b1).
    destruct (argmin_spec D) as [imin [E [L M]]]; [unfold D; destruct b1; [destruct K|discriminate]|]. rewrite E. cbn [bind]. unfold D in L. rewrite map_length in L.
    destruct (Rlt_dec (at_ D imin) tol) as [G|G]; [|apply IH; auto; intros j J; apply F; right; exact J].
    rewrite (nth_error_nth' b1 0%nat L). cbn [opt_res bind]. rewrite remove_at_map. apply IH; [exact R0|apply remove_at_nodup, N1| |intros j J; apply F; right; exact J]. apply (remove_at_keep b1 0%nat); [exact K|]. intros ->. apply (F i); [left; reflexivity|]. unfold near. unfold D, at_ in G. rewrite (nth_indep _ 0 (rnorm (rsub (nth 0 X1 []) (nth i X0 [])))) in G by (rewrite map_length; exact L). rewrite (map_nth (fun k => rnorm (rsub (nth k X1 []) (nth i X0 [])))) in G. rewrite rnorm_dist in G. exact G.
  Qed.
End Matching.

(** ** The map of vertices *)
Lemma insert_perm kv l : Permutation (kv :: l) (insert_item kv l).
Proof. induction l as [|a l IH]; cbn; [reflexivity|]. destruct (fst kv <=? fst a)%nat; [reflexivity|]. rewrite <- IH. apply perm_swap. Qed.
Lemma sort_perm l : Permutation l (sort_items l).
Proof. induction l as [|a l IH]; [reflexivity|]. cbn. rewrite <- insert_perm. constructor. exact IH. Qed.
Definition key_le (a b : nat * nat) : Prop := (fst a <= fst b)%nat.
Lemma insert_sorted kv l : StronglySorted key_le l -> StronglySorted key_le (insert_item kv l).
Proof.
  induction 1 as [|a l S IH F]; cbn; [repeat constructor|]. destruct (Nat.leb_spec (fst kv) (fst a)) as [H|H].
  - constructor; [constructor; assumption|]. constructor; [exact H|]. eapply Forall_impl; [|exact F]. intros b B. unfold key_le in *. lia.
  - constructor; [exact IH|]. eapply Permutation_Forall; [apply insert_perm|]. constructor; [unfold key_le; lia|exact F].
Qed.
Lemma sort_sorted l : StronglySorted key_le (sort_items l).
Proof. induction l as [|a l IH]; cbn; [constructor|]. apply insert_sorted, IH. Qed.
Lemma sorted_keys l : StronglySorted key_le l -> StronglySorted le (map fst l).
Proof. induction 1 as [|a l S IH F]; cbn; constructor; [exact IH|]. apply Forall_forall. intros k K. apply in_map_iff in K. destruct K as [b [<- B]]. rewrite Forall_forall in F. exact (F b B). Qed.
Lemma sorted_unique l : forall l', StronglySorted le l -> StronglySorted le l' -> Permutation l l' -> l = l'.
Proof.
  induction l as [|a l IH]; intros l' S S' P; [apply Permutation_nil in P; subst; reflexivity|]. destruct l' as [|b l']; [symmetry in P; apply Permutation_nil in P; discriminate P|]. inversion S as [|? ? S1 F1]; subst. inversion S' as [|? ? S2 F2]; subst. rewrite Forall_forall in F1, F2.
  assert (AB : a = b). { assert (In a (b :: l')) as [H|H] by (rewrite <- P; left; reflexivity); [congruence|]. assert (In b (a :: l)) as [H'|H'] by (rewrite P; left; reflexivity); [congruence|]. specialize (F1 b H'). specialize (F2 a H). lia. }
  subst b. f_equal. apply IH; [exact S1|exact S2|]. exact (Permutation_cons_inv P).
Qed.
Lemma seq_sorted n : forall s, StronglySorted le (seq s n).
Proof. induction n as [|n IH]; intros s; cbn; constructor; [apply IH|]. apply Forall_forall. intros k K. apply in_seq in K. lia. Qed.
Lemma number_from_keys l : forall v, map fst (number_from v l) = l.
Proof. induction l as [|k l IH]; intros v; cbn; [reflexivity|]. rewrite IH. reflexivity. Qed.
Lemma number_from_values l : forall v, map snd (number_from v l) = seq v (length l).
Proof. induction l as [|k l IH]; intros v; cbn; [reflexivity|]. rewrite IH. reflexivity. Qed.
Lemma number_from_In l : forall v k w, In (k, w) (number_from v l) -> (v <= w < v + length l)%nat /\ nth (w - v) l 0%nat = k.
Proof. induction l as [|a l IH]; intros v k w H; cbn in *; [contradiction|]. destruct H as [H|H]; [injection H as <- <-; rewrite Nat.sub_diag; split; [lia|reflexivity]|]. destruct (IH _ _ _ H) as [A B]. split; [lia|]. replace (w - v)%nat with (S (w - S v)) by lia. exact B. Qed.
Lemma dict_update_fresh e : forall d, NoDup (map fst e) -> (forall k, In k (map fst e) -> ~ In k (map fst d)) -> dict_update d e = d ++ e.
Proof.
  induction e as [|[k v] e IH]; intros d N F; [rewrite app_nil_r; reflexivity|]. cbn [map fst] in N, F. inversion N as [|k0 l0 NI N']; subst. unfold dict_update in *. cbn [fold_left fst snd]. rewrite dict_set_fresh by (apply F; left; reflexivity). rewrite IH; [rewrite <- app_assoc; reflexivity|exact N'|]. intros k' K. rewrite map_app, in_app_iff. intros [I|[I|[]]]; [apply (F k'); [right; exact K|exact I]|]. cbn in I. subst. contradiction.
Qed.
Lemma mem_spec n l : mem n l = true <-> In n l.
Proof. unfold mem. rewrite existsb_exists. split; [intros [m [I E]]; apply Nat.eqb_eq in E; subst; exact I|intros I; exists n; split; [exact I|apply Nat.eqb_refl]]. Qed.
Lemma mapM_take {A} (l : list A) d idx : Forall (fun i => i < length l)%nat idx -> mapM (take l) idx = Ok (map (fun i => nth i l d) idx).
Proof. induction 1 as [|i idx I F IH]; [reflexivity|]. rewrite mapM_cons. unfold take at 1. rewrite (nth_error_nth' l d I). cbn [opt_res bind]. rewrite IH. reflexivity. Qed.
Lemma mapM_takes {A} (l : list A) d cells : Forall (Forall (fun i => i < length l)%nat) cells -> mapM (mapM (take l)) cells = Ok (map (map (fun i => nth i l d)) cells).
Proof. induction 1 as [|c cells C F IH]; [reflexivity|]. rewrite mapM_cons, (mapM_take l d c C). cbn [bind]. rewrite IH. reflexivity. Qed.
Lemma NoDup_app_intro {A} (a b : list A) : NoDup a -> NoDup b -> (forall x, In x a -> ~ In x b) -> NoDup (a ++ b).
Proof. induction 1 as [|x a NI N IH]; intros Nb F; [exact Nb|]. cbn. constructor; [rewrite in_app_iff; intros [I|I]; [exact (NI I)|exact (F x (or_introl eq_refl) I)]|]. apply IH; [exact Nb|]. intros y Y. apply F. right. exact Y. Qed.
(** The numbering of the vertices of the second mesh *)
Lemma numbering n offset shared unshared : NoDup (map fst shared) -> NoDup (map snd shared) -> (forall kv, In kv shared -> (fst kv < n)%nat /\ (snd kv < offset)%nat) ->
  Permutation unshared (filter (fun v => negb (mem v (map fst shared))) (seq 0 n)) ->
  let lg := map snd (sort_items (dict_update (number_from offset unshared) shared)) in
  length lg = n /\ NoDup lg /\ forall k, (k < n)%nat -> (In (k, nth k lg 0%nat) shared /\ (nth k lg 0 < offset)%nat) \/ ((offset <= nth k lg 0 < offset + length unshared)%nat /\ nth (nth k lg 0%nat - offset) unshared 0%nat = k).
Proof.
  intros K V R P lg.
  assert (UI : forall v, In v unshared <-> (v < n)%nat /\ ~ In v (map fst shared)). { intros v. rewrite P, filter_In, in_seq, negb_true_iff. rewrite <- mem_spec. destruct (mem v (map fst shared)); split; intros [A B]; split; try lia; congruence. }
  assert (UN : NoDup unshared) by (rewrite P; apply NoDup_filter, seq_NoDup).
  assert (D : dict_update (number_from offset unshared) shared = number_from offset unshared ++ shared). { apply dict_update_fresh; [exact K|]. intros k I. rewrite number_from_keys, UI. tauto. }
  unfold lg. rewrite D. set (d := number_from offset unshared ++ shared). pose proof (sort_perm d) as SP.
  assert (ND : NoDup (map snd d)). { unfold d. rewrite map_app, number_from_values. apply NoDup_app_intro; [apply seq_NoDup|exact V|]. intros w I J. apply in_seq in I. apply in_map_iff in J. destruct J as [kv [<- J]]. specialize (R kv J). lia. }
  assert (KP : Permutation (map fst (sort_items d)) (seq 0 n)). { rewrite <- SP. unfold d. rewrite map_app, number_from_keys. apply NoDup_Permutation; [apply NoDup_app_intro; [exact UN|exact K|intros w I J; apply UI in I; tauto]|apply seq_NoDup|]. intros w. rewrite in_app_iff, UI, in_seq. split.
    - intros [[A _]|A]; [lia|]. apply in_map_iff in A. destruct A as [kv [<- A]]. specialize (R kv A). lia.
    - intros A. destruct (in_dec Nat.eq_dec w (map fst shared)) as [I|I]; [right; exact I|left; split; [lia|exact I]]. }
  assert (KE : map fst (sort_items d) = seq 0 n) by (apply sorted_unique; [apply sorted_keys, sort_sorted|apply seq_sorted|exact KP]).
  assert (LI : length (sort_items d) = n) by (rewrite <- (map_length fst), KE, seq_length; reflexivity).
  split; [rewrite map_length; exact LI|]. split; [rewrite <- SP; exact ND|]. intros k Hk.
  assert (I : In (k, nth k (map snd (sort_items d)) 0%nat) d). { apply (Permutation_in _ (Permutation_sym SP)). assert (E : nth k (sort_items d) (0, 0)%nat = (k, nth k (map snd (sort_items d)) 0%nat)). { rewrite (surjective_pairing (nth k (sort_items d) (0, 0)%nat)). f_equal; [|symmetry; exact (map_nth snd (sort_items d) (0, 0)%nat k)]. rewrite <- (map_nth fst), KE. cbn [fst]. rewrite seq_nth by exact Hk. reflexivity. } rewrite <- E. apply nth_In. lia. }
  unfold d in I. apply in_app_iff in I. destruct I as [I|I]; [right; apply number_from_In in I; exact I|left]. split; [exact I|]. apply (R _ I).
Qed.

(** ** Boundary vertices *)
Lemma filter_one {A} (P : A -> bool) d l : forall i, (i < length l)%nat -> P (nth i l d) = true -> (length (filter P l) = 1%nat <-> forall j, (j < length l)%nat -> j <> i -> P (nth j l d) = false).
Proof.
  assert (Z : forall l, length (filter P l) = 0%nat <-> forall j, (j < length l)%nat -> P (nth j l d) = false).
  { clear. induction l as [|a l IH]; cbn; [split; [intros _ j J; lia|reflexivity]|]. destruct (P a) eqn:E; cbn.
    - split; [discriminate|]. intros H. specialize (H 0%nat ltac:(lia)). cbn in H. congruence.
    - rewrite IH. split; intros H j J; [destruct j; [exact E|apply H; lia]|exact (H (S j) ltac:(lia))]. }
  induction l as [|a l IH]; intros i I E; [cbn in I; lia|]. destruct i as [|i]; cbn [nth] in E.
  - cbn [filter]. rewrite E. cbn [length]. split.
    + intros H j J N. destruct j as [|j]; [congruence|]. cbn [nth]. apply Z; [lia|cbn in J; lia].
    + intros H. f_equal. apply Z. intros j J. exact (H (S j) ltac:(cbn; lia) ltac:(lia)).
  - cbn [filter]. cbn [length] in I. destruct (P a) eqn:EA; cbn [length].
    + split.
      * intros H. exfalso. injection H as H. apply Z with (j := i) in H; [congruence|lia].
      * intros H. specialize (H 0%nat ltac:(lia) ltac:(lia)). cbn in H. congruence.
    + rewrite (IH i ltac:(lia) E). split; intros H j J N.
      * destruct j as [|j]; [exact EA|]. cbn [nth]. apply H; lia.
      * exact (H (S j) ltac:(lia) ltac:(lia)).
Qed.
Lemma same_facet_spec f g : same_facet f g = true <-> incl f g /\ incl g f.
Proof. unfold same_facet. rewrite andb_true_iff, !forallb_forall. split; intros [A B]; split; intros v V; [apply mem_spec, A, V|apply mem_spec, B, V|apply mem_spec, A, V|apply mem_spec, B, V]. Qed.
Lemma has_facet n f c : NoDup f -> length f = (n - 1)%nat -> (1 <= n)%nat -> NoDup c -> length c = n -> (existsb (same_facet f) (facets c) = true <-> incl f c).
Proof.
  intros NF LF N1 NC LC. rewrite existsb_exists. unfold facets. split.
  - intros [g [G S]]. apply in_map_iff in G. destruct G as [k [<- K]]. apply same_facet_spec in S. intros v V. apply (remove_at_incl c k), S, V.
  - intros I. assert (X : exists u, In u c /\ ~ In u f). { destruct (Forall_Exists_dec (fun u => In u f) (fun u => in_dec Nat.eq_dec u f) c) as [A|A]; [|apply Exists_exists in A; exact A]. rewrite Forall_forall in A. pose proof (NoDup_incl_length NC A). lia. }
    destruct X as [u [U NU]]. apply (In_nth _ _ 0%nat) in U. destruct U as [k [K E]]. exists (remove_at k c). split; [apply in_map_iff; exists k; split; [reflexivity|apply in_seq; lia]|]. apply same_facet_spec. assert (F : incl f (remove_at k c)). { intros v V. apply (remove_at_keep c 0%nat); [apply I, V|]. intros ->. apply NU. rewrite <- E. exact V. }
    split; [exact F|]. apply NoDup_length_incl; [exact NF|rewrite remove_at_length by lia; lia|exact F].
Qed.
Lemma boundary_facets_in cells f v : In f (boundary_facets cells) -> In v f -> exists c, In c cells /\ In v c.
Proof. unfold boundary_facets. rewrite filter_In, in_flat_map. intros [[c [C F]] _] V. exists c. split; [exact C|]. unfold facets in F. apply in_map_iff in F. destruct F as [k [<- _]]. exact (remove_at_incl _ _ _ V). Qed.
Lemma boundary_facets_spec cells v : simplices cells -> ((exists f, In f (boundary_facets cells) /\ In v f) <-> boundary_vertex cells v).
Proof.
  intros [n [N2 S]]. rewrite Forall_forall in S. unfold boundary_facets, boundary_vertex. split.
  - intros [f [F V]]. apply filter_In in F. destruct F as [F C]. apply in_flat_map in F. destruct F as [c [IC F]]. unfold facets in F. apply in_map_iff in F. destruct F as [k [<- K]]. apply in_seq in K. destruct (S c IC) as [NC LC]. apply (In_nth _ _ []) in IC. destruct IC as [i [I E]]. apply Nat.eqb_eq in C.
    assert (FP : NoDup (remove_at k c) /\ length (remove_at k c) = (n - 1)%nat) by (split; [apply remove_at_nodup, NC|rewrite remove_at_length by lia; lia]). destruct FP as [NF LF].
    rewrite (filter_one _ [] cells i I) in C by (rewrite E; apply (has_facet n); try assumption; [lia|intros u; apply remove_at_incl]).
    exists i, (nth k c 0%nat). rewrite E. split; [exact I|]. split; [apply nth_In; lia|]. split; [intros W; apply (remove_at_gone c 0%nat NC k); [lia|rewrite W; exact V]|]. split; [exact (remove_at_incl _ _ _ V)|]. intros j J D H. specialize (C j J D). destruct (S (nth j cells []) (nth_In _ _ J)) as [NJ LJ].
    apply not_true_iff_false in C. apply C. apply (has_facet n); try assumption; [lia|]. intros u U. apply H; [exact (remove_at_incl _ _ _ U)|]. intros ->. exact (remove_at_gone c 0%nat NC k ltac:(lia) U).
  - intros [i [w [I [W [D [V H]]]]]]. set (c := nth i cells []) in *. destruct (S c (nth_In _ _ I)) as [NC LC]. apply (In_nth _ _ 0%nat) in W. destruct W as [k [K E]]. exists (remove_at k c). split; [|apply (remove_at_keep c 0%nat); [exact V|congruence]]. apply filter_In. split; [apply in_flat_map; exists c; split; [apply nth_In, I|]; unfold facets; apply in_map_iff; exists k; split; [reflexivity|apply in_seq; lia]|]. apply Nat.eqb_eq.
    assert (FP : NoDup (remove_at k c) /\ length (remove_at k c) = (n - 1)%nat) by (split; [apply remove_at_nodup, NC|rewrite remove_at_length by lia; lia]). destruct FP as [NF LF].
    apply (filter_one _ [] cells i I); [apply (has_facet n); try assumption; [lia|intros u; apply remove_at_incl]|]. intros j J DJ. destruct (S (nth j cells []) (nth_In _ _ J)) as [NJ LJ]. apply not_true_iff_false. intros B. apply (has_facet n) in B; try assumption; [|lia]. apply (H j J DJ). intros u U UW. apply B. apply (remove_at_keep c 0%nat); [exact U|congruence].
Qed.
Definition any_order (order : nat -> list nat -> list nat) : Prop := forall c l, Permutation (order c l) l.
Lemma boundary_vertices_range order cells b n : (forall l, Permutation (order l) l) -> Forall (Forall (fun v => v < n)%nat) cells -> boundary_vertices order cells = Ok b -> NoDup b /\ Forall (fun v => v < n)%nat b.
Proof.
  intros O W H. unfold boundary_vertices in H. remember (boundary_facets cells) as fs eqn:FS. destruct fs as [|f0 fs0]; [discriminate H|]. rewrite FS in H. injection H as <-. split; [rewrite O; apply NoDup_nodup|]. rewrite O. apply Forall_forall. intros v V. apply nodup_In, in_concat in V. destruct V as [f [F V]]. destruct (boundary_facets_in cells f v F V) as [c [C VC]]. rewrite Forall_forall in W. specialize (W c C). rewrite Forall_forall in W. exact (W v VC).
Qed.
Lemma boundary_vertices_spec order cells b v : (forall l, Permutation (order l) l) -> simplices cells -> boundary_vertices order cells = Ok b -> (In v b <-> boundary_vertex cells v).
Proof.
  intros O S H. unfold boundary_vertices in H. remember (boundary_facets cells) as fs eqn:FS. destruct fs as [|f0 fs0]; [discriminate H|]. rewrite FS in H. injection H as <-. rewrite O, nodup_In, in_concat. apply boundary_facets_spec, S.
Qed.
Lemma boundary_vertices_ok order cells v : simplices cells -> boundary_vertex cells v -> exists b, boundary_vertices order cells = Ok b.
Proof. intros S B. apply boundary_facets_spec in B; [|exact S]. destruct B as [f [F _]]. unfold boundary_vertices. destruct (boundary_facets cells); [destruct F|eexists; reflexivity]. Qed.

(** ** Two meshes *)
Definition second_leafs (m1 : umesh) (lg : list nat) : list (nat * list nat) :=
  match u_leafs m1 with None => [(u_id m1, lg)] | Some l => map (fun im => (fst im, map (fun v => nth v lg 0%nat) (snd im))) l end.
Definition leafs_in_range (m : umesh) : Prop := forall l, u_leafs m = Some l -> Forall (fun im => Forall (fun v => v < nv m)%nat (snd im)) l.
Lemma NoDup_rev_range (b : list nat) n : NoDup b -> Forall (fun v => v < n)%nat b -> NoDup (rev b) /\ Forall (fun v => v < n)%nat (rev b).
Proof. intros A B. split; [apply NoDup_rev, A|apply Forall_rev, B]. Qed.
Lemma second_leafs_ok m1 lg : length lg = nv m1 -> leafs_in_range m1 -> match u_leafs m1 with None => Ok [(u_id m1, lg)] | Some l => mapM (fun im => do m <- mapM (take lg) (snd im); Ok (fst im, m)) l end = @Ok (list (nat * list nat)) (second_leafs m1 lg).
Proof.
  intros L R. unfold second_leafs. unfold leafs_in_range in R. destruct (u_leafs m1) as [l|]; [|reflexivity]. specialize (R l eq_refl). rewrite <- L in R. induction R as [|im l F R IH]; [reflexivity|]. rewrite mapM_cons, (mapM_take lg 0%nat (snd im) F). cbn [bind]. rewrite IH. reflexivity.
Qed.
Lemma take_ok {A} (l : list A) i y : take l i = Ok y -> (i < length l)%nat.
Proof. unfold take. destruct (nth_error l i) as [z|] eqn:E; [|discriminate]. intros _. apply nth_error_Some. congruence. Qed.
Lemma mapM_take_ok {A} (l : list A) idx ys : mapM (take l) idx = Ok ys -> Forall (fun i => i < length l)%nat idx.
Proof. revert ys. induction idx as [|i idx IH]; intros ys H; [constructor|]. rewrite mapM_cons in H. destruct (take l i) as [y|e] eqn:T; [|discriminate H]. cbn [bind] in H. destruct (mapM (take l) idx) as [zs|e] eqn:M; [|discriminate H]. constructor; [exact (take_ok _ _ _ T)|exact (IH zs eq_refl)]. Qed.
Lemma second_leafs_range m1 lg ls : length lg = nv m1 -> match u_leafs m1 with None => Ok [(u_id m1, lg)] | Some l => mapM (fun im => do m <- mapM (take lg) (snd im); Ok (fst im, m)) l end = @Ok (list (nat * list nat)) ls -> leafs_in_range m1.
Proof.
  intros L H l E. rewrite E in H. revert ls H. clear E. induction l as [|im l IH]; intros ls H; [constructor|]. rewrite mapM_cons in H. destruct (mapM (take lg) (snd im)) as [m|e] eqn:M; [|discriminate H]. cbn [bind] in H. destruct (mapM (fun im => do m <- mapM (take lg) (snd im); Ok (fst im, m)) l) as [ms|e]; [|discriminate H]. constructor; [rewrite <- L; exact (mapM_take_ok _ _ _ M)|exact (IH ms eq_refl)].
Qed.
(** What the second half of the function does with the matched vertices *)
Section Merge.
  Variables (order : nat -> list nat -> list nat) (tol : R) (m0 m1 : umesh) (shared : list (nat * nat)).
  Hypotheses (O : any_order order) (W1 : wf_mesh m1) (K : NoDup (map fst shared)) (V : NoDup (map snd shared)) (R : forall kv, In kv shared -> (fst kv < nv m1)%nat /\ (snd kv < nv m0)%nat).
  Definition unshared_of := order 2%nat (filter (fun v => negb (mem v (map fst shared))) (seq 0 (length (u_x m1)))).
  Definition lg_of := map snd (sort_items (dict_update (number_from (length (u_x m0)) unshared_of) shared)).
  Definition merged (new_id : nat) : umesh := {| u_id := new_id; u_tdim := u_tdim m0; u_gdim := u_gdim m0; u_x := u_x m0 ++ map (fun i => nth i (u_x m1) []) unshared_of; u_cells := u_cells m0 ++ moved lg_of (u_cells m1); u_leafs := Some (leafs_of m0 ++ second_leafs m1 lg_of) |}.
  Lemma merge_numbering : length lg_of = nv m1 /\ NoDup lg_of /\ forall k, (k < nv m1)%nat -> (In (k, nth k lg_of 0%nat) shared /\ (nth k lg_of 0 < nv m0)%nat) \/ ((nv m0 <= nth k lg_of 0 < nv m0 + length unshared_of)%nat /\ nth (nth k lg_of 0%nat - nv m0) unshared_of 0%nat = k).
  Proof. apply numbering; [exact K|exact V|exact R|apply O]. Qed.
  Lemma unshared_range : Forall (fun i => i < nv m1)%nat unshared_of.
  Proof. unfold unshared_of. rewrite (O 2%nat). apply Forall_forall. intros v I. apply filter_In in I. destruct I as [I _]. apply in_seq in I. unfold nv. lia. Qed.
  Lemma merge_points new_id k : (k < nv m1)%nat -> (nth k lg_of 0 < nv (merged new_id))%nat /\ ((nv m0 <= nth k lg_of 0)%nat -> pt (merged new_id) (nth k lg_of 0%nat) = pt m1 k) /\ ((nth k lg_of 0 < nv m0)%nat -> In (k, nth k lg_of 0%nat) shared /\ pt (merged new_id) (nth k lg_of 0%nat) = pt m0 (nth k lg_of 0%nat)).
  Proof.
    intros H. unfold pt, nv, merged. cbn [u_x]. rewrite app_length, map_length. fold (nv m0). destruct merge_numbering as [_ [_ M]]. destruct (M k H) as [[I L]|[L E]].
    - split; [lia|]. split; [lia|]. intros _. split; [exact I|]. apply app_nth1. exact L.
    - split; [lia|]. split; [|lia]. intros _. rewrite app_nth2 by (unfold nv in L; lia). fold (nv m0). rewrite (nth_indep _ [] ((fun i => nth i (u_x m1) []) 0%nat)) by (rewrite map_length; lia). rewrite (map_nth (fun i => nth i (u_x m1) [])). rewrite E. reflexivity.
  Qed.
  Lemma merge_cover new_id v : (v < nv (merged new_id))%nat -> (v < nv m0)%nat \/ exists k, (k < nv m1)%nat /\ nth k lg_of 0%nat = v.
  Proof.
    unfold nv at 1, merged. cbn [u_x]. rewrite app_length, map_length. fold (nv m0). intros H. destruct (Nat.lt_ge_cases v (nv m0)) as [L|L]; [left; exact L|right]. set (k := nth (v - nv m0) unshared_of 0%nat). assert (KR : (k < nv m1)%nat) by (pose proof unshared_range as U; rewrite Forall_forall in U; apply U, nth_In; lia). exists k. split; [exact KR|].
    destruct merge_numbering as [_ [_ M]]. destruct (M k KR) as [[I _]|[B E]].
    - exfalso. assert (IU : In k unshared_of) by (apply nth_In; lia). unfold unshared_of in IU. rewrite (O 2%nat) in IU. apply filter_In in IU. destruct IU as [_ IU]. apply negb_true_iff, not_true_iff_false in IU. apply IU, mem_spec. apply in_map_iff. exists (k, nth k lg_of 0%nat). split; [reflexivity|exact I].
    - assert (UN : NoDup unshared_of) by (unfold unshared_of; rewrite (O 2%nat); apply NoDup_filter, seq_NoDup). assert (Q : (nth k lg_of 0 - nv m0)%nat = (v - nv m0)%nat) by (apply (proj1 (NoDup_nth unshared_of 0%nat) UN); [lia|lia|exact E]). lia.
  Qed.
End Merge.
Lemma union2_inv order tol new_id m0 m1 r m0' : any_order order -> wf_mesh m0 -> wf_mesh m1 -> union2 order tol new_id m0 m1 = Ok (r, m0') ->
  u_gdim m0 = u_gdim m1 /\ u_tdim m0 = u_tdim m1 /\ exists b0 b1 shared, boundary_vertices (order 0%nat) (u_cells m0) = Ok b0 /\ boundary_vertices (order 1%nat) (u_cells m1) = Ok b1 /\
  match_vertices tol (u_x m0) (rev b0) (map (fun k => nth k (u_x m1) []) b1) b1 [] = Ok shared /\ state (u_x m0) (rev b0) b1 [] /\ Forall (fun v => v < nv m1)%nat b1 /\
  NoDup (map fst shared) /\ NoDup (map snd shared) /\ (forall kv, In kv shared -> (fst kv < nv m1)%nat /\ (snd kv < nv m0)%nat) /\
  r = merged order m0 m1 shared new_id /\ leafs_in_range m1.
Proof.
  intros O [W0 G0] [W1 G1] H. unfold union2 in H. destruct (Nat.eqb_spec (u_gdim m0) (u_gdim m1)) as [EG|]; [|discriminate H]. destruct (Nat.eqb_spec (u_tdim m0) (u_tdim m1)) as [ET|]; [|discriminate H]. cbn [negb] in H. split; [exact EG|]. split; [exact ET|].
  destruct (boundary_vertices (order 0%nat) (u_cells m0)) as [b0|e] eqn:B0; [|discriminate H]. destruct (boundary_vertices (order 1%nat) (u_cells m1)) as [b1|e] eqn:B1; [|discriminate H]. cbn [bind] in H. destruct (boundary_vertices_range _ _ _ _ (O 0%nat) W0 B0) as [N0 R0]. destruct (boundary_vertices_range _ _ _ _ (O 1%nat) W1 B1) as [N1 R1]. rewrite (mapM_take (u_x m1) [] b1 R1) in H. cbn [bind] in H.
  destruct (match_vertices tol (u_x m0) (rev b0) (map (fun k => nth k (u_x m1) []) b1) b1 []) as [shared|e] eqn:M; [|discriminate H]. cbn [bind] in H. destruct (NoDup_rev_range _ _ N0 R0) as [N0' R0'].
  assert (S : state (u_x m0) (rev b0) b1 []). { split; [exact N0'|]. split; [exact N1|]. split; [exact R0'|]. split; [constructor|]. split; [constructor|intros kv []]. }
  destruct (match_sound tol (u_x m0) (u_x m1) _ _ _ _ S M) as [K [V [_ P]]].
  assert (R : forall kv, In kv shared -> (fst kv < nv m1)%nat /\ (snd kv < nv m0)%nat). { intros kv I. destruct (P kv I) as [[]|[I1 [I2 _]]]. rewrite Forall_forall in R1, R0'. split; [exact (R1 _ I1)|exact (R0' _ I2)]. }
  exists b0, b1, shared. split; [reflexivity|]. split; [reflexivity|]. split; [exact M|]. split; [exact S|]. split; [exact R1|]. split; [exact K|]. split; [exact V|]. split; [exact R|].
  fold (unshared_of order m1 shared) in H. rewrite (mapM_take (u_x m1) [] _ (unshared_range order m1 shared O)) in H. cbn [bind] in H.
  destruct (merge_numbering order m0 m1 shared O K V R) as [LG _].
  remember (sort_items (dict_update (number_from (length (u_x m0)) (unshared_of order m1 shared)) shared)) as items eqn:EI. assert (EL : map snd items = lg_of order m0 m1 shared) by (rewrite EI; reflexivity). destruct items as [|it0 its]; [discriminate H|]. rewrite EL in H.
  assert (WC : Forall (Forall (fun v => v < length (lg_of order m0 m1 shared))%nat) (u_cells m1)) by (rewrite LG; exact W1). rewrite (mapM_takes (lg_of order m0 m1 shared) 0%nat (u_cells m1) WC) in H. cbn [bind] in H.
  match type of H with (do second <- ?X; _) = _ => destruct X as [second|e] eqn:SL; [|discriminate H] end. pose proof (second_leafs_range _ _ _ LG SL) as LR. rewrite (second_leafs_ok _ _ LG LR) in SL. injection SL as <-. cbn [bind] in H. injection H as <- _. split; [reflexivity|exact LR].
Qed.
Lemma union2_spec order tol new_id m0 m1 r m0' : 0 < tol -> any_order order -> wf_mesh m0 -> wf_mesh m1 -> union2 order tol new_id m0 m1 = Ok (r, m0') ->
  exists lg, sits tol r m1 lg /\ u_cells r = u_cells m0 ++ moved lg (u_cells m1) /\ (exists more, u_x r = u_x m0 ++ more) /\
  (forall k, (k < nv m1)%nat -> (nv m0 <= nth k lg 0)%nat -> pt r (nth k lg 0%nat) = pt m1 k) /\ (forall v, (v < nv r)%nat -> (v < nv m0)%nat \/ In v lg) /\
  u_leafs r = Some (leafs_of m0 ++ second_leafs m1 lg) /\ wf_mesh r /\ u_gdim r = u_gdim m0 /\ u_tdim r = u_tdim m0 /\ u_gdim m0 = u_gdim m1 /\ u_tdim m0 = u_tdim m1.
Proof.
  intros T O W0 W1 H. destruct (union2_inv order tol new_id m0 m1 r m0' O W0 W1 H) as [EG [ET [b0 [b1 [shared [B0 [B1 [M [S [R1 [K [V [R [-> LR]]]]]]]]]]]]]]. destruct (match_sound tol (u_x m0) (u_x m1) _ _ _ _ S M) as [_ [_ [_ P]]]. set (lg := lg_of order m0 m1 shared). destruct (merge_numbering order m0 m1 shared O K V R) as [LG [NG MG]]. pose proof (merge_points order m0 m1 shared O K V R new_id) as MP. exists lg.
  split; [|split; [reflexivity|split; [eexists; reflexivity|split; [|split; [|split; [reflexivity|split; [|auto]]]]]]].
  - split; [exact LG|]. split; [|exact NG]. intros k Hk. destruct (MP k Hk) as [A [B C]]. split; [exact A|]. fold lg in A, B, C. destruct (Nat.lt_ge_cases (nth k lg 0%nat) (nv m0)) as [L|L].
    + destruct (C L) as [I ->]. destruct (P _ I) as [[]|[_ [I2 D]]]. cbn [fst snd] in D, I2. unfold pt. assert (Q : length (nth k (u_x m1) []) = length (nth (nth k lg 0%nat) (u_x m0) [])). { destruct W0 as [_ G0]. destruct W1 as [_ G1]. rewrite Forall_forall in G0, G1. rewrite (G0 (nth (nth k lg 0%nat) (u_x m0) [])) by (apply nth_In, L). rewrite (G1 (nth k (u_x m1) [])) by (apply nth_In, Hk). congruence. } rewrite dist_sym by congruence. exact D.
    + rewrite (B L), dist_refl. exact T.
  - intros k Hk L. destruct (MP k Hk) as [_ [B _]]. exact (B L).
  - intros v Hv. destruct (merge_cover order m0 m1 shared O K V R new_id v Hv) as [L|[k [Hk E]]]; [left; exact L|right]. rewrite <- E. apply nth_In. unfold lg; rewrite LG; exact Hk.
  - split.
    + unfold merged. cbn [u_cells u_x]. destruct W0 as [C0 _]. destruct W1 as [C1 _]. apply Forall_app. split.
      * eapply Forall_impl; [|exact C0]. intros c F. eapply Forall_impl; [|exact F]. intros v L. unfold nv in *. cbn [u_x]. rewrite app_length. lia.
      * unfold moved. apply Forall_map. eapply Forall_impl; [|exact C1]. intros c F. apply Forall_map. eapply Forall_impl; [|exact F]. intros v L. destruct (MP v L) as [A _]. exact A.
    + unfold merged. cbn [u_gdim u_x]. destruct W0 as [_ G0]. destruct W1 as [_ G1]. apply Forall_app. split; [exact G0|]. apply Forall_map. pose proof (unshared_range order m1 shared O) as U. eapply Forall_impl; [|exact U]. intros i L. rewrite Forall_forall in G1. rewrite (G1 (nth i (u_x m1) [])) by (apply nth_In, L). congruence.
Qed.
Lemma dict_unique {A B} (l : list (A * B)) k a b : NoDup (map fst l) -> In (k, a) l -> In (k, b) l -> a = b.
Proof. induction l as [|kv l IH]; intros N I J; [destruct I|]. cbn [map] in N. inversion N as [|x y NI N']; subst. destruct I as [I|I]; destruct J as [J|J]; [congruence| | |exact (IH N' I J)]; subst kv; exfalso; apply NI; cbn [fst]; [change k with (fst (k, b))|change k with (fst (k, a))]; apply in_map; assumption. Qed.
(** Vertices are identified on the boundaries only, and there if they are near *)
Definition two_apart (tol : R) (m : umesh) : Prop := forall i j, (i < nv m)%nat -> (j < nv m)%nat -> i <> j -> 2 * tol <= dist (pt m i) (pt m j).
Lemma union2_glued order tol new_id m0 m1 r m0' : any_order order -> wf_mesh m0 -> wf_mesh m1 -> simplices (u_cells m0) -> simplices (u_cells m1) -> two_apart tol m0 -> two_apart tol m1 -> u_leafs m1 = None -> union2 order tol new_id m0 m1 = Ok (r, m0') ->
  exists lg, u_leafs r = Some (leafs_of m0 ++ [(u_id m1, lg)]) /\ forall i k, (i < nv m0)%nat -> (k < nv m1)%nat -> (nth k lg 0%nat = i <-> boundary_vertex (u_cells m0) i /\ boundary_vertex (u_cells m1) k /\ dist (pt m0 i) (pt m1 k) < tol).
Proof.
  intros O W0 W1 S0 S1 A0 A1 NL H. destruct (union2_inv order tol new_id m0 m1 r m0' O W0 W1 H) as [EG [ET [b0 [b1 [shared [B0 [B1 [M [S [R1 [K [V [R [-> LR]]]]]]]]]]]]]]. destruct (match_sound tol (u_x m0) (u_x m1) _ _ _ _ S M) as [_ [_ [_ P]]]. set (lg := lg_of order m0 m1 shared). destruct (merge_numbering order m0 m1 shared O K V R) as [LG [NG MG]]. fold lg in LG, NG, MG. exists lg. split; [unfold merged, second_leafs; cbn [u_leafs]; rewrite NL; reflexivity|]. intros i k I Hk.
  assert (DS : dist (pt m0 i) (pt m1 k) = dist (nth k (u_x m1) []) (nth i (u_x m0) [])). { unfold pt. apply dist_sym. destruct W0 as [_ G0]. destruct W1 as [_ G1]. rewrite Forall_forall in G0, G1. rewrite (G0 (nth i (u_x m0) [])) by (apply nth_In, I). rewrite (G1 (nth k (u_x m1) [])) by (apply nth_In, Hk). congruence. }
  rewrite DS, <- (boundary_vertices_spec _ _ b0 i (O 0%nat) S0 B0), <- (boundary_vertices_spec _ _ b1 k (O 1%nat) S1 B1). split.
  - intros E. destruct (MG k Hk) as [[J _]|[L _]]; [|rewrite E in L; unfold nv in *; lia]. rewrite E in J. destruct (P _ J) as [[]|[J1 [J2 J3]]]. cbn [fst snd] in *. split; [apply in_rev, J2|]. split; [exact J1|exact J3].
  - intros [Bi [Bk D]]. assert (RG : forall j, In j (rev b0) -> (j < nv m0)%nat). { destruct S as [_ [_ [R0 _]]]. rewrite Forall_forall in R0. exact R0. } assert (RH : forall j, In j b1 -> (j < nv m1)%nat) by (rewrite Forall_forall in R1; exact R1).
    assert (J : In (k, i) shared). { destruct W0 as [_ G0]. destruct W1 as [_ G1]. rewrite <- EG in G1. apply (match_complete tol (u_x m0) (u_x m1) (u_gdim m0) (rev b0) G0 G1 b1 [] shared S R1); [intros a b A B N; apply A0; auto|intros a b A B N; apply A1; auto|exact M|apply in_rev in Bi; exact Bi|exact Bk|exact D]. }
    destruct (MG k Hk) as [[J' _]|[L E]].
    + assert (Q : (k, i) = (k, nth k lg 0%nat)). { f_equal. exact (dict_unique shared k _ _ K J J'). } congruence.
    + exfalso. assert (IU : In k (unshared_of order m1 shared)). { rewrite <- E. apply nth_In. unfold nv in *. lia. } unfold unshared_of in IU. rewrite (O 2%nat) in IU. apply filter_In in IU. destruct IU as [_ IU]. apply negb_true_iff, not_true_iff_false in IU. apply IU, mem_spec, in_map_iff. exists (k, i). split; [reflexivity|exact J].
Qed.
Lemma union2_returns order tol new_id m0 m1 i0 k : any_order order -> wf_mesh m0 -> wf_mesh m1 -> u_gdim m0 = u_gdim m1 -> u_tdim m0 = u_tdim m1 -> simplices (u_cells m0) -> simplices (u_cells m1) -> leafs_in_range m1 -> boundary_vertex (u_cells m0) i0 -> boundary_vertex (u_cells m1) k -> (k < nv m1)%nat ->
  (forall i, (i < nv m0)%nat -> boundary_vertex (u_cells m0) i -> tol <= dist (pt m1 k) (pt m0 i)) -> exists r m0', union2 order tol new_id m0 m1 = Ok (r, m0').
Proof.
  intros O W0 W1 EG ET S0 S1 LR BI BK HK F. destruct W0 as [W0 G0]. destruct W1 as [W1 G1]. unfold union2. rewrite EG, ET, !Nat.eqb_refl. cbn [negb]. destruct (boundary_vertices_ok (order 0%nat) _ i0 S0 BI) as [b0 B0]. destruct (boundary_vertices_ok (order 1%nat) _ k S1 BK) as [b1 B1]. rewrite B0, B1. cbn [bind]. destruct (boundary_vertices_range _ _ _ _ (O 0%nat) W0 B0) as [N0 R0]. destruct (boundary_vertices_range _ _ _ _ (O 1%nat) W1 B1) as [N1 R1]. rewrite (mapM_take (u_x m1) [] b1 R1). cbn [bind]. destruct (NoDup_rev_range _ _ N0 R0) as [N0' R0'].
  destruct (match_returns tol (u_x m0) (u_x m1) (rev b0) k b1 [] R0' N1) as [shared M].
  - apply (boundary_vertices_spec _ _ b1 k (O 1%nat) S1 B1), BK.
  - intros i I. apply in_rev in I. rewrite Forall_forall in R0. specialize (F i (R0 i I)). apply (boundary_vertices_spec _ _ b0 i (O 0%nat) S0 B0) in I. specialize (F I). unfold pt in F. lra.
  - rewrite M. cbn [bind]. assert (S : state (u_x m0) (rev b0) b1 []). { split; [exact N0'|]. split; [exact N1|]. split; [exact R0'|]. split; [constructor|]. split; [constructor|intros kv []]. }
    destruct (match_sound tol (u_x m0) (u_x m1) _ _ _ _ S M) as [K [V [_ P]]].
    assert (R : forall kv, In kv shared -> (fst kv < nv m1)%nat /\ (snd kv < nv m0)%nat). { intros kv I. destruct (P kv I) as [[]|[I1 [I2 _]]]. rewrite Forall_forall in R1, R0'. split; [exact (R1 _ I1)|exact (R0' _ I2)]. }
    fold (unshared_of order m1 shared). rewrite (mapM_take (u_x m1) [] _ (unshared_range order m1 shared O)). cbn [bind]. destruct (merge_numbering order m0 m1 shared O K V R) as [LG _].
    remember (sort_items (dict_update (number_from (length (u_x m0)) (unshared_of order m1 shared)) shared)) as items eqn:EI. assert (EL : map snd items = lg_of order m0 m1 shared) by (rewrite EI; reflexivity). destruct items as [|it0 its]; [exfalso; rewrite <- EL in LG; cbn in LG; unfold nv in *; lia|]. rewrite EL.
    assert (WC : Forall (Forall (fun v => v < length (lg_of order m0 m1 shared))%nat) (u_cells m1)) by (rewrite LG; exact W1). rewrite (mapM_takes (lg_of order m0 m1 shared) 0%nat (u_cells m1) WC). cbn [bind]. rewrite (second_leafs_ok _ _ LG LR). cbn [bind]. eexists. eexists. reflexivity.
Qed.
