(** Specification vocabulary and proofs for RefineModel.v. *)
From Verif Require Import RefineModel GeomProofs BaseProofs.
From Coq Require Import Psatz Permutation.
Local Open Scope R_scope.

(** ** Specification *)
(** A mesh of simplices: cells with [S tdim] vertices that exist, points with [gdim]
    coordinates *)
Definition mesh_ok (tdim gdim : nat) (m : mesh) : Prop :=
  m_tdim m = tdim /\ m_gdim m = gdim /\ m_nvtx m = S tdim /\ Forall (fun p => length p = gdim) (m_x m) /\
  Forall (fun c => length c = S tdim /\ Forall (fun v => (v < length (m_x m))%nat) c) (m_cells m).
(** MeshEditor reorders the vertices of a cell *)
Definition reorders (order : list nat -> list nat) : Prop := forall c, Permutation c (order c).
Definition corners (m : mesh) (c : nat) : list (list R) := map (fun v => nth v (m_x m) []) (nth c (m_cells m) []).
Definition one_per_cell (tdim gdim : nat) (new_pts : mesh -> list (list R)) : Prop :=
  forall m, mesh_ok tdim gdim m -> length (new_pts m) = length (m_cells m) /\ Forall (fun x => length x = gdim) (new_pts m).
Definition inside_cells (tdim gdim : nat) (new_pts : mesh -> list (list R)) : Prop :=
  forall m c, mesh_ok tdim gdim m -> (c < length (m_cells m))%nat -> in_simplex gdim (corners m c) (nth c (new_pts m) []).
(** [fine] with its maps is a refinement of [m] in which each cell has [n] descendants:
    cell i comes from cell i / n, the first vertices are those of [m] *)
Definition tracks (n : nat) (m : mesh) (fine : mesh) (mp : maps) : Prop :=
  length (m_cells fine) = (length (m_cells m) * n)%nat /\
  cmap mp = map (fun i => (i, i / n))%nat (seq 0 (length (m_cells fine))) /\
  vmap mp = map (fun v => (v, v)) (seq 0 (length (m_x m))) /\
  firstn (length (m_x m)) (m_x fine) = m_x m.
Definition contained (n gdim : nat) (m fine : mesh) : Prop :=
  forall i x, (i < length (m_cells fine))%nat -> in_simplex gdim (corners fine i) x -> in_simplex gdim (corners m (i / n)) x.

(** ** Convexity *)
Definition vaxpy (a : R) (w z : list R) : list R := map (fun p => a * fst p + snd p) (combine w z).
Fixpoint mixed (n : nat) (l : list R) (Ws : list (list R)) : list R := match l, Ws with a :: l', w :: Ws' => vaxpy a w (mixed n l' Ws') | _, _ => repeat 0 n end.
Lemma mixed_length n l Ws : Forall (fun w => length w = n) Ws -> length (mixed n l Ws) = n.
Proof.
  revert Ws. induction l as [|a l IH]; intros [|w Ws] F; cbn; try apply repeat_length. apply Forall_cons_iff in F. destruct F as [F1 F]. unfold vaxpy. rewrite map_length, combine_length, IH, F1 by exact F. lia.
Qed.
Lemma total_vaxpy a w z : length w = length z -> total (vaxpy a w z) = a * total w + total z.
Proof. revert z. induction w as [|b w IH]; intros [|c z] L; try discriminate L; cbn; [ring|]. injection L as L. unfold vaxpy in IH. rewrite IH by exact L. ring. Qed.
Lemma total_repeat0 n : total (repeat 0 n) = 0.
Proof. induction n; cbn; [reflexivity|]. rewrite IHn. ring. Qed.
Lemma weighted_vaxpy a w z ps i : length w = length z -> weighted (vaxpy a w z) ps i = a * weighted w ps i + weighted z ps i.
Proof. revert z ps. induction w as [|b w IH]; intros [|c z] ps L; try discriminate L; [cbn; ring|]. injection L as L. destruct ps as [|p ps]; cbn; [ring|]. unfold vaxpy in IH. rewrite IH by exact L. ring. Qed.
Lemma weighted_repeat0 n ps i : weighted (repeat 0 n) ps i = 0.
Proof. revert ps. induction n; intros [|p ps]; cbn; try reflexivity. rewrite IHn. ring. Qed.
Lemma vaxpy_nonneg a w z : 0 <= a -> Forall (fun b => 0 <= b) w -> Forall (fun b => 0 <= b) z -> Forall (fun b => 0 <= b) (vaxpy a w z).
Proof.
  intros A. revert z. induction w as [|b w IH]; intros [|c z] W Z; cbn; try constructor; apply Forall_cons_iff in W, Z; destruct W as [W1 W], Z as [Z1 Z]; [|apply IH; assumption]. cbn. nra.
Qed.
Lemma in_simplex_trans gdim cell qs x : Forall (in_simplex gdim cell) qs -> in_simplex gdim qs x -> in_simplex gdim cell x.
Proof.
  intros F [LX [l [LL [TL [PL HL]]]]].
  assert (E : exists Ws, Forall2 (fun q w => length w = length cell /\ total w = 1 /\ Forall (fun a => 0 <= a) w /\ forall i, (i < gdim)%nat -> nth i q 0 = weighted w cell i) qs Ws).
  { clear - F. induction F as [|q qs [_ [w H]] _ [Ws IH]]; [exists []; constructor|]. exists (w :: Ws). constructor; assumption. }
  destruct E as [Ws E]. split; [exact LX|]. exists (mixed (length cell) l Ws).
  assert (FL : Forall (fun w => length w = length cell) Ws) by (clear - E; induction E as [|q w qs Ws H _ IH]; constructor; tauto).
  split; [apply mixed_length, FL|]. split; [|split].
  - rewrite <- TL. clear - E LL FL. revert l LL. induction E as [|q w qs Ws H E IH]; intros [|a l] LL; try discriminate LL; cbn; [apply total_repeat0|]. apply Forall_cons_iff in FL. destruct FL as [F1 FL]. rewrite total_vaxpy by (rewrite mixed_length; assumption). rewrite IH; [|assumption|cbn in LL; lia]. destruct H as [_ [-> _]]. ring.
  - clear - E PL. revert l PL. induction E as [|q w qs Ws H E IH]; intros [|a l] PL; cbn; try (apply Forall_forall; intros b B; apply repeat_spec in B; lra). apply Forall_cons_iff in PL. destruct PL as [P1 PL]. apply vaxpy_nonneg; [exact P1|tauto|apply IH, PL].
  - intros i Hi. rewrite (HL i Hi). clear - E LL FL Hi. revert l LL. induction E as [|q w qs Ws H E IH]; intros [|a l] LL; try discriminate LL; cbn; [symmetry; apply weighted_repeat0|]. apply Forall_cons_iff in FL. destruct FL as [F1 FL]. rewrite weighted_vaxpy by (rewrite mixed_length; assumption). rewrite IH; [|assumption|cbn in LL; lia]. destruct H as [_ [_ [_ H]]]. rewrite (H i Hi). reflexivity.
Qed.
Definition unit_weight (n k : nat) : list R := map (fun i => if (i =? k)%nat then 1 else 0) (seq 0 n).
Lemma unit_total n k s : (s <= k < s + n)%nat -> total (map (fun i => if (i =? k)%nat then 1 else 0) (seq s n)) = 1.
Proof.
  revert s. induction n as [|n IH]; intros s H; [lia|]. cbn. destruct (Nat.eqb_spec s k) as [-> |N].
  - assert (Z : forall t, (k < t)%nat -> total (map (fun i => if (i =? k)%nat then 1 else 0) (seq t n)) = 0). { clear. induction n as [|n IH]; intros t T; cbn; [reflexivity|]. destruct (Nat.eqb_spec t k); [lia|]. rewrite IH by lia. ring. } rewrite Z by lia. ring.
  - rewrite IH by lia. ring.
Qed.
Lemma unit_weighted ps k s i : (s <= k < s + length ps)%nat -> weighted (map (fun j => if (j =? k)%nat then 1 else 0) (seq s (length ps))) ps i = nth i (nth (k - s) ps []) 0.
Proof.
  revert s. induction ps as [|p ps IH]; intros s H; [cbn in H; lia|]. cbn [length seq map weighted]. destruct (Nat.eqb_spec s k) as [-> |N].
  - rewrite Nat.sub_diag. cbn [nth]. assert (Z : forall t qs, (k < t)%nat -> weighted (map (fun j => if (j =? k)%nat then 1 else 0) (seq t (length qs))) qs i = 0). { clear. intros t qs. revert t. induction qs as [|q qs IH]; intros t T; cbn; [reflexivity|]. destruct (Nat.eqb_spec t k); [lia|]. rewrite IH by lia. ring. } rewrite Z by lia. ring.
  - cbn [length] in H. rewrite IH by lia. replace (k - s)%nat with (S (k - S s)) by lia. cbn. ring.
Qed.
Lemma corner_in gdim cell p : Forall (fun p => length p = gdim) cell -> In p cell -> in_simplex gdim cell p.
Proof.
  intros F I. rewrite Forall_forall in F. split; [apply F, I|]. apply (In_nth _ _ []) in I. destruct I as [k [K E]]. exists (unit_weight (length cell) k). unfold unit_weight. split; [rewrite map_length, seq_length; reflexivity|]. split; [apply unit_total; lia|]. split.
  - apply Forall_forall. intros a A. apply in_map_iff in A. destruct A as [j [<- _]]. destruct (j =? k)%nat; lra.
  - intros i Hi. rewrite unit_weighted by lia. rewrite Nat.sub_0_r, E. reflexivity.
Qed.
Lemma in_simplex_perm gdim cell cell' x : Permutation cell cell' -> in_simplex gdim cell x -> in_simplex gdim cell' x.
Proof.
  intros P. revert x. assert (G : forall (w : list R), length w = length cell -> exists w', length w' = length cell' /\ total w' = total w /\ (Forall (fun a => 0 <= a) w -> Forall (fun a => 0 <= a) w') /\ forall i, weighted w' cell' i = weighted w cell i).
  { induction P as [|p l l' P IH|p q l|l l' l'' P1 IH1 P2 IH2]; intros w L.
    - exists w. auto.
    - destruct w as [|a w]; [discriminate L|]. injection L as L. destruct (IH w L) as [w' [A [B [C D]]]]. exists (a :: w'). cbn. split; [congruence|]. split; [congruence|]. split; [|intros i; rewrite D; reflexivity]. intros F. apply Forall_cons_iff in F. constructor; tauto.
    - destruct w as [|a [|b w]]; try discriminate L. injection L as L. exists (b :: a :: w). cbn. split; [congruence|]. split; [ring|]. split; [|intros i; ring]. intros F. apply Forall_cons_iff in F. destruct F as [F1 F]. apply Forall_cons_iff in F. destruct F as [F2 F]. repeat (constructor; try assumption).
    - destruct (IH1 w L) as [w1 [A1 [B1 [C1 D1]]]]. destruct (IH2 w1 A1) as [w2 [A2 [B2 [C2 D2]]]]. exists w2. split; [exact A2|]. split; [congruence|]. split; [auto|]. intros i. rewrite D2. apply D1. }
  intros x [LX [w [LW [TW [PW HW]]]]]. split; [exact LX|]. destruct (G w LW) as [w' [A [B [C D]]]]. exists w'. split; [exact A|]. split; [congruence|]. split; [auto|]. intros i Hi. rewrite D. apply HW, Hi.
Qed.

(** ** Lists in blocks of equal size *)
Lemma length_blocks {A} (f : nat -> list A) n s N : (forall k, (s <= k < s + N)%nat -> length (f k) = n) -> length (flat_map f (seq s N)) = (N * n)%nat.
Proof. revert s. induction N as [|N IH]; intros s H; cbn; [reflexivity|]. rewrite app_length, IH, (H s) by (intros; try apply H; lia). reflexivity. Qed.
Lemma nth_blocks {A} (f : nat -> list A) n N i d : (n <> 0)%nat -> (forall k, (k < N)%nat -> length (f k) = n) -> (i < N * n)%nat -> nth i (flat_map f (seq 0 N)) d = nth (i mod n) (f (i / n)%nat) d.
Proof.
  intros NZ H L. assert (G : forall M s i, (forall k, (s <= k < s + M)%nat -> length (f k) = n) -> (i < M * n)%nat -> nth i (flat_map f (seq s M)) d = nth (i mod n) (f (s + i / n)%nat) d).
  { clear N i H L. induction M as [|M IH]; intros s i H L; [cbn in L; lia|]. cbn [seq flat_map]. destruct (le_lt_dec n i) as [G|G].
    - rewrite app_nth2 by (rewrite (H s); lia). rewrite (H s) by lia. rewrite (IH (S s) (i - n)%nat); [|intros k K; apply H; lia|cbn in L; lia].
      assert (E : i = (i - n + 1 * n)%nat) by lia. rewrite E at 3 4. rewrite Nat.mod_add, Nat.div_add by exact NZ. f_equal. f_equal. lia.
    - rewrite app_nth1 by (rewrite (H s); lia). rewrite Nat.mod_small, Nat.div_small, Nat.add_0_r by exact G. reflexivity. }
  rewrite (G N 0%nat i); [reflexivity|intros k K; apply H; lia|exact L].
Qed.
Lemma list_ext {A} (l l' : list A) d : length l = length l' -> (forall i, (i < length l)%nat -> nth i l d = nth i l' d) -> l = l'.
Proof. intros L H. apply (nth_ext _ _ d d L H). Qed.
Lemma nth_map {A B} (f : A -> B) (l : list A) (i : nat) a b : (i < length l)%nat -> nth i (map f l) b = f (nth i l a).
Proof. intros H. rewrite (nth_indep _ b (f a)) by (rewrite map_length; exact H). apply map_nth. Qed.
Lemma nth_repeat_lt {A} (a d : A) n i : (i < n)%nat -> nth i (repeat a n) d = a.
Proof. revert i. induction n; intros [|i] H; cbn; try lia; [reflexivity|]. apply IHn. lia. Qed.
Lemma blocks_div n N : n <> 0%nat -> flat_map (fun k => repeat k n) (seq 0 N) = map (fun i => i / n)%nat (seq 0 (N * n)).
Proof.
  intros NZ. assert (L : length (flat_map (fun k => repeat k n) (seq 0 N)) = (N * n)%nat) by (apply length_blocks; intros; apply repeat_length).
  apply (list_ext _ _ 0%nat); [rewrite L, map_length, seq_length; reflexivity|]. intros i H. rewrite L in H. rewrite (nth_blocks (fun k => repeat k n) n N i 0%nat NZ (fun _ _ => repeat_length _ _) H). rewrite nth_repeat_lt by (apply Nat.mod_upper_bound, NZ).
  rewrite (nth_map _ _ _ 0%nat) by (rewrite seq_length; exact H). rewrite seq_nth by exact H. reflexivity.
Qed.
Lemma enumerate_map (f : nat -> nat) n : enumerate (map f (seq 0 n)) = map (fun i => (i, f i)) (seq 0 n).
Proof. unfold enumerate. rewrite map_length, seq_length. generalize 0%nat. induction n; intros s; cbn; [reflexivity|]. rewrite IHn. reflexivity. Qed.
Lemma enumerate_seq n : enumerate (seq 0 n) = map (fun i => (i, i)) (seq 0 n).
Proof. rewrite <- (map_id (seq 0 n)) at 1. apply (enumerate_map (fun i => i)). Qed.
Lemma basis_length n : (2 <= n <= 4)%nat -> length (basis n) = n /\ Forall (fun b => length b = (n - 1)%nat /\ Forall (fun j => (j < n)%nat) b) (basis n).
Proof.
  intros H. assert (C : n = 2%nat \/ n = 3%nat \/ n = 4%nat) by lia. destruct C as [-> |[-> | ->]]; cbn; (split; [reflexivity|]); repeat (constructor; try lia).
Qed.

(** ** One refinement *)
Section Step.
Variable order : list nat -> list nat.
Variable hmin : mesh -> R.
Hypothesis ORD : reorders order.

Lemma mapM_same {A} (f : A -> res A) l l' : (forall a b, f a = Ok b -> b = a) -> mapM f l = Ok l' -> l' = l.
Proof.
  intros H. revert l'. induction l as [|a l IH]; intros l' E; [injection E as <-; reflexivity|]. rewrite mapM_cons in E. destruct (f a) as [b|] eqn:Fa; [|discriminate]. cbn in E. destruct (mapM f l) as [l0|] eqn:Fl; [|discriminate]. cbn in E. injection E as <-. rewrite (H a b Fa), (IH l0 eq_refl). reflexivity.
Qed.
Lemma flat_map_shift {A} (f : nat -> list A) s N : flat_map f (seq (S s) N) = flat_map (fun k => f (S k)) (seq s N).
Proof. revert s. induction N as [|N IH]; intros s; cbn; [reflexivity|]. rewrite IH. reflexivity. Qed.
Lemma flat_map_ext_in {A} (f g : nat -> list A) l : (forall k, In k l -> f k = g k) -> flat_map f l = flat_map g l.
Proof. induction l as [|k l IH]; intros H; cbn; [reflexivity|]. rewrite (H k (or_introl eq_refl)), IH; [reflexivity|]. intros j J. apply H. right. exact J. Qed.
Lemma fine_cells_ok n x cells pc center cs ps : fine_cells n x cells pc center = Ok (cs, ps) ->
  cs = flat_map (fun k => children n (nth k cells []) (center + k)%nat) (seq 0 (length cells)) /\ ps = flat_map (fun k => repeat (pc + k)%nat (length (basis n))) (seq 0 (length cells)).
Proof.
  revert pc center cs ps. induction cells as [|cell cells IH]; intros pc center cs ps E; cbn [fine_cells] in E; [injection E as <- <-; auto|].
  match type of E with bind (mapM ?f ?l) _ = _ => destruct (mapM f l) as [new|] eqn:M; [|discriminate] end. cbn [bind] in E. destruct (fine_cells n x cells (S pc) (S center)) as [[cs' ps']|] eqn:R; [|discriminate]. cbn in E. injection E as <- <-.
  apply mapM_same in M; [|intros c b H; destruct (simplex_area (pts x c)) as [a|]; [|discriminate]; cbn in H; destruct (py_assert _) as [[]|]; [|discriminate]; cbn in H; congruence]. subst new. destruct (IH _ _ _ _ R) as [-> ->].
  cbn [length seq flat_map nth]. rewrite !flat_map_shift, !Nat.add_0_r. cbn [nth]. split; f_equal.
  - apply flat_map_ext_in. intros k _. f_equal. lia.
  - unfold children. rewrite map_map. clear. induction (basis n); cbn; [reflexivity|]. f_equal. assumption.
  - apply flat_map_ext_in. intros k _. f_equal. lia.
Qed.
Lemma at_old x xnew v : (v < length x)%nat -> at_vertex (x ++ xnew) v = at_vertex x v.
Proof. intros H. unfold at_vertex. apply app_nth1, H. Qed.
Lemma at_new x xnew k : at_vertex (x ++ xnew) (length x + k) = nth k xnew [].
Proof. unfold at_vertex. rewrite app_nth2 by lia. f_equal. lia. Qed.
Lemma refine_once_inv new_pts strict m m' mp : refine_once order hmin new_pts strict m = Ok (m', mp) ->
  let n := m_nvtx m in (2 <= n <= 4)%nat /\
  let cs := flat_map (fun k => children n (nth k (m_cells m) []) (length (m_x m) + k)%nat) (seq 0 (length (m_cells m))) in
  m' = make_mesh order (m_x m ++ new_pts m) cs (m_tdim m) (m_gdim m) /\
  mp = {| vmap := enumerate (seq 0 (length (m_x m))); cmap := enumerate (flat_map (fun k => repeat k n) (seq 0 (length (m_cells m)))) |}.
Proof.
  unfold refine_once. intros E. destruct (py_assert _) as [[]|] eqn:A in E; [|discriminate]. cbn [bind] in E. assert (N : (2 <= m_nvtx m <= 4)%nat).
  { unfold py_assert in A. destruct (m_nvtx m =? 2)%nat eqn:A2; [apply Nat.eqb_eq in A2; lia|]. destruct (m_nvtx m =? 3)%nat eqn:A3; [apply Nat.eqb_eq in A3; lia|]. destruct (m_nvtx m =? 4)%nat eqn:A4; [apply Nat.eqb_eq in A4; lia|]. discriminate A. }
  destruct (if Rlt_dec 0 strict then _ else Ok true) as [b|]; [|discriminate]. cbn [bind] in E. destruct (py_assert b) as [[]|]; [|discriminate]. cbn [bind] in E. destruct (fine_cells _ _ _ _ _) as [[cs ps]|] eqn:F; [|discriminate]. cbn in E. injection E as <- <-. apply fine_cells_ok in F. destruct F as [-> ->]. cbv zeta. rewrite (proj1 (basis_length _ N)). auto.
Qed.
Lemma children_length n c k : (2 <= n <= 4)%nat -> length (children n c k) = n.
Proof. intros N. unfold children. rewrite map_length. apply basis_length, N. Qed.
Lemma children_in n cell k c : (2 <= n <= 4)%nat -> length cell = n -> In c (children n cell k) -> length c = n /\ forall v, In v c -> In v cell \/ v = k.
Proof.
  intros N L I. unfold children in I. apply in_map_iff in I. destruct I as [b [<- B]]. destruct (basis_length n N) as [_ F]. rewrite Forall_forall in F. destruct (F b B) as [LB FB]. split; [rewrite app_length, map_length; cbn; lia|].
  intros v V. apply in_app_or in V. destruct V as [V|[V|[]]]; [left|right; auto]. apply in_map_iff in V. destruct V as [j [<- J]]. rewrite Forall_forall in FB. apply nth_In. rewrite L. apply FB, J.
Qed.
Lemma corners_make x cs tdim gdim i : (i < length cs)%nat -> corners (make_mesh order x cs tdim gdim) i = map (fun v => nth v x []) (order (nth i cs [])).
Proof. intros H. unfold corners, make_mesh. cbn. rewrite (nth_map order cs i []) by exact H. reflexivity. Qed.

Lemma refine_once_tracks tdim gdim new_pts strict m m' mp : mesh_ok tdim gdim m -> one_per_cell tdim gdim new_pts -> refine_once order hmin new_pts strict m = Ok (m', mp) ->
  mesh_ok tdim gdim m' /\ tracks (S tdim) m m' mp.
Proof.
  intros OK P E. destruct (P m OK) as [PL PF]. destruct OK as [T [G [NV [FX FC]]]]. apply refine_once_inv in E. cbv zeta in E. rewrite NV in E. destruct E as [N [-> ->]].
  set (cs := flat_map _ _). assert (LC : length cs = (length (m_cells m) * S tdim)%nat) by (unfold cs; apply length_blocks; intros; apply children_length, N). split.
  - unfold mesh_ok, make_mesh. cbn. rewrite T, G. split; [reflexivity|]. split; [reflexivity|]. split; [reflexivity|]. split; [apply Forall_app; auto|].
    apply Forall_forall. intros c C. apply in_map_iff in C. destruct C as [d [<- D]]. pose proof (ORD d) as PD. unfold cs in D. apply in_flat_map in D. destruct D as [k [K D]]. apply in_seq in K. rewrite Forall_forall in FC. destruct (FC (nth k (m_cells m) [])) as [LK FK]; [apply nth_In; lia|]. destruct (children_in _ _ _ _ N LK D) as [LD ID]. rewrite <- (Permutation_length PD). split; [exact LD|].
    apply Forall_forall. intros v V. apply Permutation_sym in PD. apply (Permutation_in _ PD) in V. rewrite app_length. destruct (ID v V) as [I| ->]; [rewrite Forall_forall in FK; specialize (FK v I); lia|lia].
  - unfold tracks, make_mesh. cbn [m_cells m_x cmap vmap]. rewrite map_length, LC. split; [reflexivity|]. split; [rewrite blocks_div by lia; apply enumerate_map|]. split; [apply enumerate_seq|]. rewrite firstn_app, Nat.sub_diag, firstn_all, firstn_O, app_nil_r. reflexivity.
Qed.
Lemma refine_once_contained tdim gdim new_pts strict m m' mp : mesh_ok tdim gdim m -> one_per_cell tdim gdim new_pts -> (forall c, (c < length (m_cells m))%nat -> in_simplex gdim (corners m c) (nth c (new_pts m) [])) -> refine_once order hmin new_pts strict m = Ok (m', mp) -> contained (S tdim) gdim m m'.
Proof.
  intros OK P IN E. destruct (P m OK) as [PL PF]. pose proof OK as [T [G [NV [FX FC]]]]. apply refine_once_inv in E. cbv zeta in E. rewrite NV in E. destruct E as [N [-> _]].
  set (cs := flat_map _ _). assert (LC : length cs = (length (m_cells m) * S tdim)%nat) by (unfold cs; apply length_blocks; intros; apply children_length, N).
  intros i x Hi. cbn [make_mesh m_cells] in Hi. rewrite map_length in Hi. rewrite corners_make by exact Hi. apply in_simplex_trans. apply Forall_forall. intros p I. apply in_map_iff in I. destruct I as [v [<- V]]. apply (Permutation_in _ (Permutation_sym (ORD _))) in V.
  rewrite LC in Hi. assert (D : (i / S tdim < length (m_cells m))%nat) by (apply Nat.div_lt_upper_bound; lia). unfold cs in V. rewrite (nth_blocks _ (S tdim)) in V; [|lia|intros; apply children_length, N|exact Hi].
  rewrite Forall_forall in FC. destruct (FC (nth (i / S tdim) (m_cells m) [])) as [LK FK]; [apply nth_In, D|]. set (ch := children (S tdim) (nth (i / S tdim) (m_cells m) []) (length (m_x m) + i / S tdim)) in *.
  assert (IC : In (nth (i mod S tdim) ch []) ch) by (apply nth_In; unfold ch; rewrite children_length by exact N; apply Nat.mod_upper_bound; lia). destruct (children_in _ _ _ _ N LK IC) as [_ Q]. fold (at_vertex (m_x m ++ new_pts m) v). destruct (Q v V) as [H| ->].
  - rewrite Forall_forall in FK. rewrite at_old by (apply FK, H). apply corner_in; [|unfold corners; apply in_map_iff; exists v; auto]. unfold corners. apply Forall_forall. intros q J. apply in_map_iff in J. destruct J as [u [<- U]]. rewrite Forall_forall in FX. apply FX, nth_In, FK, U.
  - rewrite at_new. apply IN. exact D.
Qed.
End Step.

(** ** Many refinements *)
Lemma item_map f N k : (k < N)%nat -> item (map (fun i => (i, f i)) (seq 0 N)) k = Ok (f k).
Proof.
  intros H. assert (G : forall s, (s <= k < s + N)%nat -> item (map (fun i => (i, f i)) (seq s N)) k = Ok (f k)); [|apply G; lia].
  clear H. induction N as [|N IH]; intros s H; [lia|]. cbn. destruct (Nat.eqb_spec s k) as [-> |D]; [reflexivity|]. apply IH. lia.
Qed.
Lemma compose_maps n d N M : (forall i, (i < M)%nat -> (i / n < N)%nat) -> mapM (fun kv => do v <- item (map (fun i => (i, i / d))%nat (seq 0 N)) (snd kv); Ok (fst kv, v)) (map (fun i => (i, i / n))%nat (seq 0 M)) = Ok (map (fun i => (i, i / n / d))%nat (seq 0 M)).
Proof.
  intros H. assert (G : forall s, (forall i, (s <= i < s + M)%nat -> (i / n < N)%nat) -> mapM (fun kv => do v <- item (map (fun i => (i, i / d))%nat (seq 0 N)) (snd kv); Ok (fst kv, v)) (map (fun i => (i, i / n))%nat (seq s M)) = Ok (map (fun i => (i, i / n / d))%nat (seq s M))); [|apply G; intros i I; apply H; lia].
  clear H. induction M as [|M IH]; intros s H; [reflexivity|]. cbn [seq map]. rewrite mapM_cons. cbn [fst snd]. rewrite (item_map (fun i => i / d)%nat) by (apply H; lia). cbn [bind]. rewrite IH by (intros i I; apply H; lia). reflexivity.
Qed.
Lemma keep_roots N M : (N <= M)%nat -> map fst (filter (fun kv => existsb (Nat.eqb (snd kv)) (seq 0 N)) (map (fun v => (v, v)) (seq 0 M))) = seq 0 N.
Proof.
  intros H. assert (E : forall v, existsb (Nat.eqb v) (seq 0 N) = (v <? N)%nat).
  { intros v. destruct (Nat.ltb_spec v N) as [L|L]; [apply existsb_exists; exists v; split; [apply in_seq; lia|apply Nat.eqb_refl]|]. destruct (existsb _ _) eqn:X; [|reflexivity]. apply existsb_exists in X. destruct X as [w [I Q]]. apply Nat.eqb_eq in Q. apply in_seq in I. lia. }
  rewrite (filter_ext (fun kv : nat * nat => existsb (Nat.eqb (snd kv)) (seq 0 N)) (fun kv : nat * nat => (snd kv <? N)%nat) (fun kv => E (snd kv))). replace M with (N + (M - N))%nat by lia. rewrite seq_app, map_app, filter_app, map_app. cbn [Nat.add].
  assert (A : forall s k, (s + k <= N)%nat -> map fst (filter (fun kv : nat * nat => (snd kv <? N)%nat) (map (fun v => (v, v)) (seq s k))) = seq s k). { intros s k. revert s. induction k as [|k IH]; intros s L; [reflexivity|]. cbn [seq map filter snd]. destruct (Nat.ltb_spec s N); [|lia]. cbn [map fst]. rewrite IH by lia. reflexivity. }
  assert (B : forall s k, (N <= s)%nat -> map fst (filter (fun kv : nat * nat => (snd kv <? N)%nat) (map (fun v => (v, v)) (seq s k))) = []). { intros s k. revert s. induction k as [|k IH]; intros s L; [reflexivity|]. cbn [seq map filter snd]. destruct (Nat.ltb_spec s N); [lia|]. apply IH. lia. }
  rewrite A, B by lia. apply app_nil_r.
Qed.
Lemma combine_seq N : combine (seq 0 N) (seq 0 N) = map (fun v => (v, v)) (seq 0 N).
Proof. rewrite <- enumerate_seq. unfold enumerate. rewrite seq_length. reflexivity. Qed.
Lemma div_bound i N k : k <> 0%nat -> (i < N * k)%nat -> (i / k < N)%nat.
Proof. intros K H. apply Nat.div_lt_upper_bound; [exact K|]. lia. Qed.

Section Many.
Variables (tdim gdim n : nat) (once : mesh -> res (mesh * maps)).
Hypothesis NZ : n <> 0%nat.
Hypothesis STEP : forall m m' mp, mesh_ok tdim gdim m -> once m = Ok (m', mp) -> mesh_ok tdim gdim m' /\ tracks n m m' mp.

(** The loop, from the state after [j] refinements of [m] *)
Lemma loop_tracks m k : forall j m0 map0 fine mp, mesh_ok tdim gdim m0 -> tracks (n ^ j) m m0 map0 -> refine_loop once k m0 map0 (seq 0 (length (m_x m))) (seq 0 (length (m_x m))) = Ok (fine, mp) ->
  mesh_ok tdim gdim fine /\ tracks (n ^ (j + k)) m fine mp.
Proof.
  induction k as [|k IH]; intros j m0 map0 fine mp OK TR E; cbn [refine_loop] in E.
  - injection E as <- <-. rewrite Nat.add_0_r. auto.
  - destruct (once m0) as [[m1 map1]|] eqn:O; [|discriminate]. cbn [bind] in E. destruct (STEP _ _ _ OK O) as [OK1 [L1 [C1 [V1 X1]]]]. destruct TR as [L0 [C0 [V0 X0]]]. rewrite C0, C1, V1 in E.
    rewrite (compose_maps n) in E by (intros i I; apply div_bound; [exact NZ|]; rewrite <- L1; exact I). cbn [bind] in E. assert (LX : (length (m_x m) <= length (m_x m0))%nat) by (pose proof (f_equal (@length _) X0) as Q; rewrite firstn_length in Q; lia). rewrite keep_roots in E by exact LX. unfold py_assert in E. rewrite Nat.eqb_refl in E. cbn [bind] in E.
    replace (j + S k)%nat with (S j + k)%nat by lia. refine (IH (S j) m1 _ fine mp OK1 _ E). unfold tracks. cbn [cmap vmap]. split; [rewrite L1, L0; cbn [Nat.pow]; lia|]. split; [|split; [apply combine_seq|]].
    + apply map_ext. intros i. f_equal. rewrite Nat.div_div; [reflexivity|exact NZ|apply Nat.pow_nonzero, NZ].
    + transitivity (firstn (length (m_x m)) (firstn (length (m_x m0)) (m_x m1))); [rewrite firstn_firstn; f_equal; lia|]. rewrite X1. exact X0.
Qed.
Lemma refine_many_tracks m k fine mp : mesh_ok tdim gdim m -> refine_many once k m = Ok (fine, mp) -> mesh_ok tdim gdim fine /\ tracks (n ^ Nat.max 1 k) m fine mp.
Proof.
  intros OK E. unfold refine_many in E. destruct (once m) as [[m0 map0]|] eqn:O; [|discriminate]. cbn [bind] in E. destruct (STEP _ _ _ OK O) as [OK0 TR]. pose proof TR as [_ [_ [V0 _]]]. destruct (vmap map0) as [|kv v0] eqn:V; [discriminate|]. rewrite V0, !map_map in E. cbn [fst snd] in E. rewrite map_id in E. replace (Nat.max 1 k) with (1 + (k - 1))%nat by lia.
  apply (loop_tracks m (k - 1) 1 m0 map0); [exact OK0|rewrite Nat.pow_1_r; exact TR|exact E].
Qed.
Hypothesis CONT : forall m m' mp, mesh_ok tdim gdim m -> once m = Ok (m', mp) -> contained n gdim m m'.
Lemma loop_contained m k : forall j m0 map0 refv rootv fine mp, mesh_ok tdim gdim m0 -> contained (n ^ j) gdim m m0 -> refine_loop once k m0 map0 refv rootv = Ok (fine, mp) -> contained (n ^ (j + k)) gdim m fine.
Proof.
  induction k as [|k IH]; intros j m0 map0 refv rootv fine mp OK C E; cbn [refine_loop] in E.
  - injection E as <- <-. rewrite Nat.add_0_r. auto.
  - destruct (once m0) as [[m1 map1]|] eqn:O; [|discriminate]. cbn [bind] in E. destruct (STEP _ _ _ OK O) as [OK1 [L1 _]]. pose proof (CONT _ _ _ OK O) as C1. destruct (mapM _ _) as [cm|]; [|discriminate]. cbn [bind] in E. destruct (py_assert _) as [[]|]; [|discriminate]. cbn [bind] in E.
    replace (j + S k)%nat with (S j + k)%nat by lia. refine (IH (S j) m1 _ _ _ fine mp OK1 _ E). intros i x Hi I. cbn [Nat.pow]. rewrite <- Nat.div_div; [|exact NZ|apply Nat.pow_nonzero, NZ]. apply C; [apply div_bound; [exact NZ|]; rewrite <- L1; exact Hi|]. apply C1; assumption.
Qed.
Lemma refine_many_contained m k fine mp : mesh_ok tdim gdim m -> refine_many once k m = Ok (fine, mp) -> contained (n ^ Nat.max 1 k) gdim m fine.
Proof.
  intros OK E. unfold refine_many in E. destruct (once m) as [[m0 map0]|] eqn:O; [|discriminate]. cbn [bind] in E. destruct (STEP _ _ _ OK O) as [OK0 _]. pose proof (CONT _ _ _ OK O) as C. destruct (vmap map0) as [|kv v0]; [discriminate|]. replace (Nat.max 1 k) with (1 + (k - 1))%nat by lia.
  eapply (loop_contained m (k - 1) 1 m0); [exact OK0|rewrite Nat.pow_1_r; exact C|exact E].
Qed.
End Many.
