(** C94: from forms to the linear system. *)
From Verif Require Import Base BaseProofs Mat MatProofs ListUtilsModel ConvertModel BcModel BcProofs BcReturnsProofs.
From Verif Require Import UflModel UflProofs BlockFormModel BlockFormProofs BlockFormAddProofs BlockFormProps ReducedModel ReducedProofs ReducedProps SystemModel SystemProofs.
From Coq Require Import Cantor Permutation.
Local Open Scope nat_scope.
Local Close Scope Q_scope.
Local Close Scope Qc_scope.

(** C94: the system made from the block forms has as solutions exactly the
    vectors with the prescribed values that satisfy the variational problem for
    all test functions vanishing where values are prescribed. *)
Theorem C94_linear_system w valid integrate sp mt ord dfa st fa W rows bs c d bcs diag sym :
  let fv := form_value w (modules w sp mt) integrate st in
  let n := length W in
  let sizes := map (w_dim w) W in
  let pairs := prescribed false sizes bcs in
  an_order ord -> role_closed valid -> reductions_ok w sp ->
  assembles_plain w (modules w sp mt) integrate valid dfa ->
  W <> [] -> (forall V, In V W -> 0 < w_dim w V) ->
  blocks2 n rows c -> blocks1 n bs d ->
  (forall i j V U, nth_error W i = Some V -> nth_error W j = Some U -> c i j <> [] ->
     form_fine w valid st (Some V) (Some U) (c i j)) ->
  (forall i V, nth_error W i = Some V -> form_fine w valid st (Some V) None (d i)) ->
  (forall i j x, i < n -> j < n -> In x (c i j) \/ In x (d i) -> matrices_fit w sp mt (w_imesh w (fst x)) (snd x)) ->
  (forall i, i < n -> exists j, j < n /\ c i j <> []) ->
  (forall j, j < n -> exists i, i < n /\ c i j <> []) ->
  (forall i j x, i < n -> j < n -> In x (c i j) -> reductions (modules w sp mt) (snd x) + 1 < fa) ->
  (forall i x, i < n -> In x (d i) -> reductions (modules w sp mt) (snd x) + 1 < fa) ->
  ok_arg false n bcs -> pairs <> [] -> (forall k, constrained pairs k -> k < list_sum sizes) -> diag <> q0 ->
  exists N, forall fc, N <= fc -> exists M r,
    linear_system (xii_assemble w (modules w sp mt) ord dfa fa st) fa fc rows bs bcs diag sym = Ok (M, r) /\
    nr M = list_sum sizes /\ nc M = list_sum sizes /\ length r = list_sum sizes /\
    forall us, map (@length Qc) us = sizes ->
      (mv M (concat us) = r <->
       (forall k v, assigned pairs k v -> vnth (concat us) k = v) /\
       (forall vs, map (@length Qc) vs = sizes -> (forall k, constrained pairs k -> vnth (concat vs) k = q0) ->
          sumn n (fun i => sumn n (fun j => fv (c i j) (nth i vs []) (nth j us []))) =
          sumn n (fun i => fv (d i) (nth i vs []) []))).
Proof.
  intros fv n sizes pairs ORD VAL RED DFA NE POS S2 S1 FC FD FI RO CO F2 F1 OK NP RG DG.
  exact (system_conditions w valid integrate sp mt ord dfa st fa ORD VAL RED DFA W rows bs c d NE POS S2 S1 FC FD FI RO CO F2 F1 bcs diag sym OK NP RG DG).
Qed.

(** Without conditions: the variational problem for all test functions. *)
Theorem C94_no_conditions w valid integrate sp mt ord dfa st fa W rows bs c d bcs diag sym :
  let fv := form_value w (modules w sp mt) integrate st in
  let n := length W in
  let sizes := map (w_dim w) W in
  an_order ord -> role_closed valid -> reductions_ok w sp ->
  assembles_plain w (modules w sp mt) integrate valid dfa ->
  W <> [] -> (forall V, In V W -> 0 < w_dim w V) ->
  blocks2 n rows c -> blocks1 n bs d ->
  (forall i j V U, nth_error W i = Some V -> nth_error W j = Some U -> c i j <> [] ->
     form_fine w valid st (Some V) (Some U) (c i j)) ->
  (forall i V, nth_error W i = Some V -> form_fine w valid st (Some V) None (d i)) ->
  (forall i j x, i < n -> j < n -> In x (c i j) \/ In x (d i) -> matrices_fit w sp mt (w_imesh w (fst x)) (snd x)) ->
  (forall i, i < n -> exists j, j < n /\ c i j <> []) ->
  (forall j, j < n -> exists i, i < n /\ c i j <> []) ->
  (forall i j x, i < n -> j < n -> In x (c i j) -> reductions (modules w sp mt) (snd x) + 1 < fa) ->
  (forall i x, i < n -> In x (d i) -> reductions (modules w sp mt) (snd x) + 1 < fa) ->
  nothing_to_do bcs = true ->
  exists N, forall fc, N <= fc -> exists M r,
    linear_system (xii_assemble w (modules w sp mt) ord dfa fa st) fa fc rows bs bcs diag sym = Ok (M, r) /\
    nr M = list_sum sizes /\ nc M = list_sum sizes /\ length r = list_sum sizes /\
    forall us, map (@length Qc) us = sizes ->
      (mv M (concat us) = r <->
       forall vs, map (@length Qc) vs = sizes ->
          sumn n (fun i => sumn n (fun j => fv (c i j) (nth i vs []) (nth j us []))) =
          sumn n (fun i => fv (d i) (nth i vs []) [])).
Proof.
  intros fv n sizes ORD VAL RED DFA NE POS S2 S1 FC FD FI RO CO F2 F1 ND.
  exact (system_free w valid integrate sp mt ord dfa st fa ORD VAL RED DFA W rows bs c d NE POS S2 S1 FC FD FI RO CO F2 F1 bcs diag sym ND).
Qed.

(** ** From the forms added to the block forms *)

Lemma qsum_app l m : qsum (l ++ m) = (qsum l + qsum m)%Qc.
Proof. induction l as [|x l IH]; cbn [app qsum]; [unfold q0; ring|]. rewrite IH. ring. Qed.
Lemma sumn_add n f g : sumn n (fun i => (f i + g i)%Qc) = (sumn n f + sumn n g)%Qc.
Proof. induction n as [|n IH]; cbn [sumn]; [unfold q0; ring|]. rewrite IH. ring. Qed.

Lemma gathered_sum {X} n (addr : X -> nat) (g : nat -> X -> Qc) l : (forall x, In x l -> addr x < n) ->
  sumn n (fun i => qsum (map (g i) (filter (fun x => addr x =? i) l))) = qsum (map (fun x => g (addr x) x) l).
Proof.
  induction l as [|x l IH]; intros H; cbn [filter map qsum].
  - apply sumn_zero. reflexivity.
  - transitivity (sumn n (fun i => ((if addr x =? i then g i x else q0) + qsum (map (g i) (filter (fun x => addr x =? i) l)))%Qc)).
    + apply sumn_ext. intros i Hi. destruct (addr x =? i); cbn [map qsum]; [reflexivity|unfold q0; ring].
    + rewrite sumn_add, IH by (intros y Hy; apply H; right; assumption). f_equal.
      rewrite (sumn_single n (addr x)); [rewrite Nat.eqb_refl; reflexivity| |].
      * apply H. left. reflexivity.
      * intros i Hi Ne. rewrite (proj2 (Nat.eqb_neq (addr x) i)) by congruence. reflexivity.
Qed.
Lemma gathered_sum2 {X} n (addr : X -> nat * nat) (g : nat -> nat -> X -> Qc) l :
  (forall x, In x l -> fst (addr x) < n /\ snd (addr x) < n) ->
  sumn n (fun i => sumn n (fun j => qsum (map (g i j) (filter (fun x => at2 i j (addr x)) l)))) =
  qsum (map (fun x => g (fst (addr x)) (snd (addr x)) x) l).
Proof.
  intros H. rewrite <- (gathered_sum n (fun x => fst (addr x)) (fun i x => g i (snd (addr x)) x)) by (intros x Hx; apply (H x Hx)).
  apply sumn_ext. intros i Hi.
  rewrite <- (gathered_sum n (fun x => snd (addr x)) (g i)).
  - apply sumn_ext. intros j Hj. do 2 f_equal. induction l as [|x l IH]; [reflexivity|]. cbn [filter]. unfold at2 at 1.
    rewrite IH by (intros y Hy; apply H; right; assumption). destruct (fst (addr x) =? i); cbn [andb filter]; reflexivity.
  - intros x Hx. apply filter_In in Hx. apply (H x). tauto.
Qed.

Lemma form_value_app w asms integrate st f g v u :
  form_value w asms integrate st (f ++ g) v u = (form_value w asms integrate st f v u + form_value w asms integrate st g v u)%Qc.
Proof. unfold form_value. rewrite map_app, qsum_app. reflexivity. Qed.

Lemma fine_single w valid st oV oU f : f <> [] -> uniform f -> (forall x, In x f -> form_fine w valid st oV oU [x]) -> form_fine w valid st oV oU f.
Proof. intros NE UN H. split; [assumption|]. split; [assumption|]. intros x Hx. destruct (H x Hx) as (_ & _ & F). apply (F x). left. reflexivity. Qed.
Lemma uniform_spaces V (oU : option nat) f : (forall x, In x f -> has_space 0 (snd x) V /\ match oU with Some U => has_space 1 (snd x) U | None => no_space 1 (snd x) end) ->
  (forall x t n W, In x f -> occurs t (snd x) -> tkind t = KArg n W -> n < 2) -> told_apart f -> uniform f.
Proof.
  intros H HN TA. split; [|assumption]. intros i j t s n V1 V2 Hi Hj Ht Hs K1 K2. destruct (H i Hi) as [A0 A1], (H j Hj) as [B0 B1].
  assert (n < 2) by eauto. destruct n as [|[|n] ]; [| |lia].
  - rewrite (proj2 A0 t V1 Ht K1), (proj2 B0 s V2 Hs K2). reflexivity.
  - destruct oU as [U|]; [|destruct (A1 t V1 Ht K1)]. rewrite (proj2 A1 t V1 Ht K1), (proj2 B1 s V2 Hs K2). reflexivity.
Qed.
Lemma fine_roles w valid st oV oU f x t n W : form_fine w valid st oV oU f -> In x f -> occurs t (snd x) -> tkind t = KArg n W -> n < 2.
Proof. intros (_ & _ & F) Hx Ht K. destruct (F x Hx) as (_ & _ & _ & _ & _ & _ & _ & I5 & _). eauto. Qed.
Lemma fine_each w valid st oV oU f x : form_fine w valid st oV oU f -> In x f -> form_fine w valid st oV oU [x].
Proof. intros (_ & UN & F) Hx. split; [discriminate|]. split; [|intros y [<-|[] ]; apply F; assumption].
  split; [|intros i j [<-|[] ] [<-|[] ] _ _; reflexivity]. intros i j t s n V U [<-|[] ] [<-|[] ]. apply UN; assumption. Qed.

Lemma adds_lin V0 addr fs : (forall f, In f fs -> f <> [] /\ forall x, In x f -> addressed1 V0 (snd x) (addr x)) ->
  forall bs c, state1 V0 bs c ->
  exists bs', adds (Lin V0 bs) fs = Ok (Lin V0 bs') /\
    state1 V0 bs' (fun i => c i ++ filter (fun x => addr x =? i) (concat fs)).
Proof.
  induction fs as [|f fs IH]; intros H bs c ST; cbn [adds concat].
  - exists bs. split; [reflexivity|]. destruct ST as [S1 S2]. split; [assumption|]. intros i Hi. cbn [filter]. rewrite app_nil_r. apply S2; assumption.
  - destruct (H f (or_introl eq_refl)) as [NE HA]. destruct (add_lin V0 addr f bs c NE HA ST) as (bs1 & E & ST1). rewrite E. cbn [bind].
    destruct (IH (fun y Hy => H y (or_intror Hy)) bs1 _ ST1) as (bs2 & E2 & [T1 T2]). exists bs2. split; [assumption|].
    split; [assumption|]. intros i Hi. specialize (T2 i Hi). rewrite filter_app, app_assoc. exact T2.
Qed.

Lemma state_blocks2 W rows c : state2 W rows c -> blocks2 (length W) rows c.
Proof. intros [S H]. split; [assumption|]. intros i j Hi Hj. apply (H i j Hi Hj). Qed.
Lemma state_blocks1 W bs d : state1 W bs d -> blocks1 (length W) bs d.
Proof. intros [S H]. split; [assumption|]. intros i Hi. apply (H i Hi). Qed.

(** The value of one integral for the parts of block vectors it is about. *)
Definition integral_value w sp mt integrate (st : store) (v u : vec) (x : nat * expr) : Qc :=
  integrate (fst x) (evaluate (modules w sp mt) (w_imesh w (fst x)) st v u (snd x)).

(** C94, from the forms: [fs] are the bilinear forms added to block_form(W, 2),
    [gs] the linear ones added to block_form(W, 1) -- [zf] is the null form
    there -- in any order and grouping; each integral belongs to the first
    place of its spaces in W. *)
Theorem C94_from_forms w valid integrate sp mt ord dfa zf st fa W fs gs (a2 : nat * expr -> nat * nat) (a1 : nat * expr -> nat) bcs diag sym :
  let n := length W in
  let sizes := map (w_dim w) W in
  let pairs := prescribed false sizes bcs in
  let val := integral_value w sp mt integrate st in
  an_order ord -> role_closed valid -> reductions_ok w sp ->
  assembles_plain w (modules w sp mt) integrate valid dfa ->
  W <> [] -> (forall V, In V W -> 0 < w_dim w V) ->
  (forall f, In f (fs ++ gs) -> f <> []) ->
  (forall x, In x (concat fs) -> exists V U, at_pos W V (fst (a2 x)) /\ at_pos W U (snd (a2 x)) /\
     has_space 0 (snd x) V /\ has_space 1 (snd x) U /\ form_fine w valid st (Some V) (Some U) [x]) ->
  (forall x, In x (concat gs) -> exists V, at_pos W V (a1 x) /\ has_space 0 (snd x) V /\ form_fine w valid st (Some V) None [x]) ->
  (forall V, In V W -> form_fine w valid st (Some V) None (zf V) /\ (forall x, In x (zf V) -> has_space 0 (snd x) V) /\ forall x v u, In x (zf V) -> val v u x = q0) ->
  told_apart (concat fs) -> (forall V, In V W -> told_apart (zf V ++ concat gs)) ->
  (forall x, In x (concat fs) \/ In x (concat gs) \/ (exists V, In V W /\ In x (zf V)) -> matrices_fit w sp mt (w_imesh w (fst x)) (snd x)) ->
  (forall i, i < n -> exists x, In x (concat fs) /\ fst (a2 x) = i) ->
  (forall j, j < n -> exists x, In x (concat fs) /\ snd (a2 x) = j) ->
  (forall x, In x (concat fs) \/ In x (concat gs) \/ (exists V, In V W /\ In x (zf V)) -> reductions (modules w sp mt) (snd x) + 1 < fa) ->
  ok_arg false n bcs -> pairs <> [] -> (forall k, constrained pairs k -> k < list_sum sizes) -> diag <> q0 ->
  exists N, forall fc, N <= fc -> exists M r,
    solve_forms (xii_assemble w (modules w sp mt) ord dfa fa st) zf fa fc W fs gs bcs diag sym = Ok (M, r) /\
    nr M = list_sum sizes /\ nc M = list_sum sizes /\ length r = list_sum sizes /\
    forall us, map (@length Qc) us = sizes ->
      (mv M (concat us) = r <->
       (forall k v, assigned pairs k v -> vnth (concat us) k = v) /\
       (forall vs, map (@length Qc) vs = sizes -> (forall k, constrained pairs k -> vnth (concat vs) k = q0) ->
          qsum (map (fun x => val (nth (fst (a2 x)) vs []) (nth (snd (a2 x)) us []) x) (concat fs)) =
          qsum (map (fun x => val (nth (a1 x) vs []) [] x) (concat gs)))).
Proof.
  intros n sizes pairs val ORD VAL RED DFA NE POS NEF F2 F1 FZ TA TZ FI RO CO FU OK NP RG DG.
  assert (HN1 : forall oV x, form_fine w valid st oV None [x] -> no_space 1 (snd x)).
  { intros oV x (_ & _ & F). destruct (F x (or_introl eq_refl)) as (_ & _ & _ & _ & _ & _ & A & _). exact A. }
  destruct (C21_initial zf W NE) as [(rows0 & E0 & S0) I1].
  destruct I1 as (bs0 & E0' & S0').
  { intros V HV. destruct (FZ V HV) as (FF & HS & _). split; [apply FF|]. intros x Hx. apply (fine_each _ _ _ _ _ _ x) in FF; [|assumption].
    split; [auto|eapply HN1; eassumption]. }
  destruct (adds_bil W a2 fs) with (rows := rows0) (c := fun _ _ : nat => @nil (nat * expr)) as (rows & EA & ST2); [|assumption|].
  { intros f Hf. split; [apply NEF, in_or_app; left; assumption|]. intros x Hx.
    destruct (F2 x) as (V & U & P1 & P2 & H0 & H1 & FF); [apply in_concat; eauto|]. exists V, U.
    repeat (split; [assumption|]). assumption. }
  destruct (adds_lin W a1 gs) with (bs := bs0) (c := fun i => zf (nth i W 0)) as (bs & EB & ST1); [|assumption|].
  { intros f Hf. split; [apply NEF, in_or_app; right; assumption|]. intros x Hx.
    destruct (F1 x) as (V & P1 & H0 & FF); [apply in_concat; eauto|]. exists V.
    split; [assumption|]. split; [eapply HN1; eassumption|assumption]. }
  cbn [app] in ST2.
  set (c := fun i j : nat => filter (fun x => at2 i j (a2 x)) (concat fs)) in *.
  set (d := fun i : nat => zf (nth i W 0) ++ filter (fun x => a1 x =? i) (concat gs)) in *.
  assert (INC : forall i j x, In x (c i j) <-> In x (concat fs) /\ a2 x = (i, j)).
  { intros i j x. unfold c. rewrite filter_In. unfold at2. rewrite andb_true_iff, !Nat.eqb_eq. destruct (a2 x). cbn. intuition congruence. }
  assert (IND : forall i x, In x (d i) <-> In x (zf (nth i W 0)) \/ In x (concat gs) /\ a1 x = i).
  { intros i x. unfold d. rewrite in_app_iff, filter_In, Nat.eqb_eq. reflexivity. }
  assert (AT : forall i j V U, nth_error W i = Some V -> at_pos W U j -> i = j -> U = V).
  { intros i j V U EV [EU _] ->. congruence. }
  assert (INW : forall i, i < n -> In (nth i W 0) W) by (intros i Hi; apply nth_In; assumption).
  assert (LT2 : forall x, In x (concat fs) -> fst (a2 x) < n /\ snd (a2 x) < n).
  { intros x Hx. destruct (F2 x Hx) as (V & U & [P1 _] & [P2 _] & _). split; apply nth_error_Some; congruence. }
  assert (LT1 : forall x, In x (concat gs) -> a1 x < n).
  { intros x Hx. destruct (F1 x Hx) as (V & [P1 _] & _). apply nth_error_Some; congruence. }
  destruct (C94_linear_system w valid integrate sp mt ord dfa st fa W rows bs c d bcs diag sym) as (N & HN); try assumption.
  - apply state_blocks2. assumption.
  - apply state_blocks1. assumption.
  - intros i j V U EV EU NEc. apply fine_single; [assumption| |].
    { apply (uniform_spaces V (Some U)).
      - intros x Hx. apply INC in Hx. destruct Hx as [Hx Ea]. destruct (F2 x Hx) as (V' & U' & [P1 _] & [P2 _] & H0 & H1 & _).
        rewrite Ea in P1, P2. cbn [fst snd] in P1, P2. replace V with V' by congruence. replace U with U' by congruence. split; assumption.
      - intros x t m W' Hx. apply INC in Hx. destruct Hx as [Hx Ea]. destruct (F2 x Hx) as (V' & U' & _ & _ & _ & _ & FF).
        apply (fine_roles _ _ _ _ _ _ x t m W' FF). left. reflexivity.
      - intros x y Hx Hy. apply INC in Hx, Hy. apply TA; tauto. }
    intros x Hx. apply INC in Hx. destruct Hx as [Hx Ea].
    destruct (F2 x Hx) as (V' & U' & [P1 _] & [P2 _] & _ & _ & FF). rewrite Ea in P1, P2. cbn [fst snd] in P1, P2.
    replace V with V' by congruence. replace U with U' by congruence. assumption.
  - intros i V EV. assert (NT : nth i W 0 = V) by (apply nth_error_nth; assumption).
    assert (IV : In V W) by (apply (nth_error_In _ _ EV)). destruct (FZ V IV) as (FF & HZ & _). apply fine_single.
    + unfold d. rewrite NT. intros C. apply app_eq_nil in C. destruct FF as [C' _]. tauto.
    + apply (uniform_spaces V None).
      * intros x Hx. apply IND in Hx. rewrite NT in Hx. destruct Hx as [Hx|[Hx Ea] ].
        -- split; [auto|]. apply (fine_each _ _ _ _ _ _ x) in FF; [|assumption]. eapply HN1; eassumption.
        -- destruct (F1 x Hx) as (V' & [P1 _] & H0 & FF'). rewrite Ea in P1. replace V with V' by congruence. split; [assumption|eapply HN1; eassumption].
      * intros x t m W' Hx. apply IND in Hx. rewrite NT in Hx. destruct Hx as [Hx|[Hx Ea] ]; [apply (fine_roles _ _ _ _ _ _ x t m W' FF Hx)|].
        destruct (F1 x Hx) as (V' & _ & _ & FF'). apply (fine_roles _ _ _ _ _ _ x t m W' FF'). left. reflexivity.
      * intros x y Hx Hy. apply IND in Hx, Hy. rewrite NT in Hx, Hy. apply (TZ V IV); apply in_or_app; tauto.
    + intros x Hx. apply IND in Hx. rewrite NT in Hx. destruct Hx as [Hx|[Hx Ea]]; [apply (fine_each _ _ _ _ _ _ x FF Hx)|].
      destruct (F1 x Hx) as (V' & [P1 _] & _ & FF'). rewrite Ea in P1. replace V with V' by congruence. assumption.
  - intros i j x Hi _ Hx. apply FI. destruct Hx as [Hx|Hx]; [apply INC in Hx; tauto|]. apply IND in Hx. destruct Hx as [Hx|[Hx _] ]; [|tauto]. right. right. eauto.
  - intros i Hi. destruct (RO i Hi) as (x & Hx & Ea). exists (snd (a2 x)). split; [apply (LT2 x Hx)|].
    intros C. assert (X : In x (c i (snd (a2 x)))) by (apply INC; split; [assumption|]; rewrite <- Ea; apply surjective_pairing). rewrite C in X. exact X.
  - intros j Hj. destruct (CO j Hj) as (x & Hx & Ea). exists (fst (a2 x)). split; [apply (LT2 x Hx)|].
    intros C. assert (X : In x (c (fst (a2 x)) j)) by (apply INC; split; [assumption|]; rewrite <- Ea; apply surjective_pairing). rewrite C in X. exact X.
  - intros i j x _ _ Hx. apply INC in Hx. apply FU. tauto.
  - intros i x Hi Hx. apply IND in Hx. apply FU. destruct Hx as [Hx|[Hx _]]; [|tauto]. right. right. eauto.
  - exists N. intros fc Hf. destruct (HN fc Hf) as (M & r & EL & D1 & D2 & D3 & SOL). exists M, r.
    split; [|split; [assumption|split; [assumption|split; [assumption|] ] ] ].
    + unfold solve_forms. rewrite E0. cbn [bind]. rewrite EA. cbn [bind]. rewrite E0'. cbn [bind]. rewrite EB. cbn [bind]. exact EL.
    + intros us Hu. rewrite (SOL us Hu). apply and_iff_compat_l.
      assert (EQ : forall vs, 
        (sumn n (fun i => sumn n (fun j => form_value w (modules w sp mt) integrate st (c i j) (nth i vs []) (nth j us []))) =
         sumn n (fun i => form_value w (modules w sp mt) integrate st (d i) (nth i vs []) []) <->
         qsum (map (fun x => val (nth (fst (a2 x)) vs []) (nth (snd (a2 x)) us []) x) (concat fs)) =
         qsum (map (fun x => val (nth (a1 x) vs []) [] x) (concat gs)))).
      { intros vs. 
        change (sumn n (fun i => sumn n (fun j => form_value w (modules w sp mt) integrate st (c i j) (nth i vs []) (nth j us []))))
          with (sumn n (fun i => sumn n (fun j => qsum (map (fun x => val (nth i vs []) (nth j us []) x) (filter (fun x => at2 i j (a2 x)) (concat fs)))))).
        rewrite (gathered_sum2 n a2 (fun i j x => val (nth i vs []) (nth j us []) x) (concat fs) LT2).
        replace (sumn n (fun i => form_value w (modules w sp mt) integrate st (d i) (nth i vs []) []))
          with (qsum (map (fun x => val (nth (a1 x) vs []) [] x) (concat gs))); [reflexivity|].
        rewrite <- (gathered_sum n a1 (fun i x => val (nth i vs []) [] x) (concat gs) LT1).
        apply sumn_ext. intros i Hi. unfold d. rewrite form_value_app.
        assert (Z : form_value w (modules w sp mt) integrate st (zf (nth i W 0)) (nth i vs []) [] = q0).
        { destruct (FZ _ (INW i Hi)) as (_ & _ & Z). unfold form_value. revert Z. generalize (zf (nth i W 0)) as l.
          induction l as [|x l IH]; intros Z; [reflexivity|]. cbn [map qsum]. rewrite IH by (intros; apply Z; right; assumption).
          assert (Zx := Z x (nth i vs []) [] (or_introl eq_refl)). unfold val, integral_value in Zx. rewrite Zx. unfold q0. ring. }
        rewrite Z. unfold form_value, val, integral_value. unfold q0 at 1. ring. }
      split; intros H vs Hv Zv; apply EQ; apply H; assumption.
Qed.

(** ** An instance: spaces 2 and 3 of the world of C26; a is the form of C26
    (test functions of 2, trial functions of 3) plus its counterpart with the
    spaces exchanged; L tests the trace of functions of 2 with a constant; the
    first dof of the first space is prescribed. *)
Definition kc : nat := Cantor.to_nat (0, 1).
Definition kz : nat := Cantor.to_nat (0, 0).
Definition ex_back : list (nat * expr) :=
  [(1, Node 0 [Leaf (Term (KArg 0 3) None None (Some 1) []); Leaf (Term (KArg 1 2) (Some 1) None None [])])].
Definition ex_load : list (nat * expr) :=
  [(1, Node 0 [Leaf (Term (KArg 0 2) (Some 1) None None []); Leaf (Term (KOther kc) None None None [])])].
Definition ex_null (V : nat) : list (nat * expr) :=
  [(V, Node 0 [Leaf (Term (KArg 0 V) None None None []); Leaf (Term (KOther kz) None None None [])])].
Definition ex_place (t : term) : nat := match tkind t with KArg _ 3 => 1 | _ => 0 end.
Definition ex_a2 (x : nat * expr) : nat * nat :=
  match snd x with Node 0 [Leaf a; Leaf b] => (ex_place a, ex_place b) | _ => (0, 0) end.
Definition ex_a1 (x : nat * expr) : nat := fst (ex_a2 x).
Definition ex_bcs : bcs_arg := BVal (PList [PList [PDirichlet [(0, qz 5)]]; PList []]).

Ltac here n := first [apply occurs_node with (Leaf n); [left; reflexivity|constructor] | apply occurs_node with (Leaf n); [right; left; reflexivity|constructor]].

Lemma function_own w n V e : (forall t, occurs t e -> getattr t (AOther 1) = None) -> function_of w n (Some V) e -> has_space n e V.
Proof.
  intros NF [(W & (t & Ht & K) & H) HO]. specialize (HO t W Ht K). unfold stands_in in HO. rewrite (NF t Ht) in HO.
  rewrite (of_space_arg _ _ _ _ K HO). split; eauto.
Qed.
Lemma fine_own0 w valid st V oU f x : form_fine w valid st (Some V) oU f -> In x f -> (forall t, occurs t (snd x) -> getattr t (AOther 1) = None) -> has_space 0 (snd x) V.
Proof. intros (_ & _ & F) Hx NF. apply (function_own w); [assumption|]. destruct (F x Hx) as (_ & _ & _ & _ & _ & A & _). exact A. Qed.
Lemma fine_own1 w valid st oV U f x : form_fine w valid st oV (Some U) f -> In x f -> (forall t, occurs t (snd x) -> getattr t (AOther 1) = None) -> has_space 1 (snd x) U.
Proof. intros (_ & _ & F) Hx NF. apply (function_own w); [assumption|]. destruct (F x Hx) as (_ & _ & _ & _ & _ & _ & A & _). exact A. Qed.
Ltac noflux := let H := fresh "H" in intros ? H; occ H; reflexivity.

Lemma ex_back_fine : form_fine ex_w ex_valid [] (Some 3) (Some 2) ex_back.
Proof.
  split; [discriminate|]. split; [unfold ex_back; unif|]. intros i [<-|[] ]. split; [cbn; lia|]. cbn [fst snd].
  split; [|split; [|split; [|split; [|split; [|split; [|split] ] ] ] ] ].
  - intros t H. right. occ H.
    + exists AAverage, 1, 3. cbn. split; [auto|]. split; [reflexivity|]. split; [|split; [left; eexists; reflexivity|split; [split; reflexivity|discriminate] ] ].
      intros b Hb N. intuition (subst; try reflexivity; try congruence).
    + exists ATrace, 1, 2. cbn. split; [auto|]. split; [reflexivity|]. split; [|split; [left; eexists; reflexivity|split; [split; reflexivity|discriminate] ] ].
      intros b Hb N. intuition (subst; try reflexivity; try congruence).
  - intros t s H H'. occ H; occ H'; cbn; congruence.
  - intros s t a b V Hs Ht Ia Ib N Ga Gb SV. occ Hs; occ Ht; cbn in Ia, Ib;
    repeat match goal with H : _ = _ \/ _ |- _ => destruct H as [<-|H] end; try contradiction; cbn in Ga, Gb; try congruence;
    (eapply of_space_arg in SV; [|reflexivity]); subst V; (split; [intros [C|C]; try discriminate C; cbn; lia|discriminate]).
  - eexists _, _. split; [reflexivity|]. split; reflexivity.
  - split; [eexists; split; [eexists; split; [apply occurs_node with (Leaf (Term (KArg 0 3) None None (Some 1) [])); [left; reflexivity|constructor]|reflexivity]|intros t w H K; occ H; cbn in K; congruence]|home_of].
  - split; [eexists; split; [eexists; split; [apply occurs_node with (Leaf (Term (KArg 1 2) (Some 1) None None [])); [right; left; reflexivity|constructor]|reflexivity]|intros t w H K; occ H; cbn in K; congruence]|home_of].
  - intros t n V H K. occ H; cbn in K; injection K; lia.
  - intros t id V k H K. occ H; discriminate.
Qed.

Lemma no_coefficient k : forall W i, ~ coefficient (Cantor.to_nat (0, k)) W i.
Proof. intros W i C. apply coefficient_of in C. rewrite Cantor.cancel_of_to in C. discriminate. Qed.

Lemma ex_load_fine : form_fine ex_w ex_valid [] (Some 2) None ex_load.
Proof.
  assert (CO := no_coefficient 1). fold kc in CO. unfold ex_load. revert CO. generalize kc as id0. intros id0 CO.
  assert (NS : forall V, ~ of_space (Term (KOther id0) None None None []) V).
  { intros V [(m & C)|(id & k & C & D)]; [discriminate|]. injection C as <-. apply (CO V k D). }
  split; [discriminate|]. split; [unif|]. intros i [<-|[] ]. split; [cbn; lia|]. cbn [fst snd].
  split; [|split; [|split; [|split; [|split; [|split; [|split] ] ] ] ] ].
  - intros t H. occ H.
    + right. exists ATrace, 1, 2. cbn. split; [auto|]. split; [reflexivity|]. split; [|split; [left; eexists; reflexivity|split; [split; reflexivity|discriminate] ] ].
      intros b Hb N. intuition (subst; try reflexivity; try congruence).
    + left. split; [|intros V C; elim (NS V C)]. intros a Ha. cbn in Ha. intuition (subst; reflexivity).
  - intros t s H H'. occ H; occ H'; cbn; congruence.
  - intros s t a b V Hs Ht Ia Ib N Ga Gb SV. occ Ht; [|elim (NS V SV)]. cbn in Ia, Ib. occ Hs;
    repeat match goal with H : _ = _ \/ _ |- _ => destruct H as [<-|H] end; try contradiction; cbn in Ga, Gb; try congruence.
  - eexists _, _. split; [reflexivity|]. split; [reflexivity|exact Logic.I].
  - split; [eexists; split; [eexists; split; [apply occurs_node with (Leaf (Term (KArg 0 2) (Some 1) None None [])); [left; reflexivity|constructor]|reflexivity]|intros t w H K; occ H; cbn in K; congruence]|home_of].
  - intros t w H K. occ H; cbn in K; congruence.
  - intros t n V H K. occ H; cbn in K; [injection K; lia|discriminate].
  - intros t id V k H K C. occ H; cbn in K; [discriminate|]. injection K as <-. elim (CO V k C).
Qed.

Lemma ex_null_fine V : 0 < V mod 4 -> V < 8 -> form_fine ex_w ex_valid [] (Some V) None (ex_null V).
Proof.
  intros HV V8. assert (CO := no_coefficient 0). fold kz in CO. unfold ex_null. revert CO. generalize kz as id0. intros id0 CO.
  assert (NS : forall V, ~ of_space (Term (KOther id0) None None None []) V).
  { intros U [(m & C)|(id & k & C & D)]; [discriminate|]. injection C as <-. apply (CO U k D). }
  split; [discriminate|]. split; [unif|]. intros i [<-|[] ]. split; [exact HV|]. cbn [fst snd].
  split; [|split; [|split; [|split; [|split; [|split; [|split] ] ] ] ] ].
  - intros t H. left. occ H.
    + split; [intros a Ha; cbn in Ha; intuition (subst; reflexivity)|]. intros U C. eapply of_space_arg in C; [|reflexivity]. subst U. cbn [w_mesh w_imesh ex_w fst]. rewrite (proj2 (Nat.ltb_lt V 8)) by assumption. reflexivity.
    + split; [|intros U C; elim (NS U C)]. intros a Ha. cbn in Ha. intuition (subst; reflexivity).
  - intros t s H H'. occ H; occ H'; cbn; congruence.
  - intros s t a b U Hs Ht Ia Ib N Ga Gb SV. exfalso. apply Gb. occ Ht; cbn in Ib; intuition (subst; reflexivity).
  - eexists _, _. split; [reflexivity|]. split; [reflexivity|exact Logic.I].
  - split; [eexists; split; [eexists; split; [apply occurs_node with (Leaf (Term (KArg 0 V) None None None [])); [left; reflexivity|constructor]|reflexivity]|intros t w H K; occ H; cbn in K; congruence]|home_of].
  - intros t w H K. occ H; cbn in K; congruence.
  - intros t n U H K. occ H; cbn in K; [injection K; lia|discriminate].
  - intros t id U k H K C. occ H; cbn in K; [discriminate|]. injection K as <-. elim (CO U k C).
Qed.

(** All hypotheses of C94_from_forms hold; so it applies, whatever the order in
    which sets are iterated. *)
Example C94_example ord sym : an_order ord ->
  exists N, forall fc, N <= fc -> exists M r,
    solve_forms (xii_assemble ex_w (modules ex_w ex_sp ex_mt) ord ex_dfa 4 []) ex_null 4 fc [2; 3] [ex_form; ex_back] [ex_load]
      ex_bcs (qz 2) sym = Ok (M, r) /\ nr M = 7 /\ nc M = 7 /\ length r = 7 /\
    forall us, map (@length Qc) us = [3; 4] ->
      (mv M (concat us) = r <->
       (forall k v, assigned [(0, qz 5)] k v -> vnth (concat us) k = v) /\
       (forall vs, map (@length Qc) vs = [3; 4] -> (forall k, constrained [(0, qz 5)] k -> vnth (concat vs) k = q0) ->
          qsum (map (fun x => integral_value ex_w ex_sp ex_mt ex_int [] (nth (fst (ex_a2 x)) vs []) (nth (snd (ex_a2 x)) us []) x) (ex_form ++ ex_back)) =
          qsum (map (fun x => integral_value ex_w ex_sp ex_mt ex_int [] (nth (ex_a1 x) vs []) [] x) ex_load))).
Proof.
  intros ORD.
  assert (P2 : at_pos [2; 3] 2 0) by (split; [reflexivity|intros k Hk; lia]).
  assert (P3 : at_pos [2; 3] 3 1) by (split; [reflexivity|intros k Hk; assert (k = 0) by lia; subst; discriminate]).
  destruct (C94_from_forms ex_w ex_valid ex_int ex_sp ex_mt ord ex_dfa ex_null [] 4 [2; 3] [ex_form; ex_back] [ex_load] ex_a2 ex_a1 ex_bcs (qz 2) sym) as (N & HN);
    try assumption.
  - exact ex_closed.
  - exact ex_reductions.
  - exact ex_plain.
  - discriminate.
  - intros V [<-|[<-|[] ] ]; cbn; lia.
  - intros f [<-|[<-|[<-|[] ] ] ]; discriminate.
  - intros x [<-|[<-|[<-|[] ] ] ].
    + exists 2, 3. split; [exact P2|]. split; [exact P3|]. split; [apply (fine_own0 _ _ _ _ _ _ _ C26_hypotheses_met); [left; reflexivity|noflux]|].
      split; [apply (fine_own1 _ _ _ _ _ _ _ C26_hypotheses_met); [left; reflexivity|noflux]|]. apply (fine_each _ _ _ _ _ _ _ C26_hypotheses_met). left. reflexivity.
    + exists 2, 3. split; [exact P2|]. split; [exact P3|]. split; [apply (fine_own0 _ _ _ _ _ _ _ C26_hypotheses_met); [right; left; reflexivity|noflux]|].
      split; [apply (fine_own1 _ _ _ _ _ _ _ C26_hypotheses_met); [right; left; reflexivity|noflux]|]. apply (fine_each _ _ _ _ _ _ _ C26_hypotheses_met). right. left. reflexivity.
    + exists 3, 2. split; [exact P3|]. split; [exact P2|]. split; [apply (fine_own0 _ _ _ _ _ _ _ ex_back_fine); [left; reflexivity|noflux]|].
      split; [apply (fine_own1 _ _ _ _ _ _ _ ex_back_fine); [left; reflexivity|noflux]|]. exact ex_back_fine.
  - intros x [<-|[] ]. exists 2. split; [exact P2|]. split; [apply (fine_own0 _ _ _ _ _ _ _ ex_load_fine); [left; reflexivity|noflux]|exact ex_load_fine].
  - intros V HV. assert (FN : form_fine ex_w ex_valid [] (Some V) None (ex_null V)) by (apply ex_null_fine; destruct HV as [<-|[<-|[] ] ]; cbn; lia).
    split; [assumption|]. split; [intros x [<-|[] ]; apply (fine_own0 _ _ _ _ _ _ _ FN); [left; reflexivity|noflux]|].
    intros x v u [<-|[] ]. unfold integral_value. cbn [fst snd evaluate map ex_int].
    replace (cfv (value (modules ex_w ex_sp ex_mt) (w_imesh ex_w V) [] v u (Term (KOther kz) None None None []))) with q0 by reflexivity.
    unfold q0. ring.
  - unfold ex_form, ex_back. cbn [concat app]. apart.
  - intros V HV. unfold ex_null, ex_load. cbn [concat app]. destruct HV as [<-|[<-|[] ] ]; apart.
  - intros x _. apply ex_fit.
  - intros i Hi. cbn in Hi. destruct i as [|[|i] ]; [| |lia].
    + eexists. split; [left; reflexivity|reflexivity].
    + eexists. split; [right; right; left; reflexivity|reflexivity].
  - intros i Hi. cbn in Hi. destruct i as [|[|i] ]; [| |lia].
    + eexists. split; [right; right; left; reflexivity|reflexivity].
    + eexists. split; [left; reflexivity|reflexivity].
  - intros x [ [<-|[<-|[<-|[] ] ] ]|[ [<-|[] ]|(V & _ & [<-|[] ])] ]; cbn; lia.
  - split; [reflexivity|]. repeat constructor.
  - discriminate.
  - intros k [<-|[] ]. cbn. lia.
  - discriminate.
  - exists N. exact HN.
Qed.
Example C94_example_runs :
  (do Mr <- solve_forms (xii_assemble ex_w (modules ex_w ex_sp ex_mt) (fun l => l) ex_dfa 4 []) ex_null 4 9 [2; 3] [ex_form; ex_back] [ex_load]
      ex_bcs (qz 2) true;
   Ok (map (map this) (to_rows (fst Mr)), map this (snd Mr))) =
  Ok ([ [2; 0; 0; 0; 0; 0; 0]; [0; 0; 0; 1893; 2753; 3613; 4473]; [0; 0; 0; 2481; 3613; 4745; 5877];
        [0; 21; 33; 0; 0; 0; 0]; [0; 49; 77; 0; 0; 0; 0]; [0; 77; 121; 0; 0; 0; 0]; [0; 105; 165; 0; 0; 0; 0] ],
      [10; 14; 22; -45; -105; -165; -225])%Q.
Proof. vm_compute. reflexivity. Qed.

Print Assumptions C94_linear_system.
Print Assumptions C94_no_conditions.
Print Assumptions C94_from_forms.
