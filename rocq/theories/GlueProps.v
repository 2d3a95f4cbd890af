(** C125: a function is glued on the interface from pieces that know only a part of it. *)
From Coq Require Import List Arith ZArith Reals Lra Lia Bool.
From Verif Require Import GlueModel GlueProofs.
Import ListNotations.
Local Open Scope R_scope.

(** The interfaces are what the drawing in the script shows. *)
Section Interface.
Variables (n : nat) (tol : Z).
Hypothesis N : (0 < n)%nat.
Hypothesis T : (6 * Z.of_nat n <= tol)%Z.

Lemma in1 a b : inside_all n (iface1 tol) [a; b] = true <-> for_edge (fun x y d => 2 * x = d /\ d <= 2 * y)%Z n a b.
Proof. apply edge_inside. intros p D. apply iface1_iff; lia. Qed.
Lemma in2 a b : inside_all n (iface2 tol) [a; b] = true <-> for_edge (fun x y d => x = y /\ 2 * x <= d)%Z n a b.
Proof. apply edge_inside. intros p D. apply iface2_iff; lia. Qed.
Lemma in3 a b : inside_all n (iface3 tol) [a; b] = true <-> for_edge (fun x y d => 2 * y = d /\ d <= 2 * x)%Z n a b.
Proof. apply edge_inside. intros p D. apply iface3_iff; lia. Qed.
Lemma dom0 a b c : inside_all n (domain0 tol) [a; b; c] = true <-> for_cell (fun x y d => 2 * x <= d /\ x <= y)%Z n a b c.
Proof. apply cell_inside. intros p D. apply domain0_iff; lia. Qed.
Lemma dom1 a b c : inside_all n (domain1 tol) [a; b; c] = true <-> for_cell (fun x y d => 2 * y <= d /\ y <= x)%Z n a b c.
Proof. apply cell_inside. intros p D. apply domain1_iff; lia. Qed.
Lemma dom2 a b c : inside_all n (domain2 tol) [a; b; c] = true <-> for_cell (fun x y d => d <= 2 * x /\ d <= 2 * y)%Z n a b c.
Proof. apply cell_inside. intros p D. apply domain2_iff; lia. Qed.

Lemma decide_to (b : bool) (P : Prop) : (b = true <-> P) -> (b = true /\ P) \/ (b = false /\ ~ P).
Proof. destruct b; intuition congruence. Qed.

Lemma pieces_in e t : In (e, t) (pieces_iface n tol) <-> on_pieces n e t.
Proof.
  unfold pieces_iface. rewrite embedded_in, edges_in. unfold on_pieces, ends. cbn [marked iface_tags]. split.
  - intros ((i & j & H) & Et & Ht).
    destruct H as [(-> & A & B)|[(-> & A & B)|(-> & A & B)] ]; cbn [fst snd] in Et;
    [set (a := (i, j)) in *; set (b := (S i, j)) in * | set (a := (i, j)) in *; set (b := (i, S j)) in * | set (a := (i, j)) in *; set (b := (S i, S j)) in *];
    (destruct (decide_to _ _ (in3 a b)) as [ [E3 C3]|[E3 C3] ]; rewrite E3 in Et;
    [|destruct (decide_to _ _ (in2 a b)) as [ [E2 C2]|[E2 C2] ]; rewrite E2 in Et;
    [|destruct (decide_to _ _ (in1 a b)) as [ [E1 C1]|[E1 C1] ]; rewrite E1 in Et; [|subst t; cbn in Ht; intuition discriminate] ] ]);
    unfold for_edge, a, b in *; cbn [fst snd] in *.
    all: try (exfalso; lia).
    + exists i, j. split; [lia|]. split; [lia|]. right. right. split; [assumption|]. split; [reflexivity|]. lia.
    + exists i, j. split; [lia|]. split; [lia|]. left. split; [assumption|]. split; [reflexivity|]. lia.
    + assert (j = i) by lia. subst j. exists i, i. split; [lia|]. split; [lia|]. right. left. split; [assumption|]. split; [reflexivity|]. lia.
  - intros (i & j & A & B & H). destruct H as [(-> & -> & C & D & E)|[(-> & -> & C)|(-> & -> & C & D & E)] ]; cbn [fst snd].
    + split; [exists i, j; right; left; split; [reflexivity|lia]|]. split; [|left; reflexivity].
      rewrite (proj2 (in1 (i, j) (i, S j))) by (unfold for_edge; cbn [fst snd]; lia).
      destruct (decide_to _ _ (in2 (i, j) (i, S j))) as [ [_ X]|[-> _] ]; [unfold for_edge in X; cbn [fst snd] in X; exfalso; lia|].
      destruct (decide_to _ _ (in3 (i, j) (i, S j))) as [ [_ X]|[-> _] ]; [unfold for_edge in X; cbn [fst snd] in X; exfalso; lia|]. reflexivity.
    + split; [exists i, i; right; right; split; [reflexivity|lia]|]. split; [|right; left; reflexivity].
      rewrite (proj2 (in2 (i, i) (S i, S i))) by (unfold for_edge; cbn [fst snd]; lia).
      destruct (decide_to _ _ (in3 (i, i) (S i, S i))) as [ [_ X]|[-> _] ]; [unfold for_edge in X; cbn [fst snd] in X; exfalso; lia|]. reflexivity.
    + split; [exists i, j; left; split; [reflexivity|lia]|]. split; [|right; right; left; reflexivity].
      rewrite (proj2 (in3 (i, j) (S i, j))) by (unfold for_edge; cbn [fst snd]; lia). reflexivity.
Qed.

Lemma side_iff inside P : (forall p, inside p = true <-> P (px p) (py p) (pd p)) -> forall a b, inside_all n inside [a; b] = true <-> for_edge P n a b.
Proof. intros H a b. apply edge_inside. intros p _. apply H. Qed.
Lemma sides_in e t : In (e, t) (square_iface n) <-> on_sides n e t.
Proof.
  assert (S1 : forall a b, inside_all n side1 [a; b] = true <-> for_edge (fun x y d => x = 0)%Z n a b) by (apply side_iff; intros p; apply Z.eqb_eq).
  assert (S2 : forall a b, inside_all n side2 [a; b] = true <-> for_edge (fun x y d => y = d)%Z n a b) by (apply side_iff; intros p; apply Z.eqb_eq).
  assert (S3 : forall a b, inside_all n side3 [a; b] = true <-> for_edge (fun x y d => x = d)%Z n a b) by (apply side_iff; intros p; apply Z.eqb_eq).
  assert (S4 : forall a b, inside_all n side4 [a; b] = true <-> for_edge (fun x y d => y = 0)%Z n a b) by (apply side_iff; intros p; apply Z.eqb_eq).
  unfold square_iface. rewrite embedded_in, edges_in. unfold on_sides, ends. cbn [marked side_tags]. split.
  - intros ((i & j & H) & Et & Ht).
    destruct H as [(-> & A & B)|[(-> & A & B)|(-> & A & B)] ]; cbn [fst snd] in Et;
    [set (a := (i, j)) in *; set (b := (S i, j)) in * | set (a := (i, j)) in *; set (b := (i, S j)) in * | set (a := (i, j)) in *; set (b := (S i, S j)) in *];
    (destruct (decide_to _ _ (S4 a b)) as [ [E4 C4]|[E4 C4] ]; rewrite E4 in Et;
    [|destruct (decide_to _ _ (S3 a b)) as [ [E3 C3]|[E3 C3] ]; rewrite E3 in Et;
    [|destruct (decide_to _ _ (S2 a b)) as [ [E2 C2]|[E2 C2] ]; rewrite E2 in Et;
    [|destruct (decide_to _ _ (S1 a b)) as [ [E1 C1]|[E1 C1] ]; rewrite E1 in Et; [|subst t; cbn in Ht; intuition discriminate] ] ] ]);
    unfold for_edge, a, b in *; cbn [fst snd] in *.
    all: try (exfalso; lia).
    + assert (j = 0)%nat by lia. subst j. exists i. split; [lia|]. right. right. right. auto.
    + assert (j = n) by lia. subst j. exists i. split; [lia|]. right. left. auto.
    + assert (i = n) by lia. subst i. exists j. split; [lia|]. right. right. left. auto.
    + assert (i = 0)%nat by lia. subst i. exists j. split; [lia|]. left. auto.
  - intros (k & K & H). destruct H as [(-> & ->)|[(-> & ->)|[(-> & ->)|(-> & ->)] ] ]; cbn [fst snd].
    + split; [exists 0%nat, k; right; left; split; [reflexivity|lia]|]. split; [|left; reflexivity].
      rewrite (proj2 (S1 (0%nat, k) (0%nat, S k))) by (unfold for_edge; cbn [fst snd]; lia).
      destruct (decide_to _ _ (S2 (0%nat, k) (0%nat, S k))) as [ [_ X]|[-> _] ]; [unfold for_edge in X; cbn [fst snd] in X; exfalso; lia|].
      destruct (decide_to _ _ (S3 (0%nat, k) (0%nat, S k))) as [ [_ X]|[-> _] ]; [unfold for_edge in X; cbn [fst snd] in X; exfalso; lia|].
      destruct (decide_to _ _ (S4 (0%nat, k) (0%nat, S k))) as [ [_ X]|[-> _] ]; [unfold for_edge in X; cbn [fst snd] in X; exfalso; lia|]. reflexivity.
    + split; [exists k, n; left; split; [reflexivity|lia]|]. split; [|right; left; reflexivity].
      rewrite (proj2 (S2 (k, n) (S k, n))) by (unfold for_edge; cbn [fst snd]; lia).
      destruct (decide_to _ _ (S3 (k, n) (S k, n))) as [ [_ X]|[-> _] ]; [unfold for_edge in X; cbn [fst snd] in X; exfalso; lia|].
      destruct (decide_to _ _ (S4 (k, n) (S k, n))) as [ [_ X]|[-> _] ]; [unfold for_edge in X; cbn [fst snd] in X; exfalso; lia|]. reflexivity.
    + split; [exists n, k; right; left; split; [reflexivity|lia]|]. split; [|right; right; left; reflexivity].
      rewrite (proj2 (S3 (n, k) (n, S k))) by (unfold for_edge; cbn [fst snd]; lia).
      destruct (decide_to _ _ (S4 (n, k) (n, S k))) as [ [_ X]|[-> _] ]; [unfold for_edge in X; cbn [fst snd] in X; exfalso; lia|]. reflexivity.
    + split; [exists k, 0%nat; left; split; [reflexivity|lia]|]. split; [|right; right; right; left; reflexivity].
      rewrite (proj2 (S4 (k, 0%nat) (S k, 0%nat))) by (unfold for_edge; cbn [fst snd]; lia). reflexivity.
Qed.

(** ** The vertices of an edge of the interface belong to the mesh of its piece *)
Lemma sub_in c tag v : In c (cells n) -> marked n c (domain_tags tol) 0 = tag -> In v c -> In v (sub_vertices n (domain_tags tol) tag).
Proof.
  intros Hc E Hv. unfold sub_vertices. apply in_concat. exists c. split; [|assumption]. apply filter_In. split; [assumption|]. apply Nat.eqb_eq. assumption.
Qed.
Lemma piece_known e t : on_pieces n e t -> In (fst e) (sub_vertices n (domain_tags tol) (t - 1)) /\ In (snd e) (sub_vertices n (domain_tags tol) (t - 1)).
Proof.
  intros (i & j & A & B & H). destruct H as [(-> & -> & C & D & E)|[(-> & -> & C)|(-> & -> & C & D & E)] ]; cbn [fst snd Nat.sub].
  - destruct i as [|i]; [lia|].
    assert (Hc : In (lower (i, j)) (cells n)) by (apply cells_in; lia).
    assert (M : marked n (lower (i, j)) (domain_tags tol) 0 = 0%nat).
    { cbn [marked domain_tags lower]. change (nat * nat)%type with vertex.
      destruct (decide_to _ _ (dom0 (i, j) (S i, j) (S i, S j))) as [ [-> _]|[_ X] ]; [|exfalso; apply X; unfold for_cell; cbn [fst snd]; lia].
      destruct (decide_to _ _ (dom1 (i, j) (S i, j) (S i, S j))) as [ [_ X]|[-> _] ]; [unfold for_cell in X; cbn [fst snd] in X; exfalso; lia|].
      destruct (decide_to _ _ (dom2 (i, j) (S i, j) (S i, S j))) as [ [_ X]|[-> _] ]; [unfold for_cell in X; cbn [fst snd] in X; exfalso; lia|]. reflexivity. }
    split; apply (sub_in _ _ _ Hc M); cbn; auto.
  - assert (Hc : In (lower (i, i)) (cells n)) by (apply cells_in; lia).
    assert (M : marked n (lower (i, i)) (domain_tags tol) 0 = 1%nat).
    { cbn [marked domain_tags lower]. change (nat * nat)%type with vertex.
      destruct (decide_to _ _ (dom1 (i, i) (S i, i) (S i, S i))) as [ [-> _]|[_ X] ]; [|exfalso; apply X; unfold for_cell; cbn [fst snd]; lia].
      destruct (decide_to _ _ (dom2 (i, i) (S i, i) (S i, S i))) as [ [_ X]|[-> _] ]; [unfold for_cell in X; cbn [fst snd] in X; exfalso; lia|]. reflexivity. }
    split; apply (sub_in _ _ _ Hc M); cbn; auto.
  - assert (Hc : In (lower (i, j)) (cells n)) by (apply cells_in; lia).
    assert (M : marked n (lower (i, j)) (domain_tags tol) 0 = 2%nat).
    { cbn [marked domain_tags lower]. change (nat * nat)%type with vertex.
      destruct (decide_to _ _ (dom2 (i, j) (S i, j) (S i, S j))) as [ [-> _]|[_ X] ]; [|exfalso; apply X; unfold for_cell; cbn [fst snd]; lia]. reflexivity. }
    split; apply (sub_in _ _ _ Hc M); cbn; auto.
Qed.
Lemma side_known e t : on_sides n e t -> In (fst e) (concat (cells n)) /\ In (snd e) (concat (cells n)).
Proof.
  clear tol T.
  assert (V : forall i j, (i <= n)%nat -> (j <= n)%nat -> In (i, j) (concat (cells n))).
  { intros i j A B. apply in_concat.
    destruct (Nat.eq_dec i n) as [->|Ei], (Nat.eq_dec j n) as [->|Ej].
    - destruct n as [|m]; [lia|]. exists (lower (m, m)). split; [apply cells_in; lia|cbn; auto].
    - destruct n as [|m]; [lia|]. exists (lower (m, j)). split; [apply cells_in; lia|cbn; auto].
    - destruct n as [|m]; [lia|]. exists (upper (i, m)). split; [apply cells_in; lia|cbn; auto].
    - exists (lower (i, j)). split; [apply cells_in; lia|cbn; auto]. }
  intros (k & K & H). destruct H as [(-> & ->)|[(-> & ->)|[(-> & ->)|(-> & ->)] ] ]; cbn [fst snd]; split; apply V; lia.
Qed.
End Interface.

(** The interface of the second part is the drawing (56-59), for every number of squares. *)
Theorem C125_interface n tol : (0 < n)%nat -> (6 * Z.of_nat n <= tol)%Z ->
  (forall e t, In (e, t) (pieces_iface n tol) <-> on_pieces n e t) /\ (forall e t, In (e, t) (square_iface n) <-> on_sides n e t).
Proof. intros N T. split; intros e t; [apply pieces_in; assumption|apply sides_in; assumption]. Qed.

(** The system of the second part has the function that was cut into pieces for
    its only solution, whatever the traces give outside of their pieces. *)
Theorem C125_glued n tol f out : (0 < n)%nat -> (6 * Z.of_nat n <= tol)%Z ->
  (forall q, mass n (pieces_iface n tol) f q = pieces_load n tol f out q) /\
  forall u, (forall q, mass n (pieces_iface n tol) u q = pieces_load n tol f out q) ->
    forall e t, on_pieces n e t -> u (fst e) = f (fst e) /\ u (snd e) = f (snd e).
Proof.
  intros N T. destruct (glue n (pieces_iface n tol) [1; 2; 3]%nat (fun t => trace (sub_vertices n (domain_tags tol) (t - 1)) f (out t)) f) as [A B].
  - intros [e t] H. apply embedded_in in H as (H & _). apply len_pos; assumption.
  - repeat constructor; cbn; intuition lia.
  - intros [e t] H. apply embedded_in in H as (_ & _ & H). exact H.
  - intros [e t] H. apply pieces_in in H; try assumption. cbn [fst snd]. apply trace_known; eapply piece_known; eassumption.
  - split; [exact A|]. intros u Hu e t H. apply (B u Hu (e, t)). apply pieces_in; assumption.
Qed.
(** With tags the right hand side is the same. *)
Theorem C125_tagged n tol f out q : tagged_load n tol f out q = pieces_load n tol f out q.
Proof.
  unfold tagged_load, pieces_load, load. apply total_ext. intros t _. apply total_ext. intros p Hp. apply filter_In in Hp as [Hp Et].
  unfold tagged. replace (existsb _ (pieces_iface n tol)) with true; [reflexivity|]. symmetry. apply existsb_exists. exists p. split; [assumption|].
  rewrite !andb_true_iff, !vertex_eqb_eq. auto.
Qed.
(** The first part: one function, four sides. *)
Theorem C125_square n f out : (0 < n)%nat ->
  (forall q, mass n (square_iface n) f q = square_load n f out q) /\
  forall u, (forall q, mass n (square_iface n) u q = square_load n f out q) ->
    forall e t, on_sides n e t -> u (fst e) = f (fst e) /\ u (snd e) = f (snd e).
Proof.
  intros N. destruct (glue n (square_iface n) [1; 2; 3; 4]%nat (fun _ => trace (concat (cells n)) f out) f) as [A B].
  - intros [e t] H. apply embedded_in in H as (H & _). apply len_pos; assumption.
  - repeat constructor; cbn; intuition lia.
  - intros [e t] H. apply embedded_in in H as (_ & _ & H). exact H.
  - intros [e t] H. apply sides_in in H; try assumption. cbn [fst snd]. apply trace_known; [apply (proj1 (side_known n N e t H))|apply (proj2 (side_known n N e t H))].
  - split; [exact A|]. intros u Hu e t H. apply (B u Hu (e, t)). apply sides_in; assumption.
Qed.

(** In a mesh with an even number of squares every cell is inside of exactly one
    of the domains, and carries its tag. *)
Theorem C125_domains n m tol c : n = (2 * m)%nat -> (0 < n)%nat -> (6 * Z.of_nat n <= tol)%Z -> In c (cells n) ->
  exists k, marked n c (domain_tags tol) 0 = k /\ forall j inside, nth_error [domain0 tol; domain1 tol; domain2 tol] j = Some inside -> (inside_all n inside c = true <-> j = k).
Proof.
  intros E N T Hc. unfold cells in Hc. apply in_flat_map in Hc as ([i j] & Hs & Hc). apply in_prod_iff in Hs as [Hi Hj]. apply in_seq in Hi. apply in_seq in Hj.
  assert (G : forall c, (inside_all n (domain0 tol) c = true /\ inside_all n (domain1 tol) c = false /\ inside_all n (domain2 tol) c = false) \/
    (inside_all n (domain0 tol) c = false /\ inside_all n (domain1 tol) c = true /\ inside_all n (domain2 tol) c = false) \/
    (inside_all n (domain0 tol) c = false /\ inside_all n (domain1 tol) c = false /\ inside_all n (domain2 tol) c = true) ->
    exists k, marked n c (domain_tags tol) 0 = k /\ forall l inside, nth_error [domain0 tol; domain1 tol; domain2 tol] l = Some inside -> (inside_all n inside c = true <-> l = k)).
  { intros d H. cbn [marked domain_tags].
    destruct H as [(D0 & D1 & D2)|[(D0 & D1 & D2)|(D0 & D1 & D2)] ]; rewrite D0, D1, D2; (eexists; split; [reflexivity|]).
    all: intros l inside; destruct l as [|[|[|l] ] ]; cbn [nth_error]; intros Y; try (destruct l; discriminate Y); injection Y as <-.
    all: split; congruence. }
  apply G. destruct Hc as [<-|[<-|[] ] ]; cbn [lower upper]; change (nat * nat)%type with vertex.
  - destruct (decide_to _ _ (dom0 n tol N T (i, j) (S i, j) (S i, S j))) as [ [-> X0]|[-> X0] ];
    destruct (decide_to _ _ (dom1 n tol N T (i, j) (S i, j) (S i, S j))) as [ [-> X1]|[-> X1] ];
    destruct (decide_to _ _ (dom2 n tol N T (i, j) (S i, j) (S i, S j))) as [ [-> X2]|[-> X2] ]; unfold for_cell in *; cbn [fst snd] in *; intuition lia.
  - destruct (decide_to _ _ (dom0 n tol N T (i, j) (i, S j) (S i, S j))) as [ [-> X0]|[-> X0] ];
    destruct (decide_to _ _ (dom1 n tol N T (i, j) (i, S j) (S i, S j))) as [ [-> X1]|[-> X1] ];
    destruct (decide_to _ _ (dom2 n tol N T (i, j) (i, S j) (S i, S j))) as [ [-> X2]|[-> X2] ]; unfold for_cell in *; cbn [fst snd] in *; intuition lia.
Qed.
(** With an odd number a cell is inside of none and gets the tag of domain 0, that
    the function of tags starts with; the interface is then a line on the diagonal
    that does not reach the midpoint. *)
Theorem C125_odd : exists n tol c, (0 < n)%nat /\ (6 * Z.of_nat n <= tol)%Z /\ In c (cells n) /\
  inside_all n (domain0 tol) c = false /\ inside_all n (domain1 tol) c = false /\ inside_all n (domain2 tol) c = false /\
  marked n c (domain_tags tol) 0 = 0%nat /\ (forall e t, In (e, t) (pieces_iface n tol) -> t = 2%nat).
Proof.
  exists 3%nat, 18%Z, (lower (1, 1))%nat. split; [lia|]. split; [lia|]. split; [apply cells_in; lia|].
  split; [reflexivity|]. split; [reflexivity|]. split; [reflexivity|]. split; [reflexivity|].
  intros e t H. apply pieces_in in H; [|lia|lia]. destruct H as (i & j & _ & _ & [(_ & _ & C & _)|[(-> & _)|(_ & _ & C & _)] ]); lia.
Qed.

(** ** The script: n = 32 and tol = 1E-10, f = 2 y - 3 x *)
Definition script_f (v : vertex) : R := 2 * (INR (snd v) / 32) - 3 * (INR (fst v) / 32).
Example C125_script out : forall u, (forall q, mass 32 (pieces_iface 32 (10 ^ 10)) u q = pieces_load 32 (10 ^ 10) script_f out q) ->
  u (16, 20)%nat = - (1 / 4) /\ u (3, 3)%nat = - (3 / 32) /\ u (32, 16)%nat = - 2.
Proof.
  intros u H. destruct (C125_glued 32 (10 ^ 10) script_f out ltac:(lia) ltac:(lia)) as [_ G]. specialize (G u H).
  assert (A := G ((16, 20), (16, 21))%nat 1%nat). assert (B := G ((3, 3), (4, 4))%nat 2%nat). assert (C := G ((31, 16), (32, 16))%nat 3%nat). cbn [fst snd] in *.
  split; [|split].
  - rewrite (proj1 (A ltac:(exists 16%nat, 20%nat; split; [lia|split; [lia|left; repeat split; lia] ]))). unfold script_f. cbn [fst snd]. rewrite !INR_IZR_INZ. cbn. lra.
  - rewrite (proj1 (B ltac:(exists 3%nat, 3%nat; split; [lia|split; [lia|right; left; repeat split; lia] ]))). unfold script_f. cbn [fst snd]. rewrite !INR_IZR_INZ. cbn. lra.
  - rewrite (proj2 (C ltac:(exists 31%nat, 16%nat; split; [lia|split; [lia|right; right; repeat split; lia] ]))). unfold script_f. cbn [fst snd]. rewrite !INR_IZR_INZ. cbn. lra.
Qed.
Example C125_interface_runs : pieces_iface 2 12 = [((1, 1), (2, 1), 3); ((1, 1), (1, 2), 1); ((0, 0), (1, 1), 2)]%nat /\ length (square_iface 2) = 8%nat.
Proof. split; reflexivity. Qed.

Print Assumptions C125_interface.
Print Assumptions C125_glued.
Print Assumptions C125_tagged.
Print Assumptions C125_square.
Print Assumptions C125_domains.
Print Assumptions C125_odd.
