(** Proofs for GlueModel.v. *)
From Coq Require Import List Arith ZArith Reals Lra Lia Bool Psatz.
From Verif Require Import GlueModel.
Import ListNotations.
Local Open Scope R_scope.

(** ** Specification vocabulary *)

(** The interface of the three pieces: a vertical line from the midpoint to the
    top, a line on the diagonal from the corner to the midpoint and a horizontal
    line from the midpoint to the right *)
Definition on_pieces (n : nat) (e : edge) (t : nat) : Prop :=
  exists i j, (i <= n)%nat /\ (j <= n)%nat /\
  ((t = 1%nat /\ e = ((i, j), (i, S j)) /\ (2 * i = n)%nat /\ (n <= 2 * j)%nat /\ (j < n)%nat) \/
   (t = 2%nat /\ e = ((i, i), (S i, S i)) /\ (2 * S i <= n)%nat) \/
   (t = 3%nat /\ e = ((i, j), (S i, j)) /\ (2 * j = n)%nat /\ (n <= 2 * i)%nat /\ (i < n)%nat)).
(** The boundary of the square *)
Definition on_sides (n : nat) (e : edge) (t : nat) : Prop :=
  exists k, (k < n)%nat /\
  ((t = 1%nat /\ e = ((0, k), (0, S k))%nat) \/ (t = 2%nat /\ e = ((k, n), (S k, n))) \/
   (t = 3%nat /\ e = ((n, k), (n, S k))) \/ (t = 4%nat /\ e = ((k, 0), (S k, 0))%nat)).

(** ** Sums *)
Lemma total_app a b : total (a ++ b) = total a + total b.
Proof. induction a; cbn; lra. Qed.
Lemma total_ext {X} (g h : X -> R) l : (forall x, In x l -> g x = h x) -> total (map g l) = total (map h l).
Proof. induction l; cbn; intros H; [reflexivity|]. rewrite H, IHl by auto. reflexivity. Qed.
Lemma total_minus {X} (g h : X -> R) l : total (map g l) - total (map h l) = total (map (fun x => g x - h x) l).
Proof. induction l; cbn; lra. Qed.
Lemma total_zero {X} (g : X -> R) l : (forall x, In x l -> 0 <= g x) -> total (map g l) = 0 -> forall x, In x l -> g x = 0.
Proof.
  intros P. assert (Q : forall m, (forall x, In x m -> 0 <= g x) -> 0 <= total (map g m)).
  { induction m; cbn; intros H; [lra|]. assert (0 <= g a) by auto. assert (0 <= total (map g m)) by auto. lra. }
  induction l; cbn; intros H x; [tauto|]. assert (0 <= g a) by (apply P; left; reflexivity). assert (0 <= total (map g l)) by (apply Q; intros; apply P; right; assumption).
  intros [<-|Hx]; [lra|]. apply IHl; auto; [intros; apply P; right; assumption|lra].
Qed.

(** Splitting a sum by tags *)
Lemma by_tags (g : nat -> edge * nat -> R) (mesh : list (edge * nat)) tags : NoDup tags -> (forall p, In p mesh -> In (snd p) tags) ->
  total (map (fun t => total (map (g t) (filter (fun p => (snd p =? t)%nat) mesh))) tags) = total (map (fun p => g (snd p) p) mesh).
Proof.
  intros ND. induction mesh as [|p mesh IH]; intros C; cbn [filter map].
  - clear. induction tags as [|t tags IH]; cbn; [reflexivity|]. cbn in IH. rewrite IH. lra.
  - cbn [total]. rewrite <- IH by (intros; apply C; right; assumption). clear IH. assert (Hp : In (snd p) tags) by (apply C; left; reflexivity). clear C.
    induction tags as [|t tags IHt]; [destruct Hp|]. inversion ND as [|x y N1 N2]; subst. cbn [map total]. destruct (Nat.eqb_spec (snd p) t) as [E|E].
    + cbn [map total]. assert (X : total (map (fun s => total (map (g s) (if (snd p =? s)%nat then p :: filter (fun q => (snd q =? s)%nat) mesh else filter (fun q => (snd q =? s)%nat) mesh))) tags) =
        total (map (fun s => total (map (g s) (filter (fun q => (snd q =? s)%nat) mesh))) tags)).
      { apply total_ext. intros s Hs. destruct (Nat.eqb_spec (snd p) s); [|reflexivity]. exfalso. apply N1. congruence. }
      rewrite X, <- E. lra.
    + destruct Hp as [Hp|Hp]; [congruence|]. rewrite IHt by assumption. lra.
Qed.

(** ** The system *)
Lemma product_minus h a b c d q0 q1 : product h a b q0 q1 - product h c d q0 q1 = product h (a - c) (b - d) q0 q1.
Proof. unfold product. field. Qed.
Lemma product_nonneg h a b : 0 < h -> 0 <= product h a b a b.
Proof. intros H. unfold product. assert (0 <= 2 * a * a + a * b + b * a + 2 * b * b) by nra. apply Rmult_le_pos; lra. Qed.
Lemma product_zero h a b : 0 < h -> product h a b a b = 0 -> a = 0 /\ b = 0.
Proof.
  intros H E. unfold product in E. assert (X : 2 * a * a + a * b + b * a + 2 * b * b = 0).
  { apply Rmult_integral in E as [E|E]; lra. }
  assert (a * a + b * b + (a + b) * (a + b) = 0) by lra. assert (0 <= a * a) by nra. assert (0 <= b * b) by nra. assert (0 <= (a + b) * (a + b)) by nra.
  split; apply Rsqr_0_uniq; unfold Rsqr; lra.
Qed.

(** An interface with edges of positive length, tags that are all summed over once, and traces with the values of [f] on their own tag *)
Lemma glue n mesh tags traces f : (forall p, In p mesh -> 0 < len n (fst p)) -> NoDup tags -> (forall p, In p mesh -> In (snd p) tags) ->
  (forall p, In p mesh -> traces (snd p) (fst p) = (f (fst (fst p)), f (snd (fst p)))) ->
  (forall q, mass n mesh f q = load n mesh tags traces q) /\
  forall u, (forall q, mass n mesh u q = load n mesh tags traces q) -> forall p, In p mesh -> u (fst (fst p)) = f (fst (fst p)) /\ u (snd (fst p)) = f (snd (fst p)).
Proof.
  intros P ND C T.
  assert (F : forall q, mass n mesh f q = load n mesh tags traces q).
  { intros q. unfold mass, load. rewrite (by_tags (fun t p => product (len n (fst p)) (fst (traces t (fst p))) (snd (traces t (fst p))) (q (fst (fst p))) (q (snd (fst p))))) by assumption.
    apply total_ext. intros p Hp. rewrite (T p Hp). reflexivity. }
  split; [assumption|]. intros u H p Hp.
  assert (E : mass n mesh u (fun v => u v - f v) - mass n mesh f (fun v => u v - f v) = 0) by (rewrite H, F; lra).
  unfold mass in E. rewrite total_minus in E.
  assert (E' : total (map (fun p => product (len n (fst p)) (u (fst (fst p)) - f (fst (fst p))) (u (snd (fst p)) - f (snd (fst p)))
      (u (fst (fst p)) - f (fst (fst p))) (u (snd (fst p)) - f (snd (fst p)))) mesh) = 0).
  { rewrite <- E. apply total_ext. intros x _. rewrite product_minus. reflexivity. }
  assert (Z := total_zero _ _ (fun x Hx => product_nonneg _ _ _ (P x Hx)) E' p Hp). cbn beta in Z.
  apply product_zero in Z; [|auto]. lra.
Qed.

(** ** Points *)
Section Points.
Variable tol : Z.
Local Open Scope Z_scope.
Lemma x_below_iff p : 0 < pd p -> 2 * pd p <= tol -> (x_below tol p = true <-> 2 * px p <= pd p).
Proof. intros D T. unfold x_below. rewrite Z.ltb_lt. split; intros H; nia. Qed.
Lemma y_below_iff p : 0 < pd p -> 2 * pd p <= tol -> (y_below tol p = true <-> 2 * py p <= pd p).
Proof. intros D T. unfold y_below. rewrite Z.ltb_lt. split; intros H; nia. Qed.
Lemma x_above_iff p : 0 < pd p -> 2 * pd p <= tol -> (x_above tol p = true <-> pd p <= 2 * px p).
Proof. intros D T. unfold x_above. rewrite Z.ltb_lt. split; intros H; nia. Qed.
Lemma y_above_iff p : 0 < pd p -> 2 * pd p <= tol -> (y_above tol p = true <-> pd p <= 2 * py p).
Proof. intros D T. unfold y_above. rewrite Z.ltb_lt. split; intros H; nia. Qed.
Lemma domain0_iff p : 0 < pd p -> 2 * pd p <= tol -> (domain0 tol p = true <-> 2 * px p <= pd p /\ px p <= py p).
Proof. intros D T. unfold domain0. rewrite andb_true_iff, x_below_iff, Z.ltb_lt by assumption. split; intros [A B]; split; nia. Qed.
Lemma domain1_iff p : 0 < pd p -> 2 * pd p <= tol -> (domain1 tol p = true <-> 2 * py p <= pd p /\ py p <= px p).
Proof. intros D T. unfold domain1. rewrite andb_true_iff, y_below_iff, Z.ltb_lt by assumption. split; intros [A B]; split; nia. Qed.
Lemma domain2_iff p : 0 < pd p -> 2 * pd p <= tol -> (domain2 tol p = true <-> pd p <= 2 * px p /\ pd p <= 2 * py p).
Proof. intros D T. unfold domain2. rewrite andb_true_iff, x_above_iff, y_above_iff by assumption. reflexivity. Qed.
Lemma iface1_iff p : 0 < pd p -> 2 * pd p <= tol -> (iface1 tol p = true <-> 2 * px p = pd p /\ pd p <= 2 * py p).
Proof. intros D T. unfold iface1. rewrite andb_true_iff, y_above_iff, Z.eqb_eq by assumption. reflexivity. Qed.
Lemma iface2_iff p : 0 < pd p -> 2 * pd p <= tol -> (iface2 tol p = true <-> px p = py p /\ 2 * px p <= pd p).
Proof. intros D T. unfold iface2. rewrite andb_true_iff, x_below_iff, Z.eqb_eq by assumption. reflexivity. Qed.
Lemma iface3_iff p : 0 < pd p -> 2 * pd p <= tol -> (iface3 tol p = true <-> 2 * py p = pd p /\ pd p <= 2 * px p).
Proof. intros D T. unfold iface3. rewrite andb_true_iff, x_above_iff, Z.eqb_eq by assumption. reflexivity. Qed.
End Points.

(** All points of an entity *)
Lemma inside_all_iff n inside l : inside_all n inside l = true <-> (forall v, In v l -> inside (at_vertex n v) = true) /\ inside (midpoint n l) = true.
Proof. unfold inside_all. rewrite andb_true_iff, forallb_forall. reflexivity. Qed.

Definition for_edge (P : Z -> Z -> Z -> Prop) (n : nat) (a b : vertex) : Prop :=
  P (Z.of_nat (fst a)) (Z.of_nat (snd a)) (Z.of_nat n) /\ P (Z.of_nat (fst b)) (Z.of_nat (snd b)) (Z.of_nat n) /\
  P (Z.of_nat (fst a) + Z.of_nat (fst b))%Z (Z.of_nat (snd a) + Z.of_nat (snd b))%Z (2 * Z.of_nat n)%Z.
Lemma edge_inside n inside P a b : (forall p, pd p = Z.of_nat n \/ pd p = (2 * Z.of_nat n)%Z -> inside p = true <-> P (px p) (py p) (pd p)) ->
  inside_all n inside [a; b] = true <-> for_edge P n a b.
Proof.
  intros H. rewrite inside_all_iff. unfold for_edge.
  assert (HM : inside (midpoint n [a; b]) = true <-> P (Z.of_nat (fst a) + Z.of_nat (fst b))%Z (Z.of_nat (snd a) + Z.of_nat (snd b))%Z (2 * Z.of_nat n)%Z).
  { rewrite H by (right; reflexivity). unfold midpoint. cbn [px py pd map fold_right length]. rewrite !Z.add_0_r. reflexivity. }
  rewrite HM. split.
  - intros [A B]. split; [|split; [|assumption] ].
    + apply (H (at_vertex n a)); [left; reflexivity|]. apply A. left. reflexivity.
    + apply (H (at_vertex n b)); [left; reflexivity|]. apply A. right. left. reflexivity.
  - intros (A & B & C). split; [|assumption]. intros v [<-|[<-|[] ] ]; apply H; try (left; reflexivity); assumption.
Qed.
Definition for_cell (P : Z -> Z -> Z -> Prop) (n : nat) (a b c : vertex) : Prop :=
  P (Z.of_nat (fst a)) (Z.of_nat (snd a)) (Z.of_nat n) /\ P (Z.of_nat (fst b)) (Z.of_nat (snd b)) (Z.of_nat n) /\ P (Z.of_nat (fst c)) (Z.of_nat (snd c)) (Z.of_nat n) /\
  P (Z.of_nat (fst a) + (Z.of_nat (fst b) + Z.of_nat (fst c)))%Z (Z.of_nat (snd a) + (Z.of_nat (snd b) + Z.of_nat (snd c)))%Z (3 * Z.of_nat n)%Z.
Lemma cell_inside n inside P a b c : (forall p, pd p = Z.of_nat n \/ pd p = (3 * Z.of_nat n)%Z -> inside p = true <-> P (px p) (py p) (pd p)) ->
  inside_all n inside [a; b; c] = true <-> for_cell P n a b c.
Proof.
  intros H. rewrite inside_all_iff. unfold for_cell.
  assert (HM : inside (midpoint n [a; b; c]) = true <-> P (Z.of_nat (fst a) + (Z.of_nat (fst b) + Z.of_nat (fst c)))%Z (Z.of_nat (snd a) + (Z.of_nat (snd b) + Z.of_nat (snd c)))%Z (3 * Z.of_nat n)%Z).
  { rewrite H by (right; reflexivity). unfold midpoint. cbn [px py pd map fold_right length]. rewrite !Z.add_0_r. reflexivity. }
  rewrite HM. split.
  - intros [A B]. split; [|split; [|split; [|assumption] ] ].
    + apply (H (at_vertex n a)); [left; reflexivity|]. apply A. left. reflexivity.
    + apply (H (at_vertex n b)); [left; reflexivity|]. apply A. right. left. reflexivity.
    + apply (H (at_vertex n c)); [left; reflexivity|]. apply A. right. right. left. reflexivity.
  - intros (A & B & C & D). split; [|assumption]. intros v [<-|[<-|[<-|[] ] ] ]; apply H; try (left; reflexivity); assumption.
Qed.

(** The edges *)
Lemma edges_in n e : In e (edges n) <-> exists i j,
  (e = ((i, j), (S i, j)) /\ (i < n)%nat /\ (j <= n)%nat) \/ (e = ((i, j), (i, S j)) /\ (i <= n)%nat /\ (j < n)%nat) \/ (e = ((i, j), (S i, S j)) /\ (i < n)%nat /\ (j < n)%nat).
Proof.
  unfold edges, grid. rewrite !in_app_iff, !in_map_iff. split.
  - intros [(x & <- & H)|[(x & <- & H)|(x & <- & H)] ]; destruct x as [i j]; apply in_prod_iff in H as [A B]; apply in_seq in A; apply in_seq in B; exists i, j; cbn [fst snd];
      [left|right; left|right; right]; (split; [reflexivity|lia]).
  - intros (i & j & [(-> & A & B)|[(-> & A & B)|(-> & A & B)] ]); [left|right; left|right; right]; exists (i, j); (split; [reflexivity|]);
      apply in_prod_iff; rewrite !in_seq; lia.
Qed.
Lemma cells_in n i j : (i < n)%nat -> (j < n)%nat -> In (lower (i, j)) (cells n) /\ In (upper (i, j)) (cells n).
Proof.
  intros A B. assert (H : In (i, j) (grid n n)) by (apply in_prod_iff; rewrite !in_seq; lia).
  split; apply in_flat_map; exists (i, j); (split; [assumption|]); [left|right; left]; reflexivity.
Qed.

Lemma embedded_in n domains ts e t : In (e, t) (embedded n domains ts) <-> In e (edges n) /\ t = marked n (ends e) domains 0 /\ In t ts.
Proof.
  unfold embedded. rewrite filter_In, in_map_iff. cbn [snd]. rewrite existsb_exists. split.
  - intros ((x & E & H) & (y & Hy & Ey)). apply Nat.eqb_eq in Ey. subst y. injection E as <- <-. auto.
  - intros (A & -> & B). split; [eauto|]. exists (marked n (ends e) domains 0). split; [assumption|apply Nat.eqb_refl].
Qed.

Lemma len_pos n e : In e (edges n) -> (0 < n)%nat -> 0 < len n e.
Proof.
  intros H N. assert (0 < INR n) by (apply lt_0_INR; assumption). apply edges_in in H as (i & j & [(-> & _)|[(-> & _)|(-> & _)] ]); unfold len; cbn [fst snd];
    (apply Rdiv_lt_0_compat; [|assumption]); apply sqrt_lt_R0; apply (IZR_lt 0); nia.
Qed.

Lemma vertex_eqb_eq v w : vertex_eqb v w = true <-> v = w.
Proof.
  unfold vertex_eqb. rewrite andb_true_iff, !Nat.eqb_eq. destruct v, w. cbn [fst snd]. split; [intros [-> ->]; reflexivity|]. intros E. injection E as -> ->. auto.
Qed.
Lemma trace_known vs f out e : In (fst e) vs -> In (snd e) vs -> trace vs f out e = (f (fst e), f (snd e)).
Proof.
  intros A B. unfold trace.
  assert (Q : forall v, In v vs -> existsb (vertex_eqb v) vs = true) by (intros v Hv; apply existsb_exists; exists v; split; [assumption|apply vertex_eqb_eq; reflexivity]).
  rewrite (Q _ A), (Q _ B). reflexivity.
Qed.
