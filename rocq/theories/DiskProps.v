(** C35, C36: quadrature over the unit disk. *)
From Coq Require Import Reals QArith Qreals Lra.
From Verif Require Import Base BaseProofs DiskModel DiskProofs.
Local Open Scope Z_scope.

Lemma split_degree (degree : Z) (P : Z -> Prop) :
  P 0 -> P 1 -> P 2 -> P 3 -> P 4 -> P 5 -> P 6 -> P 7 -> P 8 -> P 9 -> P 10 -> P 11 -> P 12 -> P 13 -> P 14 -> P 15 -> P 16 -> P 17 -> P 18 -> P 19 -> 0 <= degree <= 19 -> P degree.
Proof.
  intros. assert (HD : degree = 0 \/ degree = 1 \/ degree = 2 \/ degree = 3 \/ degree = 4 \/ degree = 5 \/ degree = 6 \/ degree = 7 \/ degree = 8 \/ degree = 9 \/ degree = 10 \/ degree = 11 \/ degree = 12 \/ degree = 13 \/ degree = 14 \/ degree = 15 \/ degree = 16 \/ degree = 17 \/ degree = 18 \/ degree = 19) by lia.
  repeat destruct HD as [->|HD]; try assumption. subst. assumption.
Qed.

(** C35: a rule with as many weights as points for the degrees up to 19 ... *)
Theorem C35_supported_partial degree : 0 <= degree <= 19 ->
  exists pts ws, disk_quadrature degree = Ok (pts, ws) /\ length pts = length ws /\ pts <> [].
Proof.
  apply (split_degree degree (fun degree => exists pts ws, disk_quadrature degree = Ok (pts, ws) /\ length pts = length ws /\ pts <> []));
    (do 2 eexists; split; [vm_compute; reflexivity|]; split; [reflexivity|discriminate]).
Qed.
(** ... but none for any other degree, though the code means to fall back to 19. *)
Theorem C35_beyond_refuted degree : degree < 0 \/ 19 < degree -> disk_quadrature degree = Err ValueError.
Proof.
  intros H. unfold disk_quadrature. assert (A : adjust degree < 0 \/ 19 < adjust degree).
  { unfold adjust. pose proof (Z.mod_pos_bound degree 2 ltac:(lia)) as B. pose proof (Z.div_mod degree 2 ltac:(lia)) as D.
    destruct (Z.eqb_spec (degree mod 2) 0) as [E|E]; [destruct (degree + 1 >? 19)|destruct (degree >? 19)]; lia. }
  unfold template. repeat match goal with |- context [if ?x =? ?c then _ else _] => destruct (Z.eqb_spec x c); [lia|] end. reflexivity.
Qed.
(** An even degree gives the rule of the next odd one. *)
Theorem C35_even degree : Z.Even degree -> disk_quadrature degree = disk_quadrature (degree + 1).
Proof.
  intros [k ->]. unfold disk_quadrature, adjust. rewrite Z.mul_comm, Z_mod_mult, Z.add_comm, Z_mod_plus_full. cbn [Z.eqb]. change (1 mod 2 =? 0) with false. cbn [Z.eqb]. rewrite Z.add_comm. reflexivity.
Qed.
(** All points are in the unit disk for some of the tables ... *)
Definition inside_degree (degree : Z) : Prop := 0 <= degree <= 3 \/ 6 <= degree <= 7 \/ 12 <= degree <= 15.
Lemma in_unit_disk_dec p : fst p ^ 2 + snd p ^ 2 <= 10 ^ 30 <-> in_unit_disk p.
Proof.
  unfold in_unit_disk, dec. assert (D : (0 < 10 ^ 15)%R) by (apply pow_lt; lra). assert (D2 : (0 < (10 ^ 15) ^ 2)%R) by (apply pow_lt; assumption).
  assert (E : (((IZR (fst p) / 10 ^ 15) ^ 2 + (IZR (snd p) / 10 ^ 15) ^ 2) = IZR (fst p ^ 2 + snd p ^ 2) / (10 ^ 15) ^ 2)%R).
  { rewrite plus_IZR, !Z.pow_2_r, !mult_IZR. field. }
  rewrite E. assert (K : ((10 ^ 15) ^ 2 = IZR (10 ^ 30))%R) by (rewrite <- pow_mult; cbn [Nat.mul Nat.add]; rewrite pow_IZR; f_equal). split; intros H.
  - apply IZR_le in H. rewrite <- K in H. apply (Rmult_le_reg_r ((10 ^ 15) ^ 2)); [assumption|]. unfold Rdiv. rewrite Rmult_assoc, Rinv_l, Rmult_1_r, Rmult_1_l by lra. assumption.
  - apply le_IZR. rewrite <- K. apply (Rmult_le_compat_r ((10 ^ 15) ^ 2)) in H; [|lra]. unfold Rdiv in H. rewrite Rmult_assoc, Rinv_l, Rmult_1_r, Rmult_1_l in H by lra. assumption.
Qed.
Lemma inside_check pts : forallb (fun p => fst p ^ 2 + snd p ^ 2 <=? 10 ^ 30) pts = true -> Forall in_unit_disk pts.
Proof. intros H. apply Forall_forall. intros p Hp. rewrite forallb_forall in H. apply in_unit_disk_dec, Z.leb_le, H, Hp. Qed.
Lemma outside_check pts : existsb (fun p => 10 ^ 30 <? fst p ^ 2 + snd p ^ 2) pts = true -> Exists (fun p => ~ in_unit_disk p) pts.
Proof. intros H. apply Exists_exists. apply existsb_exists in H. destruct H as (p & Hp & E). exists p. split; [assumption|]. intros N. apply in_unit_disk_dec in N. apply Z.ltb_lt in E. lia. Qed.
Theorem C35_inside_partial degree pts ws : inside_degree degree -> disk_quadrature degree = Ok (pts, ws) -> Forall in_unit_disk pts.
Proof.
  intros I. assert (B : 0 <= degree <= 19) by (unfold inside_degree in I; lia). revert I. revert degree B.
  assert (H : forall degree, 0 <= degree <= 19 -> inside_degree degree -> match disk_quadrature degree with Ok (pts, _) => forallb (fun p => fst p ^ 2 + snd p ^ 2 <=? 10 ^ 30) pts = true | Err _ => True end).
  { intros degree. apply (split_degree degree (fun degree => inside_degree degree -> match disk_quadrature degree with Ok (pts, _) => forallb (fun p => fst p ^ 2 + snd p ^ 2 <=? 10 ^ 30) pts = true | Err _ => True end));
      intros I; first [vm_compute; reflexivity|exfalso; unfold inside_degree in I; lia]. }
  intros degree B I E. specialize (H degree B I). rewrite E in H. apply inside_check, H.
Qed.
(** ... and not for all the others. *)
Theorem C35_outside_refuted degree pts ws : 0 <= degree <= 19 -> ~ inside_degree degree -> disk_quadrature degree = Ok (pts, ws) -> Exists (fun p => ~ in_unit_disk p) pts.
Proof.
  assert (H : forall degree, 0 <= degree <= 19 -> ~ inside_degree degree -> match disk_quadrature degree with Ok (pts, _) => existsb (fun p => 10 ^ 30 <? fst p ^ 2 + snd p ^ 2) pts = true | Err _ => True end).
  { intros d. apply (split_degree d (fun degree => ~ inside_degree degree -> match disk_quadrature degree with Ok (pts, _) => existsb (fun p => 10 ^ 30 <? fst p ^ 2 + snd p ^ 2) pts = true | Err _ => True end));
      intros I; first [vm_compute; reflexivity|exfalso; apply I; unfold inside_degree; lia]. }
  intros B I E. specialize (H degree B I). rewrite E in H. apply outside_check, H.
Qed.

(** C36: the rules integrate the monomials of their degree to 10^-14 ... *)
Definition rule_degree (degree : Z) : Z := if Z.even degree then degree + 1 else degree.
Definition tol14 : Q := 1 # 10 ^ 14.
Definition tol6 : Q := 1 # 10 ^ 6.
Lemma check1 : close_even tol14 0 table1 = true.
Proof. vm_compute. reflexivity. Qed.
Lemma check3 : close_even tol14 1 table3 = true.
Proof. vm_compute. reflexivity. Qed.
Lemma check5 : close_even tol14 2 table5 = true.
Proof. vm_compute. reflexivity. Qed.
Lemma check7 : close_even tol14 3 table7 = true.
Proof. vm_compute. reflexivity. Qed.
Lemma check9 : close_even tol14 4 table9 = true.
Proof. vm_compute. reflexivity. Qed.
Lemma check13 : close_even tol14 6 table13 = true.
Proof. vm_compute. reflexivity. Qed.
Lemma check15 : close_even tol14 7 table15 = true.
Proof. vm_compute. reflexivity. Qed.
Lemma check17 : close_even tol6 8 table17 = true.
Proof. vm_compute. reflexivity. Qed.
Lemma check19 : close_even tol6 9 table19 = true.
Proof. vm_compute. reflexivity. Qed.
Definition rule_of (degree : Z) (data : list (Z * Z * Z * Z)) (n : nat) : Prop :=
  disk_quadrature degree = from_template data /\ forallb centred data = true /\ rule_degree degree = Z.of_nat (2 * n + 1).
Ltac rule := split; [reflexivity|split; reflexivity].
Lemma rules degree : 0 <= degree <= 9 \/ 12 <= degree <= 15 -> exists data n, rule_of degree data n /\ close_even tol14 n data = true.
Proof.
  intros I. assert (B : 0 <= degree <= 19) by lia. revert I. apply (split_degree degree (fun degree => 0 <= degree <= 9 \/ 12 <= degree <= 15 -> exists data n, rule_of degree data n /\ close_even tol14 n data = true)).
  - intros _. exists table1, 0%nat. split; [rule|exact check1].
  - intros _. exists table1, 0%nat. split; [rule|exact check1].
  - intros _. exists table3, 1%nat. split; [rule|exact check3].
  - intros _. exists table3, 1%nat. split; [rule|exact check3].
  - intros _. exists table5, 2%nat. split; [rule|exact check5].
  - intros _. exists table5, 2%nat. split; [rule|exact check5].
  - intros _. exists table7, 3%nat. split; [rule|exact check7].
  - intros _. exists table7, 3%nat. split; [rule|exact check7].
  - intros _. exists table9, 4%nat. split; [rule|exact check9].
  - intros _. exists table9, 4%nat. split; [rule|exact check9].
  - intros I; exfalso; lia.
  - intros I; exfalso; lia.
  - intros _. exists table13, 6%nat. split; [rule|exact check13].
  - intros _. exists table13, 6%nat. split; [rule|exact check13].
  - intros _. exists table15, 7%nat. split; [rule|exact check15].
  - intros _. exists table15, 7%nat. split; [rule|exact check15].
  - intros I; exfalso; lia.
  - intros I; exfalso; lia.
  - intros I; exfalso; lia.
  - intros I; exfalso; lia.
  - exact B.
Qed.
Lemma rules6 degree : 16 <= degree <= 19 -> exists data n, rule_of degree data n /\ close_even tol6 n data = true.
Proof.
  intros I. assert (degree = 16 \/ degree = 17 \/ degree = 18 \/ degree = 19) as D by lia. destruct D as [->|[->|[->| ->]]].
  1,2: exists table17, 8%nat; split; [rule|exact check17].
  1,2: exists table19, 9%nat; split; [rule|exact check19].
Qed.
Theorem C36_exact_partial degree pts ws i j m : 0 <= degree <= 9 \/ 12 <= degree <= 15 ->
  disk_quadrature degree = Ok (pts, ws) -> Z.of_nat (i + j) <= rule_degree degree -> disk_moment i j m ->
  (Rabs (moment_of i j pts ws - m) <= / 10 ^ 14)%R.
Proof.
  intros I E L M. destruct (rules degree I) as (data & n & (R1 & R2 & R3) & K). rewrite R1 in E. rewrite R3 in L. replace (/ 10 ^ 14)%R with (Q2R tol14).
  - apply (close_even_R tol14 n data); [assumption..|lia|assumption].
  - unfold tol14, Q2R. cbn [Qnum Qden]. rewrite Rmult_1_l. f_equal. rewrite pow_IZR. f_equal.
Qed.
(** ... those of degrees 17 and 19 only to 10^-6 ... *)
Theorem C36_inexact_partial degree pts ws i j m : 16 <= degree <= 19 ->
  disk_quadrature degree = Ok (pts, ws) -> Z.of_nat (i + j) <= rule_degree degree -> disk_moment i j m ->
  (Rabs (moment_of i j pts ws - m) <= / 10 ^ 6)%R.
Proof.
  intros I E L M. destruct (rules6 degree I) as (data & n & (R1 & R2 & R3) & K). rewrite R1 in E. rewrite R3 in L. replace (/ 10 ^ 6)%R with (Q2R tol6).
  - apply (close_even_R tol6 n data); [assumption..|lia|assumption].
  - unfold tol6, Q2R. cbn [Qnum Qden]. rewrite Rmult_1_l. f_equal. rewrite pow_IZR. f_equal.
Qed.
(** ... and the rule of degree 11 does not even integrate x^2: one of its points is
    at distance 14 from the centre. *)
Theorem C36_degree_11_refuted degree pts ws m : 10 <= degree <= 11 -> disk_quadrature degree = Ok (pts, ws) -> disk_moment 2 0 m ->
  (/ 5 < Rabs (moment_of 2 0 pts ws - m))%R.
Proof.
  intros I E M. apply disk_moment_value in M. subst m. assert (degree = 10 \/ degree = 11) as D by lia.
  assert (V : disk_quadrature 11 = Ok (pts, ws)) by (destruct D as [-> | ->]; [change (disk_quadrature 10) with (disk_quadrature 11) in E|]; exact E). clear E D I degree.
  rewrite zmoment_R. assert (C : moment_coef 2 0 = (1 # 4)) by (vm_compute; reflexivity). rewrite C. destruct pi_bounds as [L U].
  assert (B : ((1 # 4) * pi_hi + (1 # 5) < zmoment 2 0 pts ws # scale 2 0)%Q).
  { vm_compute in V. injection V as <- <-. vm_compute. reflexivity. }
  apply Qlt_Rlt in B. rewrite Q2R_plus, Q2R_mult in B. replace (Q2R (1 # 4)) with (/ 4)%R in * by (unfold Q2R; cbn; field). replace (Q2R (1 # 5)) with (/ 5)%R in B by (unfold Q2R; cbn; field).
  eapply Rlt_le_trans; [|apply Rle_abs]. lra.
Qed.
(** ... though its weights, as those of all rules, sum up to the area of the disk (to 10^-12). *)
Definition tol12 : Q := 1 # 10 ^ 12.
Lemma check11 : close_even tol12 0 table11 = true.
Proof. vm_compute. reflexivity. Qed.
Lemma check17_0 : close_even tol12 0 table17 = true.
Proof. vm_compute. reflexivity. Qed.
Lemma check19_0 : close_even tol12 0 table19 = true.
Proof. vm_compute. reflexivity. Qed.
Theorem C36_area_partial degree pts ws m : disk_quadrature degree = Ok (pts, ws) -> disk_moment 0 0 m ->
  (Rabs (moment_of 0 0 pts ws - m) <= / 10 ^ 12)%R.
Proof.
  intros E M. assert (B : 0 <= degree <= 19).
  { destruct (Z.lt_ge_cases degree 0) as [L|L]; [rewrite C35_beyond_refuted in E by lia; discriminate E|].
    destruct (Z.lt_ge_cases 19 degree) as [U|U]; [rewrite C35_beyond_refuted in E by lia; discriminate E|]. lia. }
  assert (A : forall data, disk_quadrature degree = from_template data -> forallb centred data = true -> close_even tol12 0 data = true ->
              (Rabs (moment_of 0 0 pts ws - m) <= / 10 ^ 12)%R).
  { intros data R1 R2 K. rewrite R1 in E. replace (/ 10 ^ 12)%R with (Q2R tol12).
    - apply (close_even_R tol12 0 data); [assumption..|cbn; lia|assumption].
    - unfold tol12, Q2R. cbn [Qnum Qden]. rewrite Rmult_1_l. f_equal. rewrite pow_IZR. f_equal. }
  assert (D : (0 <= degree <= 9 \/ 12 <= degree <= 15) \/ degree = 10 \/ degree = 11 \/ degree = 16 \/ degree = 17 \/ degree = 18 \/ degree = 19) by lia.
  destruct D as [D|[->|[->|[->|[->|[->| ->]]]]]].
  - apply Rle_trans with (/ 10 ^ 14)%R; [|apply Rinv_le_contravar; [apply pow_lt; lra|apply Rle_pow; [lra|lia]]].
    apply (C36_exact_partial degree pts ws 0 0 m D E); [|exact M]. destruct (rules degree D) as (data & n & (_ & _ & R3) & _). rewrite R3. cbn [Nat.add]. lia.
  - apply (A table11); [reflexivity|reflexivity|exact check11].
  - apply (A table11); [reflexivity|reflexivity|exact check11].
  - apply (A table17); [reflexivity|reflexivity|exact check17_0].
  - apply (A table17); [reflexivity|reflexivity|exact check17_0].
  - apply (A table19); [reflexivity|reflexivity|exact check19_0].
  - apply (A table19); [reflexivity|reflexivity|exact check19_0].
Qed.
Print Assumptions C36_area_partial.
(** Monomials with an odd exponent are integrated exactly, whatever their degree. *)
Theorem C36_odd degree pts ws i j : disk_quadrature degree = Ok (pts, ws) -> (exists k, i = 2 * k + 1)%nat \/ (exists k, j = 2 * k + 1)%nat ->
  moment_of i j pts ws = 0%R /\ disk_moment i j 0.
Proof.
  intros E O. split.
  - unfold disk_quadrature in E. destruct (template (adjust degree)) as [data|] eqn:T; [|discriminate E]. cbn [bind] in E. apply (from_template_odd data); [assumption| |assumption].
    unfold template in T. repeat (destruct (_ =? _) in T; [injection T as <-; vm_compute; reflexivity|]). discriminate T.
  - apply disk_moment_value. rewrite odd_moment_coef by assumption. ring.
Qed.
(** The integral exists for all exponents, is unique, and the first ones are as
    expected. *)
Theorem C36_moments i j : exists m, disk_moment i j m /\ forall m', disk_moment i j m' -> m' = m.
Proof. exists (PI * Q2R (moment_coef i j))%R. split; [apply disk_moment_value; reflexivity|]. intros m'. apply disk_moment_value. Qed.
Example C36_area : disk_moment 0 0 PI /\ disk_moment 2 0 (PI / 4)%R /\ disk_moment 2 2 (PI / 24)%R.
Proof.
  repeat split; apply disk_moment_value; [change (moment_coef 0 0) with (1 # 1)|change (moment_coef 2 0) with (1 # 4)|change (moment_coef 2 2) with (1 # 24)];
    unfold Q2R; cbn; field.
Qed.
Print Assumptions C36_exact_partial.
Print Assumptions C36_degree_11_refuted.
Print Assumptions C35_beyond_refuted.
