(** What the printed form '%g' of MeshFileModel says: reading the characters gives the number, rounded to 6 digits. *)
From Coq Require Import List ZArith QArith Qabs Qpower String Ascii DecimalString DecimalPos DecimalN Bool Lia Lqa.
From Verif Require Import Base MeshFileModel.
Local Open Scope nat_scope.
Local Open Scope string_scope.

(** * Spec: the value of a string of digits with a point and an exponent *)
Definition digit_val (c : ascii) : Z := (Z.of_nat (nat_of_ascii c) - 48)%Z.
Definition nat_val (s : string) : Z := match NilEmpty.uint_of_string s with Some u => Z.of_N (N.of_uint u) | None => 0%Z end.
Definition exp_val (s : string) : Z :=
  match s with
  | String c s' => if Ascii.eqb c "-" then (- nat_val s')%Z else nat_val s'
  | EmptyString => 0%Z
  end.
Definition pow10 (z : Z) : Q := Qpower (10 # 1) z.
Fixpoint scan (s : string) (m k : Z) (pt : bool) : Q :=
  match s with
  | EmptyString => (inject_Z m * pow10 (- k))%Q
  | String c s' =>
    if Ascii.eqb c "." then scan s' m k true
    else if Ascii.eqb c "e" then (inject_Z m * pow10 (exp_val s' - k))%Q
    else scan s' (10 * m + digit_val c)%Z (if pt then k + 1 else k)%Z pt
  end.
Definition value (s : string) : Q :=
  match s with
  | String c s' => if Ascii.eqb c "-" then (- scan s' 0 0 false)%Q else scan s 0 0 false
  | EmptyString => 0%Q
  end.

(** * Digits *)
Lemma ndig_spec fuel : forall z, (0 < z < 10 ^ (Z.of_nat fuel + 1))%Z -> (1 <= ndig fuel z /\ 10 ^ (ndig fuel z - 1) <= z < 10 ^ ndig fuel z)%Z.
Proof.
  induction fuel as [| f IH]; intros z H.
  - cbn in *. lia.
  - cbn [ndig]. destruct (Z.ltb_spec z 10); [cbn; lia |].
    assert (0 < z / 10 < 10 ^ (Z.of_nat f + 1))%Z as B.
    { replace (Z.of_nat (Datatypes.S f) + 1)%Z with (Z.succ (Z.of_nat f + 1)) in H by lia. rewrite Z.pow_succ_r in H by lia.
      split; [apply Z.div_str_pos; lia | apply Z.div_lt_upper_bound; lia]. }
    destruct (IH _ B) as [L [B1 B2]]. split; [lia |].
    replace (1 + ndig f (z / 10) - 1)%Z with (Z.succ (ndig f (z / 10) - 1)) by lia. replace (1 + ndig f (z / 10))%Z with (Z.succ (ndig f (z / 10))) by lia.
    rewrite !Z.pow_succ_r by lia. pose proof (Z.div_mod z 10 ltac:(lia)). pose proof (Z.mod_pos_bound z 10 ltac:(lia)). lia.
Qed.
Lemma size_bound p : (Zpos p < 2 ^ Z.of_nat (Pos.size_nat p))%Z.
Proof.
  induction p; cbn [Pos.size_nat]; try rewrite Nat2Z.inj_succ, Z.pow_succ_r by lia; lia.
Qed.
Lemma len10_spec p : (1 <= len10 p /\ 10 ^ (len10 p - 1) <= Zpos p < 10 ^ len10 p)%Z.
Proof.
  apply ndig_spec. split; [lia |]. eapply Z.lt_trans; [apply size_bound |]. set (k := Z.of_nat _). assert (0 <= k)%Z by lia.
  apply Z.le_lt_trans with (10 ^ k)%Z; [apply Z.pow_le_mono_l; lia | apply Z.pow_lt_mono_r; lia].
Qed.
Lemma round_even_spec a b : (0 < b)%Z -> (- b <= 2 * (a - b * round_even a b) <= b)%Z.
Proof.
  intros B. unfold round_even. pose proof (Z.div_mod a b ltac:(lia)). pose proof (Z.mod_pos_bound a b B).
  destruct (Z.ltb_spec (2 * (a mod b)) b); [lia |]. destruct (Z.ltb_spec b (2 * (a mod b))); [lia |]. destruct (Z.even (a / b)); lia.
Qed.

(** powers of ten *)
Lemma ten : ~ (10 # 1 == 0)%Q.
Proof. discriminate. Qed.
Lemma pow10_plus a b : (pow10 (a + b) == pow10 a * pow10 b)%Q.
Proof. apply Qpower_plus, ten. Qed.
Lemma pow10_Z z : (0 <= z)%Z -> (pow10 z == inject_Z (10 ^ z))%Q.
Proof. intros H. unfold pow10. rewrite Zpower_Qpower by exact H. reflexivity. Qed.
Lemma pow10_pos z : (0 < pow10 z)%Q.
Proof. apply Qpower_0_lt. reflexivity. Qed.
Lemma pow10_0 : (pow10 0 == 1)%Q.
Proof. reflexivity. Qed.

(** * six_digits *)
(** scaled up, the number is between 10^5 and 10^6 *)
Lemma Zle_Q a b : (a <= b)%Z <-> (inject_Z a <= inject_Z b)%Q.
Proof. unfold Qle. cbn. lia. Qed.
Lemma Zlt_Q a b : (a < b)%Z <-> (inject_Z a < inject_Z b)%Q.
Proof. unfold Qlt. cbn. lia. Qed.
Definition ratio (n d : positive) : Q := (Zpos n # d)%Q.
Lemma ratio_eq n d : (ratio n d * inject_Z (Zpos d) == inject_Z (Zpos n))%Q.
Proof. unfold ratio, Qeq. cbn. lia. Qed.
Lemma pow10_inv z : (pow10 z * pow10 (- z) == 1)%Q.
Proof. rewrite <- pow10_plus. now rewrite Z.add_opp_diag_r. Qed.

Definition first_exp (n d : positive) : Z :=
  let e0 := (len10 n - len10 d)%Z in
  if (if (0 <=? e0)%Z then (Zpos d * 10 ^ e0 <=? Zpos n)%Z else (Zpos d <=? Zpos n * 10 ^ (- e0))%Z) then e0 else (e0 - 1)%Z.
Lemma up_spec n d e : (if (0 <=? e)%Z then (Zpos d * 10 ^ e <=? Zpos n)%Z else (Zpos d <=? Zpos n * 10 ^ (- e))%Z) = true <-> (pow10 e <= ratio n d)%Q.
Proof.
  assert (0 < inject_Z (Zpos d))%Q as D by reflexivity.
  assert ((pow10 e <= ratio n d)%Q <-> (pow10 e * inject_Z (Zpos d) <= inject_Z (Zpos n))%Q) as S.
  { rewrite <- (ratio_eq n d). symmetry. now apply Qmult_le_r. }
  rewrite S. destruct (Z.leb_spec 0 e) as [H | H].
  - rewrite Z.leb_le, Zle_Q, inject_Z_mult, pow10_Z by exact H. now rewrite Qmult_comm.
  - rewrite Z.leb_le, Zle_Q, inject_Z_mult, <- pow10_Z by lia. pose proof (pow10_inv e) as I. pose proof (pow10_pos e) as P. pose proof (pow10_pos (- e)) as P'.
    split; intros L.
    + apply (Qmult_le_r _ _ (pow10 (- e)) P'). rewrite <- Qmult_assoc, (Qmult_comm (inject_Z _)), Qmult_assoc, I, Qmult_1_l. exact L.
    + apply (Qmult_le_r _ _ (pow10 e) P). rewrite <- Qmult_assoc, (Qmult_comm (pow10 (- e))), I, Qmult_1_r, Qmult_comm. exact L.
Qed.
Lemma first_exp_spec n d : (pow10 (first_exp n d) <= ratio n d /\ ratio n d < pow10 (first_exp n d + 1))%Q.
Proof.
  unfold first_exp. set (e0 := (len10 n - len10 d)%Z). destruct (len10_spec n) as [Ln [N1 N2]]. destruct (len10_spec d) as [Ld [D1 D2]].
  assert (0 < inject_Z (Zpos d))%Q as D by reflexivity.
  rewrite Zle_Q, <- pow10_Z in N1 by lia. rewrite Zlt_Q, <- pow10_Z in N2 by lia.
  rewrite Zle_Q, <- pow10_Z in D1 by lia. rewrite Zlt_Q, <- pow10_Z in D2 by lia.
  destruct (if (0 <=? e0)%Z then _ else _) eqn:E.
  - apply up_spec in E. split; [exact E |]. apply (Qmult_lt_r _ _ _ D). rewrite ratio_eq.
    apply Qlt_le_trans with (1 := N2). apply Qle_trans with (pow10 (e0 + 1) * pow10 (len10 d - 1))%Q.
    + rewrite <- pow10_plus. unfold e0. replace (len10 n - len10 d + 1 + (len10 d - 1))%Z with (len10 n) by lia. apply Qle_refl.
    + apply Qmult_le_l; [apply pow10_pos | exact D1].
  - replace (e0 - 1 + 1)%Z with e0 by lia. split.
    + apply (Qmult_le_r _ _ _ D). rewrite ratio_eq. apply Qle_trans with (2 := N1). apply Qle_trans with (pow10 (e0 - 1) * pow10 (len10 d))%Q.
      * apply Qmult_le_l; [apply pow10_pos |]. now apply Qlt_le_weak.
      * rewrite <- pow10_plus. unfold e0. replace (len10 n - len10 d - 1 + len10 d)%Z with (len10 n - 1)%Z by lia. apply Qle_refl.
    + apply Qnot_le_lt. intros L. apply up_spec in L. congruence.
Qed.
Definition rounded (n d : positive) (k : Z) : Z :=
  if (0 <=? k)%Z then round_even (Zpos n * 10 ^ k) (Zpos d) else round_even (Zpos n) (Zpos d * 10 ^ (- k)).
Lemma rounded_spec n d k : (-1 <= 2 * (ratio n d * pow10 k - inject_Z (rounded n d k)) <= 1)%Q.
Proof.
  assert (exists a b, (0 < b)%Z /\ rounded n d k = round_even a b /\ (ratio n d * pow10 k * inject_Z b == inject_Z a)%Q) as [a [b [B [-> E]]]].
  { unfold rounded. destruct (Z.leb_spec 0 k) as [H | H].
    - exists (Zpos n * 10 ^ k)%Z, (Zpos d). split; [lia |]. split; [reflexivity |].
      rewrite inject_Z_mult, <- pow10_Z by exact H. rewrite <- (ratio_eq n d). ring.
    - exists (Zpos n), (Zpos d * 10 ^ (- k))%Z. split; [apply Z.mul_pos_pos; [lia | apply Z.pow_pos_nonneg; lia] |]. split; [reflexivity |].
      rewrite inject_Z_mult, <- pow10_Z by lia. rewrite <- (ratio_eq n d). transitivity (ratio n d * inject_Z (Zpos d) * (pow10 k * pow10 (- k)))%Q; [ring |]. rewrite pow10_inv. ring. }
  pose proof (round_even_spec a b B) as [R1 R2]. assert (0 < inject_Z b)%Q as BQ by (change 0%Q with (inject_Z 0); now apply Zlt_Q in B).
  set (r := round_even a b) in *. set (y := (ratio n d * pow10 k)%Q) in *.
  assert (inject_Z (2 * (a - b * r)) == 2 * (y - inject_Z r) * inject_Z b)%Q as Q.
  { rewrite inject_Z_mult. unfold Z.sub. rewrite inject_Z_plus, inject_Z_opp, inject_Z_mult, <- E. change (inject_Z 2) with 2%Q. ring. }
  apply Zle_Q in R1, R2. rewrite Q in R1, R2. rewrite inject_Z_opp in R1. split; apply (Qmult_le_r _ _ _ BQ).
  - rewrite <- (Qmult_1_l (inject_Z b)) in R1 at 1. lra.
  - lra.
Qed.
Lemma six_digits_eq n d : six_digits n d = let e := first_exp n d in let m := rounded n d (5 - e) in if (m =? 10 ^ 6)%Z then ((10 ^ 5)%Z, (e + 1)%Z) else (m, e).
Proof. reflexivity. Qed.
Lemma six_digits_spec n d m e : six_digits n d = (m, e) ->
  (10 ^ 5 <= m < 10 ^ 6)%Z /\ (- pow10 (e - 5) <= 2 * (ratio n d - inject_Z m * pow10 (e - 5)) <= pow10 (e - 5))%Q.
Proof.
  rewrite six_digits_eq. cbv zeta. set (e1 := first_exp n d). set (r := rounded n d (5 - e1)). intros E.
  pose proof (rounded_spec n d (5 - e1)) as [R1 R2]. fold r in R1, R2. destruct (first_exp_spec n d) as [F1 F2]. fold e1 in F1, F2.
  set (y := (ratio n d * pow10 (5 - e1))%Q) in *.
  assert (inject_Z (10 ^ 5) <= y)%Q as Y1.
  { rewrite <- pow10_Z by lia. unfold y. replace 5%Z with (e1 + (5 - e1))%Z at 1 by lia. rewrite pow10_plus. apply Qmult_le_r; [apply pow10_pos | exact F1]. }
  assert (y < inject_Z (10 ^ 6))%Q as Y2.
  { rewrite <- pow10_Z by lia. unfold y. replace 6%Z with (e1 + 1 + (5 - e1))%Z by lia. rewrite (pow10_plus (e1 + 1)). apply Qmult_lt_r; [apply pow10_pos | exact F2]. }
  assert (ratio n d == y * pow10 (e1 - 5))%Q as X.
  { unfold y. rewrite <- Qmult_assoc, <- pow10_plus. replace (5 - e1 + (e1 - 5))%Z with 0%Z by lia. rewrite pow10_0. ring. }
  pose proof (pow10_pos (e1 - 5)) as P.
  assert (10 ^ 5 <= r <= 10 ^ 6)%Z as B.
  { assert (inject_Z (2 * 10 ^ 5 - 1) <= inject_Z (2 * r))%Q as A1.
    { rewrite inject_Z_mult. unfold Z.sub. rewrite inject_Z_plus, inject_Z_mult, inject_Z_opp. change (inject_Z 2) with 2%Q. change (inject_Z 1) with 1%Q. lra. }
    assert (inject_Z (2 * r) < inject_Z (2 * 10 ^ 6 + 1))%Q as A2.
    { rewrite inject_Z_plus, !inject_Z_mult. change (inject_Z 2) with 2%Q. change (inject_Z 1) with 1%Q. lra. }
    apply Zle_Q in A1. apply Zlt_Q in A2. lia. }
  destruct (Z.eqb_spec r (10 ^ 6)) as [Z6 | Z6]; injection E as <- <-.
  - split; [lia |]. rewrite Z6 in *.
    assert (pow10 (e1 + 1 - 5) == 10 * pow10 (e1 - 5))%Q as T by (replace (e1 + 1 - 5)%Z with (1 + (e1 - 5))%Z by lia; rewrite pow10_plus; reflexivity).
    rewrite T, X. set (p := pow10 (e1 - 5)) in *. change (inject_Z (10 ^ 5)) with (100000 # 1)%Q. change (inject_Z (10 ^ 6)) with (1000000 # 1)%Q in R1, R2, Y2.
    assert (0 <= (y - (1000000 # 1) + (1 # 2)) * p)%Q as M1 by (apply Qmult_le_0_compat; lra).
    assert (0 <= ((1000000 # 1) - y) * p)%Q as M2 by (apply Qmult_le_0_compat; lra).
    change (inject_Z (Z.pow_pos 10 5)) with (100000 # 1)%Q. split; lra.
  - split; [lia |]. rewrite X. set (p := pow10 (e1 - 5)) in *.
    assert (0 <= (2 * (y - inject_Z r) + 1) * p)%Q as M1 by (apply Qmult_le_0_compat; lra).
    assert (0 <= (1 - 2 * (y - inject_Z r)) * p)%Q as M2 by (apply Qmult_le_0_compat; lra).
    split; lra.
Qed.

(** * Reading the characters *)
Definition is_digit (c : ascii) : Prop := exists z, c = digit z.
Lemma digit_cases z : In (digit z) ["0"; "1"; "2"; "3"; "4"; "5"; "6"; "7"; "8"; "9"]%char.
Proof.
  unfold digit. pose proof (Z.mod_pos_bound z 10 eq_refl) as B. remember (Z.to_nat (z mod 10)) as k. assert (k < 10) as K by lia. clear - K.
  do 10 (destruct k as [| k]; [cbn; tauto |]). lia.
Qed.
Lemma digit_val_eq z : digit_val (digit z) = (z mod 10)%Z.
Proof.
  unfold digit_val, digit. pose proof (Z.mod_pos_bound z 10 eq_refl) as B. rewrite nat_ascii_embedding by lia. lia.
Qed.
Lemma zero_digit : "0"%char = digit 0.
Proof. reflexivity. Qed.
Fixpoint val (l : list ascii) : Z := match l with [] => 0 | c :: l' => (digit_val c * 10 ^ Z.of_nat (List.length l') + val l')%Z end.
Lemma scan_digits l : forall rest m k pt, Forall is_digit l ->
  scan (string_of_list_ascii l ++ rest) m k pt = scan rest (m * 10 ^ Z.of_nat (List.length l) + val l)%Z (if pt then k + Z.of_nat (List.length l) else k)%Z pt.
Proof.
  induction l as [| c l IH]; intros rest m k pt D.
  - cbn [string_of_list_ascii append val List.length]. f_equal; [cbn; lia | destruct pt; lia].
  - pose proof (Forall_inv D) as [z C]. pose proof (Forall_inv_tail D) as D'. cbn [string_of_list_ascii append scan].
    assert (Ascii.eqb c "." = false /\ Ascii.eqb c "e" = false) as [-> ->].
    { subst c. pose proof (digit_cases z) as I. cbn [In] in I. repeat destruct I as [<- | I]; try (split; reflexivity). destruct I. }
    rewrite IH by exact D'. cbn [val List.length]. rewrite Nat2Z.inj_succ, Z.pow_succ_r by lia. f_equal; [ring | destruct pt; lia].
Qed.
Lemma strip0_app l : exists j, l = (strip0 l ++ repeat "0"%char j)%list.
Proof.
  induction l as [| c l [j IH]]; [now exists 0 |]. cbn [strip0]. destruct (strip0 l) as [| s ss] eqn:E.
  - destruct (Ascii.eqb_spec c "0") as [-> | N].
    + exists (Datatypes.S j). cbn. now rewrite IH at 1.
    + exists j. cbn. now rewrite IH at 1.
  - exists j. cbn. cbn in IH. now rewrite IH at 1.
Qed.
Lemma val_app a b : val (a ++ b)%list = (val a * 10 ^ Z.of_nat (List.length b) + val b)%Z.
Proof.
  induction a as [| c a IH]; cbn; [reflexivity |]. rewrite IH, app_length, Nat2Z.inj_add, Z.pow_add_r by lia. ring.
Qed.
Lemma val_zeros j : val (repeat "0"%char j) = 0%Z.
Proof. induction j; cbn; [reflexivity | exact IHj]. Qed.
(** what may follow the digits: the end or an exponent *)
Lemma scan_end rest m k pt : (rest = "" \/ exists s, rest = String "e" s) ->
  (scan rest m k pt == inject_Z m * pow10 (match rest with String _ s => exp_val s | _ => 0 end - k))%Q.
Proof. intros [-> | [s ->]]; cbn; reflexivity. Qed.
Lemma scan_point a b rest : Forall is_digit a -> Forall is_digit b -> (rest = "" \/ exists s, rest = String "e" s) ->
  (scan (with_point a b ++ rest) 0 0 false == inject_Z (val (a ++ b)%list) * pow10 (match rest with String _ s => exp_val s | _ => 0 end - Z.of_nat (List.length b)))%Q.
Proof.
  intros A B R. destruct (strip0_app b) as [j J]. unfold with_point.
  assert (forall x y z, (x ++ y) ++ z = x ++ y ++ z) as AS by (induction x; intros; cbn; congruence).
  set (E := match rest with String _ s => exp_val s | _ => 0%Z end).
  assert (Forall is_digit (strip0 b)) as B' by (rewrite J in B; apply Forall_app in B; tauto).
  assert (forall m, (inject_Z m * pow10 (E - Z.of_nat (List.length (strip0 b))) == inject_Z (m * 10 ^ Z.of_nat j) * pow10 (E - Z.of_nat (List.length b)))%Q) as K.
  { intros m. rewrite inject_Z_mult, <- pow10_Z by lia. rewrite <- Qmult_assoc, <- pow10_plus. replace (Z.of_nat j + (E - Z.of_nat (List.length b)))%Z with (E - Z.of_nat (List.length (strip0 b)))%Z; [reflexivity |].
    rewrite J at 2. rewrite app_length, repeat_length. lia. }
  assert (val (a ++ b)%list = (val (a ++ strip0 b)%list * 10 ^ Z.of_nat j)%Z) as V.
  { rewrite J at 1. rewrite app_assoc, val_app, val_zeros, repeat_length. lia. }
  rewrite V, <- K, AS, scan_digits by exact A. destruct (strip0 b) as [| c l] eqn:S0.
  - cbn [append]. rewrite scan_end by exact R. fold E. rewrite app_nil_r. cbn [List.length Z.of_nat]. rewrite Z.mul_0_l, Z.add_0_l. reflexivity.
  - rewrite AS. cbn [append]. change (scan (String "." ?s) ?m ?k ?p) with (scan s m k true). rewrite scan_digits by exact B'. rewrite scan_end by exact R. fold E.
    rewrite val_app. rewrite Z.mul_0_l, !Z.add_0_l. reflexivity.
Qed.
Lemma six_digit m : Forall is_digit (six m).
Proof. unfold six. apply Forall_forall. intros c I. apply in_map_iff in I. destruct I as [k [<- _]]. now eexists. Qed.
Lemma six_val m : (0 <= m < 10 ^ 6)%Z -> val (six m) = m.
Proof.
  intros H. unfold six. cbn [map val List.length]. rewrite !digit_val_eq.
  change (10 ^ 5)%Z with 100000%Z. change (10 ^ 4)%Z with 10000%Z. change (10 ^ 3)%Z with 1000%Z. change (10 ^ 2)%Z with 100%Z. change (10 ^ 1)%Z with 10%Z. change (10 ^ 0)%Z with 1%Z. change (10 ^ 6)%Z with 1000000%Z in H.
  change (10 ^ Z.of_nat 5)%Z with 100000%Z. change (10 ^ Z.of_nat 4)%Z with 10000%Z. change (10 ^ Z.of_nat 3)%Z with 1000%Z. change (10 ^ Z.of_nat 2)%Z with 100%Z. change (10 ^ Z.of_nat 1)%Z with 10%Z. change (10 ^ Z.of_nat 0)%Z with 1%Z.
  Z.div_mod_to_equations. lia.
Qed.
Lemma exp_str_val e : exp_val (exp_str e) = e.
Proof.
  assert (forall p, nat_val (pos_str p) = Zpos p) as N.
  { intros p. unfold nat_val, pos_str. rewrite NilEmpty.usu. unfold N.of_uint. rewrite DecimalPos.Unsigned.of_to. reflexivity. }
  assert (forall p, nat_val (String "0" (pos_str p)) = Zpos p) as N0.
  { intros p. rewrite <- (N p). unfold nat_val, pos_str. cbn [append NilEmpty.uint_of_string]. rewrite NilEmpty.usu. reflexivity. }
  unfold exp_str. destruct e as [| p | p]; [reflexivity | |]; cbn [Z.abs Z.ltb Z.compare append exp_val Ascii.eqb Bool.eqb];
    destruct (Zpos p <? 10)%Z; cbn [append]; rewrite ?N0, ?N; reflexivity.
Qed.
Lemma fmt_pos_scan n d m e : six_digits n d = (m, e) -> (scan (fmt_pos n d) 0 0 false == inject_Z m * pow10 (e - 5))%Q.
Proof.
  intros E. destruct (six_digits_spec _ _ _ _ E) as [B _]. unfold fmt_pos. rewrite E. pose proof (six_digit m) as D. pose proof (six_val m ltac:(lia)) as V.
  assert (List.length (six m) = 6) as L by reflexivity.
  assert (forall s, s = s ++ "") as NE by (induction s; cbn; congruence).
  destruct ((-4 <=? e)%Z && (e <? 6)%Z)%bool eqn:C; [destruct (Z.leb_spec 0 e) as [P | P] |].
  - apply andb_true_iff in C. destruct C as [_ C]. apply Z.ltb_lt in C. rewrite (NE (with_point _ _)), scan_point.
    + rewrite firstn_skipn, V, skipn_length, L. replace (0 - Z.of_nat (6 - (Z.to_nat e + 1)))%Z with (e - 5)%Z by lia. reflexivity.
    + rewrite <- (firstn_skipn (Z.to_nat e + 1) (six m)), Forall_app in D. tauto.
    + rewrite <- (firstn_skipn (Z.to_nat e + 1) (six m)), Forall_app in D. tauto.
    + now left.
  - rewrite (NE (with_point _ _)), scan_point.
    + rewrite val_app, val_app, val_zeros, V, app_length, repeat_length, L. change (val ["0"%char]) with 0%Z. rewrite !Z.mul_0_l, !Z.add_0_l.
      replace (0 - Z.of_nat (Z.to_nat (- e - 1) + 6))%Z with (e - 5)%Z by lia. reflexivity.
    + repeat constructor. now exists 0%Z.
    + apply Forall_app. split; [| exact D]. apply Forall_forall. intros c I. apply repeat_spec in I. subst c. now exists 0%Z.
    + now left.
  - rewrite scan_point.
    + rewrite firstn_skipn, V, skipn_length, L. cbn [append]. rewrite exp_str_val. change (Z.of_nat (6 - 1)) with 5%Z. reflexivity.
    + rewrite <- (firstn_skipn 1 (six m)), Forall_app in D. tauto.
    + rewrite <- (firstn_skipn 1 (six m)), Forall_app in D. tauto.
    + right. cbn. eauto.
Qed.
Lemma fmt_pos_head n d : exists z s, fmt_pos n d = String (digit z) s.
Proof.
  unfold fmt_pos. destruct (six_digits n d) as [m e]. destruct (_ && _)%bool; [destruct (0 <=? e)%Z |].
  - unfold six, with_point. rewrite Nat.add_1_r. cbn [map firstn string_of_list_ascii append]. eauto.
  - unfold with_point. cbn [string_of_list_ascii append]. exists 0%Z. eauto.
  - unfold six, with_point. cbn [map firstn string_of_list_ascii append]. eauto.
Qed.
Lemma fmt_pos_value n d : value (fmt_pos n d) = scan (fmt_pos n d) 0 0 false.
Proof.
  destruct (fmt_pos_head n d) as [z [s E]]. rewrite E. unfold value. pose proof (digit_cases z) as I.
  assert (Ascii.eqb (digit z) "-" = false) as ->; [| reflexivity]. cbn [In] in I. repeat destruct I as [<- | I]; try reflexivity. destruct I.
Qed.

(** the printed number is the number up to half a unit of the sixth digit *)
Lemma pos_close n d : (0 < value (fmt_pos n d) /\ Qabs (ratio n d - value (fmt_pos n d)) <= (5 # 1000000) * value (fmt_pos n d))%Q.
Proof.
  rewrite fmt_pos_value. destruct (six_digits n d) as [m e] eqn:E. rewrite (fmt_pos_scan _ _ _ _ E). destruct (six_digits_spec _ _ _ _ E) as [[B1 B2] [R1 R2]].
  pose proof (pow10_pos (e - 5)) as P. set (p := pow10 (e - 5)) in *. apply Zle_Q in B1. change (inject_Z (10 ^ 5)) with (100000 # 1)%Q in B1.
  assert (0 <= (inject_Z m - (100000 # 1)) * p)%Q as M by (apply Qmult_le_0_compat; lra).
  split; [lra |]. apply Qabs_Qle_condition. split; lra.
Qed.
Lemma fmt_close x : (Qabs (x - value (fmt_g x)) <= (5 # 1000000) * Qabs (value (fmt_g x)))%Q.
Proof.
  destruct x as [[| n | n] d]; unfold fmt_g; cbn [Qnum Qden].
  - assert (0 # d == 0)%Q as -> by reflexivity. vm_compute. discriminate.
  - destruct (pos_close n d) as [P C]. rewrite (Qabs_pos (value _)) by lra. exact C.
  - destruct (pos_close n d) as [P C]. rewrite fmt_pos_value in P, C. change (value ("-" ++ fmt_pos n d)) with (- scan (fmt_pos n d) 0 0 false)%Q.
    set (y := scan _ _ _ _) in *. assert (Zneg n # d == - ratio n d)%Q as -> by reflexivity.
    rewrite Qabs_opp, (Qabs_pos y) by lra. setoid_replace (- ratio n d - - y)%Q with (- (ratio n d - y))%Q by ring. now rewrite Qabs_opp.
Qed.
