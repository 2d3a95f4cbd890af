(** Exactness, action and termination of [collapse]. *)
From Verif Require Import Base BaseProofs Mat MatProofs ConvertModel CollapseProofs.
From Coq Require Import Field.

(** ** Exact value when no tiny non-zero number is added to a matrix *)

Inductive no_tiny : expr -> Prop :=
| nt_mat m : no_tiny (EMat m)
| nt_num a : no_tiny (ENum a)
| nt_mul l : Forall no_tiny l -> no_tiny (EMul l)
| nt_add a b :
    no_tiny a -> no_tiny b ->
    (forall c, den exactly_zero a = Some (VNum c) \/ den exactly_zero b = Some (VNum c) ->
               c = q0 \/ (threshold <= qabs c)%Qc) ->
    no_tiny (EAdd a b)
| nt_sub a b : no_tiny a -> no_tiny b -> no_tiny (ESub a b)
| nt_tr a : no_tiny a -> no_tiny (ETr a)
| nt_diag v : no_tiny (EDiag v)
| nt_matrix m : no_tiny (EMatrix m)
| nt_fun m n act : no_tiny (EFun m n act)
| nt_other : no_tiny EOther.

Fixpoint expr_ind' (P : expr -> Prop)
  (H1 : forall m, P (EMat m)) (H2 : forall a, P (ENum a))
  (H3 : forall l, Forall P l -> P (EMul l))
  (H4 : forall a b, P a -> P b -> P (EAdd a b))
  (H5 : forall a b, P a -> P b -> P (ESub a b))
  (H6 : forall a, P a -> P (ETr a)) (H7 : forall v, P (EDiag v))
  (H8 : forall m, P (EMatrix m)) (H9 : forall m n act, P (EFun m n act)) (H10 : P EOther)
  (e : expr) : P e :=
  let rec := expr_ind' P H1 H2 H3 H4 H5 H6 H7 H8 H9 H10 in
  match e with
  | EMat m => H1 m
  | ENum a => H2 a
  | EMul l => H3 l ((fix go l : Forall P l :=
                       match l with [] => Forall_nil P | x :: l' => Forall_cons x (rec x) (go l') end) l)
  | EAdd a b => H4 a b (rec a) (rec b)
  | ESub a b => H5 a b (rec a) (rec b)
  | ETr a => H6 a (rec a)
  | EDiag v => H7 v
  | EMatrix m => H8 m
  | EFun m n act => H9 m n act
  | EOther => H10
  end.

Lemma no_tiny_same c : c = q0 \/ (threshold <= qabs c)%Qc -> tiny c = exactly_zero c.
Proof.
  intros [->|H].
  - vm_compute. reflexivity.
  - unfold tiny, exactly_zero.
    destruct (qltb (qabs c) threshold) eqn:E.
    + apply qltb_lt in E. exfalso. apply (Qclt_not_le _ _ E H).
    + symmetry. destruct (qeqb c q0) eqn:E'; [|reflexivity].
      apply qeqb_eq in E'. subst. vm_compute in E. discriminate.
Qed.

Lemma den_no_tiny e : no_tiny e -> den tiny e = den exactly_zero e.
Proof.
  induction e as [m|a|l IH|a b IHa IHb|a b IHa IHb|a IHa|v|m|m n act|] using expr_ind';
    intros H; inversion H; subst; cbn [den]; try reflexivity.
  - f_equal. apply map_ext_in. intros x Hx. rewrite Forall_forall in *. auto.
  - rewrite IHa, IHb by assumption.
    destruct (den exactly_zero a) as [[A|x]|]; cbn; auto;
    destruct (den exactly_zero b) as [[B|y]|]; cbn; auto;
    rewrite no_tiny_same by eauto; reflexivity.
  - rewrite IHa, IHb by assumption. reflexivity.
  - rewrite IHa by assumption. reflexivity.
Qed.

Theorem collapse_exact fuel e r :
  wf_chains e -> no_tiny e -> collapse fuel e = Ok r ->
  exists v v', val_of r = Some v /\ den exactly_zero e = Some v' /\ veq v v'.
Proof.
  intros W N E. rewrite <- den_no_tiny by assumption. eapply collapse_sound; eassumption.
Qed.

(** ** The action of an expression on vectors, as cbc.block evaluates it.
    [acts t e x y]: e ([t = false]) or its transpose ([t = true]) maps x to y. *)
Inductive acts : bool -> expr -> vec -> vec -> Prop :=
| act_mat m x : length x = nc m -> acts false (EMat m) x (mv m x)
| act_mat_t m x : length x = nr m -> acts true (EMat m) x (mv (mtr m) x)
| act_num t a x : acts t (ENum a) x (vscale a x)
| act_mul t l x y : acts_chain t (if t then l else rev l) x y -> l <> [] -> acts t (EMul l) x y
| act_add t a b x y z : acts t a x y -> acts t b x z -> length y = length z ->
    acts t (EAdd a b) x (vadd y z)
| act_sub t a b x y z : acts t a x y -> acts t b x z -> length y = length z ->
    acts t (ESub a b) x (vsub y z)
| act_tr t a x y : acts (negb t) a x y -> acts t (ETr a) x y
| act_diag t v x : length x = length v ->
    acts t (EDiag v) x (vtab (length v) (fun i => (vnth v i * vnth x i)%Qc))
| act_matrix m x : length x = nc m -> acts false (EMatrix m) x (mv m x)
| act_matrix_t m x : length x = nr m -> acts true (EMatrix m) x (mv (mtr m) x)
with acts_chain : bool -> list expr -> vec -> vec -> Prop :=
| actc_nil t x : acts_chain t [] x x
| actc_cons t e l x y z : acts t e x y -> acts_chain t l y z -> acts_chain t (e :: l) x z.

Scheme acts_mut := Induction for acts Sort Prop
with acts_chain_mut := Induction for acts_chain Sort Prop.

(** A value maps x to y. *)
Definition vact (t : bool) (v : val) (x y : vec) : Prop :=
  match v with
  | VNum a => y = vscale a x
  | VMat A => y = mv (if t then mtr A else A) x /\ length x = nc (if t then mtr A else A)
  end.

Lemma vact_veq t u v x y : veq u v -> vact t u x y -> vact t v x y.
Proof.
  destruct u as [A|a], v as [B|b]; cbn [veq vact]; try contradiction.
  - intros H [E L]. destruct t.
    + split.
      * rewrite E. apply mv_meq, mtr_meq, H.
      * destruct H as (H1 & H2 & _). cbn in *. congruence.
    + split; [rewrite E; apply mv_meq, H|destruct H as (H1 & H2 & _); congruence].
  - congruence.
Qed.

Lemma mtr_mtr A : meq (mtr (mtr A)) A.
Proof. repeat split. Qed.
Lemma mtr_mmul A B : nc A = nr B -> meq (mtr (mmul A B)) (mmul (mtr B) (mtr A)).
Proof.
  intros E. repeat split. intros i j Hi Hj. cbn. rewrite E. apply sumn_ext. intros; ring.
Qed.

Lemma vscale_length a x : length (vscale a x) = length x.
Proof. apply vtab_length. Qed.
Lemma vnth_vscale a x i : vnth (vscale a x) i = (a * vnth x i)%Qc.
Proof.
  destruct (Nat.lt_ge_cases i (length x)) as [H|H].
  - unfold vscale. rewrite vnth_vtab by assumption. reflexivity.
  - unfold vnth. rewrite !nth_overflow by (rewrite ?vscale_length; assumption). unfold q0; ring.
Qed.
Lemma mv_vscale A a x : mv A (vscale a x) = vscale a (mv A x).
Proof.
  apply vec_ext; [rewrite vscale_length, !mv_length; reflexivity|].
  rewrite mv_length. intros i Hi. rewrite vnth_vscale, !vnth_mv by assumption.
  rewrite <- sumn_scal. apply sumn_ext. intros. rewrite vnth_vscale. ring.
Qed.
Lemma mv_mscale A a x : mv (mscale a A) x = vscale a (mv A x).
Proof.
  apply vec_ext; [rewrite vscale_length, !mv_length; reflexivity|].
  rewrite mv_length. cbn [mscale nr]. intros i Hi. rewrite vnth_vscale, !vnth_mv by assumption.
  rewrite <- sumn_scal. apply sumn_ext. intros. cbn. ring.
Qed.
Lemma vscale_vscale a b x : vscale a (vscale b x) = vscale (a * b) x.
Proof.
  apply vec_ext; [rewrite !vscale_length; reflexivity|].
  intros. rewrite !vnth_vscale. ring.
Qed.

(** One product step. *)
Lemma vact_mul u v w x y z :
  vmul u v = Some w -> vact false v x y -> vact false u y z -> vact false w x z.
Proof.
  destruct u as [A|a], v as [B|b]; cbn [vmul vact]; intros E.
  - destruct (Nat.eqb_spec (nc A) (nr B)) as [D|]; [|discriminate]. inversion E; subst. cbn [vact].
    intros [-> L1] [-> L2]. split; [|assumption]. symmetry. apply mv_mmul. assumption.
  - inversion E; subst. intros -> [-> L]. cbn [vact]. rewrite vscale_length in L.
    split; [|assumption]. rewrite mv_vscale, mv_mscale. reflexivity.
  - inversion E; subst. intros [-> L] ->. cbn [vact]. split; [|assumption]. rewrite mv_mscale. reflexivity.
  - inversion E; subst. intros -> ->. apply vscale_vscale.
Qed.
Lemma vact_mul_t u v w x y z :
  vmul u v = Some w -> vact true u x y -> vact true v y z -> vact true w x z.
Proof.
  destruct u as [A|a], v as [B|b]; cbn [vmul vact]; intros E.
  - destruct (Nat.eqb_spec (nc A) (nr B)) as [D|]; [|discriminate]. inversion E; subst. cbn [vact].
    intros [-> L1] [-> L2]. split; [|assumption].
    rewrite (mv_meq _ _ _ (mtr_mmul A B D)). symmetry. apply mv_mmul. cbn; congruence.
  - inversion E; subst. intros [-> L] ->. cbn [vact]. split; [|assumption].
    change (mtr (mscale b A)) with (mscale b (mtr A)). rewrite mv_mscale. reflexivity.
  - inversion E; subst. intros -> [-> L]. cbn [vact]. rewrite vscale_length in L. split; [|assumption].
    change (mtr (mscale a B)) with (mscale a (mtr B)). rewrite mv_mscale, mv_vscale. reflexivity.
  - inversion E; subst. intros -> ->. cbn [vact]. rewrite vscale_vscale, (Qcmult_comm b a). reflexivity.
Qed.

Lemma mv_madd A B x : nr A = nr B -> nc A = nc B -> mv (madd A B) x = vadd (mv A x) (mv B x).
Proof.
  intros E1 E2. apply vec_ext; [unfold vadd; rewrite vtab_length, !mv_length; reflexivity|].
  rewrite mv_length. cbn [madd nr]. intros i Hi. unfold vadd. rewrite vnth_vtab by (rewrite mv_length; assumption).
  rewrite !vnth_mv by (cbn; lia). rewrite <- E2, <- sumn_plus. apply sumn_ext. intros. cbn. ring.
Qed.
Lemma mv_msub A B x : nr A = nr B -> nc A = nc B -> mv (msub A B) x = vsub (mv A x) (mv B x).
Proof.
  intros E1 E2. apply vec_ext; [unfold vsub; rewrite vtab_length, !mv_length; reflexivity|].
  rewrite mv_length. cbn [msub nr]. intros i Hi. unfold vsub. rewrite vnth_vtab by (rewrite mv_length; assumption).
  rewrite !vnth_mv by (cbn; lia). rewrite <- E2, <- sumn_minus. apply sumn_ext. intros. cbn. ring.
Qed.
Lemma mv_scaled_mid n a x : length x = n -> mv (mscale a (mid n)) x = vscale a x.
Proof. intros. rewrite mv_mscale, mv_mid by assumption. reflexivity. Qed.

Lemma mtr_mid n : meq (mtr (mid n)) (mid n).
Proof. repeat split. intros i j Hi Hj. cbn. rewrite Nat.eqb_sym. reflexivity. Qed.

Lemma vadd_comm x y : length x = length y -> vadd x y = vadd y x.
Proof.
  intros E. apply vec_ext; unfold vadd; rewrite !vtab_length; [assumption|].
  intros i Hi. rewrite !vnth_vtab by lia. ring.
Qed.
Lemma vadd_vscale0 x y : length x = length y -> vadd x (vscale q0 y) = x.
Proof.
  intros E. apply vec_ext; unfold vadd; rewrite vtab_length; [reflexivity|].
  intros i Hi. rewrite vnth_vtab by lia. rewrite vnth_vscale. unfold q0; ring.
Qed.
Lemma vsub_vscale0 x y : length x = length y -> vsub x (vscale q0 y) = x.
Proof.
  intros E. apply vec_ext; unfold vsub; rewrite vtab_length; [reflexivity|].
  intros i Hi. rewrite vnth_vtab by lia. rewrite vnth_vscale. unfold q0; ring.
Qed.

(** Sums. *)
Lemma vact_add t u v w x y z :
  vadd_ exactly_zero u v = Some w -> vact t u x y -> vact t v x z -> length y = length z ->
  vact t w x (vadd y z).
Proof.
  destruct u as [A|a], v as [B|b]; cbn [vadd_ vact]; intros E.
  - destruct (Nat.eqb_spec (nr A) (nr B)) as [D1|]; [|discriminate].
    destruct (Nat.eqb_spec (nc A) (nc B)) as [D2|]; [|discriminate]. inversion E; subst. cbn [vact].
    intros [-> L1] [-> L2] _. destruct t; (split; [|assumption]).
    + change (mtr (madd A B)) with (madd (mtr A) (mtr B)). symmetry. apply mv_madd; cbn; congruence.
    + symmetry. apply mv_madd; assumption.
  - destruct (exactly_zero b) eqn:Z.
    + apply qeqb_eq in Z. subst. inversion E; subst. intros [-> L] -> Ly. cbn [vact]. split; [|assumption].
      apply vadd_vscale0. rewrite vscale_length in Ly. assumption.
    + destruct (Nat.eqb_spec (nr A) (nc A)) as [D|]; [|discriminate]. inversion E; subst.
      intros [-> L] -> Ly. cbn [vact]. destruct t; cbn in L; (split; [|assumption]).
      * change (mtr (madd A (mscale b (mid (nr A))))) with (madd (mtr A) (mscale b (mtr (mid (nr A))))).
        rewrite mv_madd by (cbn; congruence). f_equal.
        rewrite (mv_meq _ _ _ (mscale_meq b _ _ (mtr_mid (nr A)))), mv_scaled_mid by assumption. reflexivity.
      * rewrite mv_madd by (cbn; congruence). f_equal. rewrite mv_scaled_mid by congruence. reflexivity.
  - destruct (exactly_zero a) eqn:Z.
    + apply qeqb_eq in Z. subst. inversion E; subst. intros -> [-> L] Ly. cbn [vact]. split; [|assumption].
      rewrite vadd_comm by assumption. apply vadd_vscale0. rewrite vscale_length in Ly. congruence.
    + destruct (Nat.eqb_spec (nr B) (nc B)) as [D|]; [|discriminate]. inversion E; subst.
      intros -> [-> L] Ly. cbn [vact]. destruct t; cbn in L; (split; [|cbn; congruence]).
      * change (mtr (madd (mscale a (mid (nr B))) B)) with (madd (mscale a (mtr (mid (nr B)))) (mtr B)).
        rewrite mv_madd by (cbn; congruence). f_equal.
        rewrite (mv_meq _ _ _ (mscale_meq a _ _ (mtr_mid (nr B)))), mv_scaled_mid by assumption. reflexivity.
      * rewrite mv_madd by (cbn; congruence). f_equal. rewrite mv_scaled_mid by congruence. reflexivity.
  - inversion E; subst. intros -> -> _. cbn [vact]. apply vec_ext; unfold vadd; rewrite ?vtab_length, ?vscale_length; [reflexivity|].
    intros i Hi. rewrite vnth_vtab by assumption. rewrite !vnth_vscale. ring.
Qed.

Lemma vact_sub t u v w x y z :
  vsub_ u v = Some w -> vact t u x y -> vact t v x z -> length y = length z ->
  vact t w x (vsub y z).
Proof.
  destruct u as [A|a], v as [B|b]; cbn [vsub_ vact]; intros E.
  - destruct (Nat.eqb_spec (nr A) (nr B)) as [D1|]; [|discriminate].
    destruct (Nat.eqb_spec (nc A) (nc B)) as [D2|]; [|discriminate]. inversion E; subst. cbn [vact].
    intros [-> L1] [-> L2] _. destruct t; (split; [|assumption]).
    + change (mtr (msub A B)) with (msub (mtr A) (mtr B)). symmetry. apply mv_msub; cbn; congruence.
    + symmetry. apply mv_msub; assumption.
  - destruct (qeqb b q0) eqn:Z.
    + apply qeqb_eq in Z. subst. inversion E; subst. intros [-> L] -> Ly. cbn [vact]. split; [|assumption].
      apply vsub_vscale0. rewrite vscale_length in Ly. assumption.
    + destruct (Nat.eqb_spec (nr A) (nc A)) as [D|]; [|discriminate]. inversion E; subst.
      intros [-> L] -> Ly. cbn [vact]. destruct t; cbn in L; (split; [|assumption]).
      * change (mtr (msub A (mscale b (mid (nr A))))) with (msub (mtr A) (mscale b (mtr (mid (nr A))))).
        rewrite mv_msub by (cbn; congruence). f_equal.
        rewrite (mv_meq _ _ _ (mscale_meq b _ _ (mtr_mid (nr A)))), mv_scaled_mid by assumption. reflexivity.
      * rewrite mv_msub by (cbn; congruence). f_equal. rewrite mv_scaled_mid by congruence. reflexivity.
  - destruct (qeqb a q0) eqn:Z.
    + apply qeqb_eq in Z. subst. inversion E; subst. intros -> [-> L] Ly. cbn [vact]. split; [|destruct t; assumption].
      replace (if t then mtr (mscale (- q1) B) else mscale (- q1) B)
        with (mscale (- q1) (if t then mtr B else B)) by (destruct t; reflexivity).
      rewrite mv_mscale. apply vec_ext; unfold vsub; rewrite vtab_length, ?vscale_length;
        [rewrite vscale_length in Ly; assumption|].
      intros i Hi. rewrite vnth_vtab by lia. rewrite !vnth_vscale.
      unfold q0, q1; ring.
    + destruct (Nat.eqb_spec (nr B) (nc B)) as [D|]; [|discriminate]. inversion E; subst.
      intros -> [-> L] Ly. cbn [vact]. destruct t; cbn in L; (split; [|cbn; congruence]).
      * change (mtr (msub (mscale a (mid (nr B))) B)) with (msub (mscale a (mtr (mid (nr B)))) (mtr B)).
        rewrite mv_msub by (cbn; congruence). f_equal.
        rewrite (mv_meq _ _ _ (mscale_meq a _ _ (mtr_mid (nr B)))), mv_scaled_mid by assumption. reflexivity.
      * rewrite mv_msub by (cbn; congruence). f_equal. rewrite mv_scaled_mid by congruence. reflexivity.
  - inversion E; subst. intros -> -> _. cbn [vact]. apply vec_ext; unfold vsub; rewrite ?vtab_length, ?vscale_length; [reflexivity|].
    intros i Hi. rewrite vnth_vtab by assumption. rewrite !vnth_vscale. ring.
Qed.

Lemma mv_mdiag n d x : mv (mdiag n d) x = vtab n (fun i => (d i * vnth x i)%Qc).
Proof.
  apply vec_ext; rewrite ?vtab_length, mv_length; [reflexivity|]. intros i Hi. cbn in Hi.
  rewrite vnth_mv, vnth_vtab by assumption. cbn [mdiag nc ent].
  rewrite (sumn_single n i) by (first [lia | intros j Hj Hne; destruct (Nat.eqb_spec i j); [lia|unfold q0; ring]]).
  rewrite Nat.eqb_refl. reflexivity.
Qed.

(** A chain of actions composes to the action of the product. *)
Definition chain_ok (t : bool) (l : list expr) (x y : vec) : Prop :=
  l <> [] -> forall v, oprod (map (den exactly_zero) (if t then l else rev l)) = Some v -> vact t v x y.

Lemma omul_some u v w : omul u v = Some w -> exists a b, u = Some a /\ v = Some b /\ vmul a b = Some w.
Proof. destruct u, v; cbn; try discriminate. eauto. Qed.

Lemma den_acts t e x y : acts t e x y -> forall v, den exactly_zero e = Some v -> vact t v x y.
Proof.
  intros H.
  induction H using acts_mut with
    (P := fun t e x y _ => forall v, den exactly_zero e = Some v -> vact t v x y)
    (P0 := fun t l x y _ => chain_ok t l x y).
  - intros v E; inversion E; subst. cbn. auto.
  - intros v E; inversion E; subst. cbn. auto.
  - intros v E; inversion E; subst. reflexivity.
  - intros v E. cbn [den] in E. destruct t.
    + apply IHacts; assumption.
    + apply IHacts.
      * intros C. apply (f_equal (@rev expr)) in C. rewrite rev_involutive in C. contradiction.
      * rewrite rev_involutive. assumption.
  - intros v E. cbn [den] in E. destruct (den exactly_zero a) as [u|]; [|discriminate].
    destruct (den exactly_zero b) as [w|]; [|discriminate]. cbn [obind] in E.
    eapply vact_add; eauto.
  - intros v E. cbn [den] in E. destruct (den exactly_zero a) as [u|]; [|discriminate].
    destruct (den exactly_zero b) as [w|]; [|discriminate]. cbn [obind] in E.
    eapply vact_sub; eauto.
  - intros v E. cbn [den] in E. destruct (den exactly_zero a) as [u|]; [|discriminate].
    inversion E; subst. specialize (IHacts u eq_refl).
    destruct u as [A|a']; cbn [vtr vact] in *; [|assumption].
    destruct t; cbn [negb] in IHacts.
    + rewrite (mv_meq _ _ _ (mtr_mtr A)). exact IHacts.
    + exact IHacts.
  - intros w E. inversion E; subst. cbn [vact]. destruct t.
    + split; [|cbn; assumption].
      transitivity (mv (mdiag (length v) (vnth v)) x); [symmetry; apply mv_mdiag|].
      apply mv_meq. repeat split. intros i j Hi Hj. cbn. rewrite Nat.eqb_sym.
      destruct (Nat.eqb_spec j i); congruence.
    + split; [|cbn; assumption]. symmetry; apply mv_mdiag.
  - intros v E; inversion E; subst. cbn. auto.
  - intros v E; inversion E; subst. cbn. auto.
  - intros C. congruence.
  - intros _ v E. destruct t.
    + cbn [map] in E. destruct l as [|e' l].
      * match goal with K : acts_chain _ [] _ _ |- _ => inversion K; subst end. apply IHacts. exact E.
      * rewrite oprod_cons in E by discriminate.
        apply omul_some in E as (u & w & Eu & Ew & Em).
        eapply vact_mul_t; [exact Em|apply IHacts; exact Eu|].
        apply IHacts0; [discriminate|exact Ew].
    + destruct l as [|e' l].
      * match goal with K : acts_chain _ [] _ _ |- _ => inversion K; subst end. apply IHacts. exact E.
      * cbn [rev] in E. rewrite map_app in E.
        assert (O := oprod_app (map (den exactly_zero) (rev (e' :: l))) (map (den exactly_zero) [e])).
        cbn [rev] in O. rewrite E in O.
        assert (N1 : map (den exactly_zero) (rev l ++ [e']) <> []).
        { rewrite map_app. intros C. apply app_eq_nil in C as [_ C]. discriminate. }
        specialize (O N1). assert (N2 : map (den exactly_zero) [e] <> []) by discriminate.
        specialize (O N2). cbn [map oprod] in O.
        apply oeq_sym, oeq_some_l in O as (w & Ew & Hw).
        apply omul_some in Ew as (p & q & Ep & Eq & Em).
        apply (vact_veq false w v); [exact Hw|].
        eapply vact_mul; [exact Em|apply IHacts; exact Eq|].
        apply IHacts0; [discriminate|]. cbn [rev]. exact Ep.
Qed.

(** The returned object acts as the expression does. *)
Theorem collapse_acts fuel e r x y :
  wf_chains e -> no_tiny e -> collapse fuel e = Ok r -> acts false e x y ->
  match r with
  | EMat A => y = mv A x /\ length x = nc A
  | ENum a => y = vscale a x
  | _ => False
  end.
Proof.
  intros W N E A. destruct (collapse_exact _ _ _ W N E) as (v & v' & H1 & H2 & H3).
  apply den_acts with (v := v') in A; [|assumption].
  apply veq_sym in H3. apply (vact_veq _ _ _ _ _ H3) in A.
  destruct r; try discriminate; inversion H1; subst; exact A.
Qed.
