(** The chain rule for the meaning of forms (see JacProofs.v). *)
From Verif Require Import Base BaseProofs UflModel UflProofs JacModel JacProofs.
From Coq Require Import Reals Lra.
Local Open Scope R_scope.
Local Arguments Nat.eqb : simpl never.

Lemma rsum_app a b : rsum (a ++ b) = rsum a + rsum b.
Proof. unfold rsum. induction a as [|x a IH]; cbn [app fold_right]; [lra|]. rewrite IH. lra. Qed.
Lemma rsum_cons x a : rsum (x :: a) = x + rsum a.
Proof. reflexivity. Qed.

Section Sem.
Variable info : nat -> cinfo.
Variable I : interp.

Lemma ev_op env ty ops : modifier I ty = None -> ev I env (Node ty ops) = op I ty (map (ev I env) ops).
Proof. intros H. cbn [ev]. rewrite H. reflexivity. Qed.

Lemma ev_ext e : forall env env', (forall s k, occurs s e -> env s k = env' s k) -> ev I env e = ev I env' e.
Proof.
  induction e as [t|ty ops IH] using expr_ind2; intros env env' H.
  - apply H. constructor.
  - assert (M : map (ev I env) ops = map (ev I env') ops).
    { apply map_ext_in. intros x Hx. rewrite Forall_forall in IH. apply IH; [assumption|]. intros s k O. apply H. econstructor; eassumption. }
    cbn [ev]. rewrite M. destruct (modifier I ty) as [k|]; [|reflexivity].
    destruct ops as [|[t|? ?] [|? ?]]; try reflexivity. apply H. apply occurs_node with (x := Leaf t); [left; reflexivity|constructor].
Qed.

Lemma lim_ext f g x l : (forall t, f t = g t) -> derivable_pt_lim f x l -> derivable_pt_lim g x l.
Proof. intros E H eps He. destruct (H eps He) as (d & Hd). exists d. intros h Hh Hl. rewrite <- !E. apply Hd; assumption. Qed.

Lemma rsum_dot_add g a b : length a = length b -> dot g (map (fun p => fst p + snd p) (combine a b)) = dot g a + dot g b.
Proof.
  unfold dot. revert g b. induction a as [|x a IH]; intros g [|y b] H; try discriminate; destruct g as [|z g]; cbn; try lra.
  fold (rsum (map (fun p => fst p * snd p) (combine g (map (fun p => fst p + snd p) (combine a b))))).
  rewrite (IH g b); [|cbn in H; congruence]. unfold rsum. lra.
Qed.

(** Along every direction the value of a smooth expression has a derivative,
    which is additive in the direction. *)
Definition plus (a b : term -> nat -> R) : term -> nat -> R := fun s k => a s k + b s k.
Definition along (env dir : term -> nat -> R) (t : R) : term -> nat -> R := fun s k => env s k + t * dir s k.

Definition chain_of (env : term -> nat -> R) (e : expr) (L : (term -> nat -> R) -> R) : Prop :=
  (forall a b, L (plus a b) = L a + L b) /\
  (forall a b, (forall s k, occurs s e -> a s k = b s k) -> L a = L b) /\
  forall a, derivable_pt_lim (fun t => ev I (along env a t) e) 0 (L a).

Lemma Forall_ex {A B} (P : A -> B -> Prop) l : (forall x, In x l -> exists y, P x y) -> exists m, Forall2 P l m.
Proof.
  induction l as [|x l IH]; intros H; [exists []; constructor|]. destruct (H x (or_introl eq_refl)) as (y & Hy).
  destruct IH as (m & Hm); [intros z Hz; apply H; right; assumption|]. exists (y :: m). constructor; assumption.
Qed.

Lemma lim_affine x a : derivable_pt_lim (fun t => x + t * a) 0 a.
Proof.
  intros eps He. exists (mkposreal 1 Rlt_0_1). intros h Hh _.
  replace ((x + (0 + h) * a - (x + 0 * a)) / h - a) with 0 by (field; assumption). rewrite Rabs_R0. assumption.
Qed.

Lemma chain env e : smooth I env e -> exists L, chain_of env e L.
Proof.
  induction e as [t|ty ops IH] using expr_ind2; intros H.
  - exists (fun a => a t 0%nat). split; [reflexivity|]. split; [intros a b E; apply E; constructor|].
    intros a. cbn [ev]. unfold along. apply lim_affine.
  - inversion H as [|ty' k t Hm N|ty' ops' g Hm N N' Hs [Lg Hg]]; subst.
    + exists (fun a => a t k). split; [reflexivity|]. split.
      * intros a b E. apply E. apply occurs_node with (x := Leaf t); [left; reflexivity|constructor].
      * intros a. cbn [ev]. rewrite Hm. unfold along. apply lim_affine.
    + rewrite Forall_forall in IH. destruct (Forall_ex (chain_of env) ops) as (Ls & F).
      { intros x Hx. apply IH; auto. }
      exists (fun a => dot g (map (fun L => L a) Ls)). split; [|split].
      * intros a b. rewrite <- rsum_dot_add by (rewrite !map_length; reflexivity). f_equal.
        clear - F. induction F as [|x L l m (H & _) F IHF]; cbn; [reflexivity|]. rewrite H, IHF. reflexivity.
      * intros a b E. f_equal.
        assert (K : forall x, In x ops -> forall s k, occurs s x -> a s k = b s k) by (intros x Hx s k O; apply E; econstructor; eassumption).
        clear - F K. induction F as [|x L l m (_ & H & _) F IHF]; cbn; [reflexivity|]. f_equal.
        -- apply H. apply K. left. reflexivity.
        -- apply IHF. intros y Hy. apply K. right. assumption.
      * intros a. apply (lim_ext (fun t => op I ty (map (fun c => c t) (map (fun x t => ev I (along env a t) x) ops)))).
        { intros t. rewrite ev_op by assumption. rewrite map_map. reflexivity. }
        apply Hg.
        -- clear - F. induction F as [|x L l m H F IHF]; cbn; constructor; [|assumption].
           apply ev_ext. intros s k _. unfold along. lra.
        -- clear - F. induction F as [|x L l m (_ & _ & H) F IHF]; cbn; constructor; [apply H|assumption].
Qed.

(** ** Integrals *)

Definition dirs := point I -> term -> nat -> R.
Definition plusd (a b : dirs) : dirs := fun q s k => a q s k + b q s k.

Section Env.
Variable env : point I -> term -> nat -> R.

(** The direction of a derivative node *)
Definition node_dir (c d : term) : dirs := fun q s k => if kind_eqb (tkind s) (tkind c) then env q d k else 0.

Lemma moved_along c d q t s k : moved (env q) c d t s k = along (env q) (node_dir c d q) t s k.
Proof. unfold moved, along, node_dir. destruct (kind_eqb _ _); lra. Qed.

Lemma lim_sum f g x l m : derivable_pt_lim f x l -> derivable_pt_lim g x m -> derivable_pt_lim (fun t => f t + g t) x (l + m).
Proof. intros. change (fun t => f t + g t) with (f + g)%F. apply derivable_pt_lim_plus; assumption. Qed.
Lemma lim_scal a f x l : derivable_pt_lim f x l -> derivable_pt_lim (fun t => a * f t) x (a * l).
Proof. intros. change (fun t => a * f t) with (mult_real_fct a f). apply derivable_pt_lim_scal; assumption. Qed.
Lemma lim_const a x : derivable_pt_lim (fun _ => a) x 0.
Proof. apply derivable_pt_lim_const. Qed.

Lemma integral_chain e ps : (forall w q, In (w, q) ps -> smooth I (env q) e) ->
  exists L : dirs -> R,
    (forall a b, L (plusd a b) = L a + L b) /\
    (forall a b, (forall q s k, occurs s e -> a q s k = b q s k) -> L a = L b) /\
    (forall a, derivable_pt_lim (fun t => rsum (map (fun wq => fst wq * ev I (along (env (snd wq)) (a (snd wq)) t) e) ps)) 0 (L a)) /\
    (forall c d, exists xs,
      Forall2 (fun wq y => is_val I (env (snd wq)) (Node ty_deriv [e; Node ty_list [Leaf c]; Node ty_list [Leaf d]]) y) ps xs /\
      L (node_dir c d) = rsum (map (fun p => fst (fst p) * snd p) (combine ps xs))).
Proof.
  induction ps as [|(w & q) ps IH]; intros H.
  - exists (fun _ => 0). split; [intros; lra|]. split; [reflexivity|]. split; [intros a; cbn [map]; exact (lim_const 0 0)|].
    intros c d. exists []. split; [constructor|reflexivity].
  - destruct IH as (L & L1 & L2 & L3 & L4). { intros w' q' Hq. apply (H w' q'). right. assumption. }
    destruct (chain (env q) e (H w q (or_introl eq_refl))) as (K & K1 & K2 & K3).
    exists (fun a => w * K (a q) + L a). split; [|split; [|split]].
    + intros a b. rewrite L1. change (plusd a b q) with (plus (a q) (b q)). rewrite K1. lra.
    + intros a b E. rewrite (L2 a b E), (K2 (a q) (b q)); [reflexivity|]. intros s k O. apply E. assumption.
    + intros a. cbn [map fst snd]. apply (lim_ext (fun t => w * ev I (along (env q) (a q) t) e +
         rsum (map (fun wq => fst wq * ev I (along (env (snd wq)) (a (snd wq)) t) e) ps))); [reflexivity|].
      apply lim_sum; [apply lim_scal; apply K3|apply L3].
    + intros c d. destruct (L4 c d) as (xs & X1 & X2). exists (K (node_dir c d q) :: xs). split.
      * constructor; [|assumption]. cbn [fst snd is_val ty_deriv ty_list].
        apply (lim_ext (fun t => ev I (along (env q) (node_dir c d q) t) e)); [|apply K3].
        intros t. apply ev_ext. intros s k _. symmetry. apply moved_along.
      * cbn [combine map fst snd]. rewrite rsum_cons, X2. reflexivity.
Qed.
End Env.

Variables vecs args : nat -> nat -> R.
Let env (q : point I) : term -> nat -> R := tval info I vecs args q.

Lemma form_chain f : (forall m e w q, In (m, e) f -> In (w, q) (points I m) -> smooth I (env q) e) ->
  exists L : dirs -> R,
    (forall a b, L (plusd a b) = L a + L b) /\
    (forall a b, (forall q s k, in_form s f -> a q s k = b q s k) -> L a = L b) /\
    (forall a, derivable_pt_lim (fun t => rsum (map (fun me => rsum (map (fun wq =>
        fst wq * ev I (along (env (snd wq)) (a (snd wq)) t) (snd me)) (points I (fst me)))) f)) 0 (L a)) /\
    (forall sp c, exists xs, Forall2 (integral_value info I vecs args) (flat_map (wrap sp c) f) xs /\
       L (node_dir env c (direction sp c)) = rsum xs).
Proof.
  induction f as [|(m & e) f IH]; intros H.
  - exists (fun _ => 0). split; [intros; lra|]. split; [reflexivity|]. split; [intros a; cbn [map]; exact (lim_const 0 0)|].
    intros sp c. exists []. split; [constructor|reflexivity].
  - destruct IH as (L & L1 & L2 & L3 & L4). { intros m' e' w q Hm Hq. apply (H m' e' w q); [right; assumption|assumption]. }
    destruct (integral_chain env e (points I m)) as (K & K1 & K2 & K3 & K4).
    { intros w q Hq. apply (H m e w q); [left; reflexivity|assumption]. }
    exists (fun a => K a + L a). split; [|split; [|split]].
    + intros a b. rewrite L1, K1. lra.
    + intros a b E. rewrite (L2 a b), (K2 a b); [reflexivity| |].
      * intros q s k O. apply E. exists m, e. split; [left; reflexivity|assumption].
      * intros q s k (m' & e' & Hm & O). apply E. exists m', e'. split; [right; assumption|assumption].
    + intros a. cbn [map fst snd]. apply (lim_ext (fun t => rsum (map (fun wq => fst wq * ev I (along (env (snd wq)) (a (snd wq)) t) e) (points I m)) +
         rsum (map (fun me => rsum (map (fun wq => fst wq * ev I (along (env (snd wq)) (a (snd wq)) t) (snd me)) (points I (fst me)))) f))); [reflexivity|].
      apply lim_sum; [apply K3|apply L3].
    + intros sp c. destruct (L4 sp c) as (xs & X1 & X2). cbn [flat_map]. unfold wrap at 1. cbn [fst snd].
      destruct (here c e) eqn:E.
      * destruct (K4 c (direction sp c)) as (ys & Y1 & Y2).
        exists (K (node_dir env c (direction sp c)) :: xs). split; [|rewrite rsum_cons, X2; reflexivity].
        cbn [app]. constructor; [|assumption]. exists ys. split; [exact Y1|exact Y2].
      * exists xs. split; [exact X1|]. rewrite <- X2.
        assert (Z : K (fun _ _ _ => 0) = 0).
        { assert (Z : K (fun _ _ _ => 0) = K (fun _ _ _ => 0) + K (fun _ _ _ => 0)); [|lra].
          rewrite <- K1. apply K2. intros. unfold plusd. lra. }
        rewrite (K2 _ (fun _ _ _ => 0)); [rewrite Z; lra|]. intros q s k O. unfold node_dir.
        destruct (kind_eqb (tkind s) (tkind c)) eqn:B; [|reflexivity]. apply kind_eqb_spec in B.
        assert (here c e = true) by (apply here_spec; eauto). congruence.
Qed.

(** The direction in which the terminals move with the vector vx *)
Definition vec_dir (vx : nat) : dirs := fun q s k =>
  match tkind s with
  | KArg _ _ => 0
  | KOther i => match info i with
                | CFun sp v => if Nat.eqb v vx then reads I sp (attrs_of s) q k (args 1%nat) else 0
                | _ => 0
                end
  end.

Lemma shifted_val vx t q s k : (forall v, tkind s <> KArg 1 v) ->
  tval info I (shifted vecs vx (args 1%nat) t) args q s k = along (env q) (vec_dir vx q) t s k.
Proof.
  intros N. unfold tval, along, env, vec_dir. unfold tval. destruct (tkind s) as [n v|i]; [lra|].
  destruct (info i) as [sp v| | |]; try lra. unfold shifted. destruct (Nat.eqb v vx); [|lra]. apply reads_linear.
Qed.

Lemma indicator_none (g : term -> R) s cs : (forall c, In c cs -> tkind s <> tkind c) ->
  rsum (map (fun c => if kind_eqb (tkind s) (tkind c) then g c else 0) cs) = 0.
Proof.
  induction cs as [|c cs IH]; intros H; [reflexivity|]. cbn [map]. rewrite rsum_cons, IH by (intros; apply H; right; assumption).
  destruct (kind_eqb (tkind s) (tkind c)) eqn:E; [|lra]. apply kind_eqb_spec in E. exfalso. exact (H c (or_introl eq_refl) E).
Qed.
Lemma indicator_one (g : term -> R) s cs c0 : NoDup (map tkind cs) -> In c0 cs -> tkind s = tkind c0 ->
  rsum (map (fun c => if kind_eqb (tkind s) (tkind c) then g c else 0) cs) = g c0.
Proof.
  induction cs as [|c cs IH]; intros N H E; [destruct H|]. cbn [map] in *. inversion N as [|? ? N1 N2]; subst. rewrite rsum_cons.
  destruct H as [->|H].
  - rewrite indicator_none, (proj2 (kind_eqb_spec _ _) E); [lra|]. intros c Hc K. apply N1. rewrite <- E, K. apply in_map. assumption.
  - rewrite IH by assumption. destruct (kind_eqb (tkind s) (tkind c)) eqn:B; [|lra]. apply kind_eqb_spec in B. exfalso. apply N1.
    rewrite <- B, E. apply in_map. assumption.
Qed.

Lemma direction_attrs sp c : one_mark c -> attrs_of (direction sp c) = attrs_of c.
Proof.
  intros (O & H). unfold direction, restriction_type, hasattr, getattr, attrs_of, plain.
  destruct c as [kd at_ ar aa ao]. cbn in *. subst ao.
  destruct at_, ar, aa; cbn; try reflexivity; exfalso; destruct H as [[? ?]|[[? ?]|[? ?]]]; discriminate.
Qed.
Lemma direction_kind sp c : tkind (direction sp c) = KArg 1 sp.
Proof. unfold direction. destruct (restriction_type c) as [[]|]; reflexivity. Qed.

Lemma wraps_value f L cs :
  (forall a b, L (plusd a b) = L a + L b) ->
  (forall a b, (forall q s k, in_form s f -> a q s k = b q s k) -> L a = L b) ->
  (forall sp c, exists xs, Forall2 (integral_value info I vecs args) (flat_map (wrap sp c) f) xs /\
       L (node_dir env c (direction sp c)) = rsum xs) ->
  exists xs, Forall2 (integral_value info I vecs args) (wraps info f cs) xs /\
    rsum xs = L (fun q s k => rsum (map (fun c => node_dir env c (direction (space_of info c) c) q s k) cs)).
Proof.
  intros L1 L2 L4. induction cs as [|c cs (xs & X1 & X2)].
  - exists []. split; [constructor|]. cbn [map]. change (rsum []) with 0.
    assert (Z : L (fun _ _ _ => 0) = L (fun _ _ _ => 0) + L (fun _ _ _ => 0)); [|lra].
    rewrite <- L1. apply L2. intros. unfold plusd. lra.
  - destruct (L4 (space_of info c) c) as (ys & Y1 & Y2). exists (ys ++ xs). split; [apply Forall2_app; assumption|].
    rewrite rsum_app, X2, <- Y2, <- L1. apply L2. intros q s k _. unfold plusd. cbn [map]. rewrite rsum_cons. reflexivity.
Qed.

Theorem derivative_correct sv n f x sx vx :
  functional sv f -> is_function info x sx vx -> no_expressions info f -> one_object info f -> known_marks info vx f -> older f n ->
  (forall m e w q, In (m, e) f -> In (w, q) (points I m) -> smooth I (env q) e) ->
  exists J d, ii_derivative info n f x = Ok J /\ form_value info I vecs args J d /\
    derivable_pt_lim (fun t => form_at info I (shifted vecs vx (args 1%nat) t) args f) 0 d.
Proof.
  intros Hf Hx He Hg Hk Ho Hs. rewrite (ii_derivative_spec info sv n f x sx vx Hf Hx He Hg Ho).
  destruct (form_chain f Hs) as (L & L1 & L2 & L3 & L4).
  destruct (wraps_value f L (selected info vx f) L1 L2 L4) as (xs & X1 & X2).
  exists (join None (wraps info f (selected info vx f)) (selected info vx f)), (rsum xs). split; [reflexivity|]. split.
  - unfold join. destruct (selected info vx f) as [|c cs]; [|exists xs; auto]. cbn in X1. inversion X1; subst. reflexivity.
  - rewrite X2, (L2 _ (vec_dir vx)).
    + eapply lim_ext; [|apply L3]. intros t. unfold form_at. f_equal. apply map_ext_in. intros (m & e) Hm. f_equal.
      apply map_ext. intros (w & q). cbn [fst snd]. f_equal. apply ev_ext. intros s k O. symmetry. apply shifted_val.
      intros v K. destruct Hf as (_ & F2 & _). destruct (F2 s 1%nat v); [exists m, e; auto|assumption|discriminate].
    + intros q s k Fs. destruct (coefficients_spec info f) as (C1 & C2 & C3).
      assert (Sel : forall c, In c (selected info vx f) -> in_form c f /\ exists i sp, tkind c = KOther i /\ info i = CFun sp vx).
      { intros c Hc. apply filter_In in Hc. destruct Hc as [Hc V]. split; [apply (C1 c Hc)|]. unfold on_vec, coef_info in V.
        destruct (tkind c) as [|i]; [discriminate|]. destruct (info i) as [sp v| | |] eqn:E; try discriminate. apply Nat.eqb_eq in V. subst. eauto. }
      assert (ND : NoDup (map tkind (selected info vx f))).
      { apply (NoDup_map_inv (fun k => match k with KOther i => i | KArg _ _ => 0%nat end)). rewrite map_map.
        change (NoDup (map count (selected info vx f))). unfold selected. revert C3. generalize (coefficients info f). intros l.
        induction l as [|c l IH]; cbn [map filter]; intros N; [constructor|]. inversion N as [|? ? N1 N2]; subst.
        destruct (on_vec info vx c); [|apply IH; assumption]. cbn [map]. constructor; [|apply IH; assumption].
        intros Hc. apply N1. apply in_map_iff in Hc. destruct Hc as (c' & E & Hc). rewrite <- E. apply in_map. apply filter_In in Hc. tauto. }
      unfold node_dir, vec_dir. destruct (tkind s) as [na va|i] eqn:Ks.
      { rewrite <- Ks. apply indicator_none. intros c Hc K. destruct (Sel c Hc) as (_ & i & sp & Kc & _). congruence. }
      rewrite <- Ks. destruct (info i) as [sp v| | |] eqn:Ei.
      2,3,4: apply indicator_none; intros c Hc K; destruct (Sel c Hc) as (_ & i' & sp & Kc & Ei'); rewrite Ks, Kc in K; inversion K; subst; rewrite Ei in Ei'; discriminate.
      destruct (Nat.eqb_spec v vx) as [->|Nv].
      2:{ apply indicator_none; intros c Hc K; destruct (Sel c Hc) as (_ & i' & sp' & Kc & Ei'); rewrite Ks, Kc in K; inversion K; subst; rewrite Ei in Ei'; inversion Ei'; subst; congruence. }
      destruct (C2 s Fs) as (c & Hc & Kc). { unfold is_coefficient, coef_info. rewrite Ks, Ei. reflexivity. }
      assert (c = s). { apply (Hg c s i); [apply (C1 c Hc)|assumption|congruence|assumption|rewrite Ei; discriminate]. }
      subst c.
      rewrite (indicator_one (fun c => env q (direction (space_of info c) c) k) s (selected info vx f) s ND); [| |reflexivity].
      * unfold env, tval. rewrite direction_kind, direction_attrs by (apply (Hk s i sp); assumption).
        unfold space_of, coef_info. rewrite Ks, Ei. reflexivity.
      * apply filter_In. split; [assumption|]. unfold on_vec, coef_info. rewrite Ks, Ei. apply Nat.eqb_refl.
Qed.

Lemma is_val_fun en e a b : is_val I en e a -> is_val I en e b -> a = b.
Proof.
  unfold is_val. intros Ha Hb.
  repeat match type of Ha with context [match ?x with _ => _ end] => destruct x end;
    first [congruence | eapply uniqueness_limite; eassumption].
Qed.
Lemma integral_value_fun me a b : integral_value info I vecs args me a -> integral_value info I vecs args me b -> a = b.
Proof.
  intros (xs & X & ->) (ys & Y & ->). do 2 f_equal. f_equal. revert ys Y.
  induction X as [|p x l xs Hx X IH]; intros ys Y; inversion Y as [|? y ? ys' Hy Y']; subst; [reflexivity|]. f_equal; [|apply IH; assumption].
  eapply is_val_fun; eassumption.
Qed.
Lemma form_value_fun J a b : form_value info I vecs args J a -> form_value info I vecs args J b -> a = b.
Proof.
  destruct J as [g|]; [|cbn; congruence]. intros (xs & X & ->) (ys & Y & ->). f_equal. revert ys Y.
  induction X as [|p x l xs Hx X IH]; intros ys Y; inversion Y as [|? y ? ys' Hy Y']; subst; [reflexivity|]. f_equal; [|apply IH; assumption].
  eapply integral_value_fun; eassumption.
Qed.
End Sem.

(** ** A coefficient without a vector *)

Lemma loop_expression info sv f x sx vx : functional sv f -> one_object info f -> is_function info x sx vx ->
  forall cs n J, older f n -> (forall c, In c cs -> in_form c f /\ (coef_info info c = CExpr \/ exists s v, coef_info info c = CFun s v)) ->
  (exists c, In c cs /\ coef_info info c = CExpr) -> deriv_loop info f x cs n J = Err AttributeError.
Proof.
  intros Hf Hg ((ix & Kx & Ix) & Hx). induction cs as [|c cs IH]; intros n J Ho Hc (c0 & H0 & E0); [destruct H0|].
  cbn [deriv_loop].
  destruct (Hc c (or_introl eq_refl)) as (Fc & [Ec|(s & v & Cc)]).
  - unfold depends, vector_id. rewrite Ec. destruct (ufl_eq c x) eqn:U; [|reflexivity]. exfalso. apply kind_eqb_spec in U.
    unfold coef_info in Ec. rewrite U, Kx, Ix in Ec. discriminate.
  - assert (K : exists c1, In c1 cs /\ coef_info info c1 = CExpr) by (destruct H0 as [->|H0]; [congruence|eauto]).
    destruct (depends info c x) as [b|ex] eqn:D.
    + cbn [bind]. destruct b; [|apply IH; auto; intros; apply Hc; right; assumption].
      rewrite (partial_spec info sv f n Hf Hg Ho c s v Fc Cc). cbn [bind]. apply IH; auto.
      * intros t i Ht Kt. specialize (Ho t i Ht Kt). lia.
      * intros; apply Hc; right; assumption.
    + exfalso. unfold depends, vector_id in D. rewrite Cc in D. unfold coef_info in D. rewrite Kx, Ix in D. destruct (ufl_eq c x); discriminate.
Qed.

Lemma derivative_expression info sv n f x sx vx s i : functional sv f -> is_function info x sx vx -> one_object info f -> older f n ->
  in_form s f -> tkind s = KOther i -> info i = CExpr -> ii_derivative info n f x = Err AttributeError.
Proof.
  intros Hf Hx Hg Ho Fs Ks Es. unfold ii_derivative, is_okay_functional.
  destruct (functional_arguments sv f Hf) as (a & -> & Ka). cbn [bind].
  replace (number a) with 0%nat by (unfold number; rewrite Ka; reflexivity).
  destruct (Nat.eqb_spec 0 1); [lia|]. cbn [bind].
  assert (Cx : is_coefficient info x = true) by (destruct Hx as ((j & K & E) & _); unfold is_coefficient, coef_info; rewrite K, E; reflexivity).
  assert (Rx : is_restricted x = false).
  { destruct Hx as (_ & H1 & H2 & H3). unfold is_restricted, restriction_type, hasattr, getattr. rewrite H1, H2, H3. reflexivity. }
  rewrite Cx, Rx. cbn [andb negb]. destruct (coefficients_spec info f) as (C1 & C2 & _).
  eapply loop_expression; try eassumption.
  - intros c Hc. apply filter_In in Hc. destruct Hc as [Hc N]. destruct (C1 c Hc) as [Fc Cc]. split; [assumption|].
    unfold is_coefficient, is_constant in *. destruct (coef_info info c) as [s' v| | |]; try discriminate; eauto.
  - destruct (C2 s Fs) as (c & Hc & Kc). { unfold is_coefficient, coef_info. rewrite Ks, Es. reflexivity. }
    exists c. assert (E : coef_info info c = CExpr) by (unfold coef_info; rewrite Kc, Ks; assumption). split; [|assumption].
    apply filter_In. split; [assumption|]. unfold is_constant. rewrite E. reflexivity.
Qed.

(** ** Blocks *)

Lemma spaces_match_spec info ts foos : length ts = length foos ->
  (spaces_match info ts foos = Ok true <-> Forall2 (fun t f => function_space info f = Ok (arg_space t)) ts foos).
Proof.
  revert foos. induction ts as [|t ts IH]; intros [|f foos] E; try discriminate; cbn [spaces_match].
  - split; [constructor|reflexivity].
  - injection E as E. specialize (IH foos E). split.
    + intros H. destruct (function_space info f) as [s|] eqn:S; [|discriminate]. cbn [bind] in H.
      destruct (Nat.eqb_spec (arg_space t) s); [|discriminate]. subst. constructor; [assumption|]. apply IH. assumption.
    + intros H. inversion H as [|? ? ? ? Hs F]; subst. rewrite Hs. cbn [bind]. rewrite Nat.eqb_refl. apply IH. assumption.
Qed.
