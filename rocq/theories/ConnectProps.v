(** C77: is_continuous tells if there is a path of cells between any two cells. *)
From Verif Require Import Base ConnectModel ConnectProofs.
From Coq Require Import List Arith Bool Lia.
Import ListNotations.
Local Open Scope nat_scope.

(** Of curves and of surfaces: True if there are cells, and between any two of
    them a path of cells of which neighbours have a common vertex *)
Theorem C77_curve : forall m, curve m -> exists b, is_continuous m = Ok b /\ (b = true <-> connected touch (s_cells m)).
Proof.
  intros m Hm. destruct (curve_edges m Hm) as [edges [E Ec]]. pose proof Hm as [Ht [Hg _]].
  exists (number_connected_components edges =? 1). split.
  - unfold is_continuous. rewrite Ht. replace (1 <? s_gdim m) with true by (symmetry; apply Nat.ltb_lt; lia).
    cbn [negb Nat.eqb]. rewrite E. reflexivity.
  - rewrite components_ok, curve_linked, <- Ec. tauto.
Qed.

Theorem C77_surface : forall m, surface m -> exists b, is_continuous m = Ok b /\ (b = true <-> connected touch (s_cells m)).
Proof.
  intros m Hm. pose proof Hm as [Ht [Hg _]]. eexists. split.
  - unfold is_continuous. rewrite Ht. replace (2 <? s_gdim m) with true by (symmetry; apply Nat.ltb_lt; lia). reflexivity.
  - rewrite components_ok. apply (surface_linked m Hm).
Qed.

(** Others are refused *)
Theorem C77_others : forall m,
  (s_gdim m <= s_tdim m -> is_continuous m = Err AssertionError) /\
  (s_tdim m < s_gdim m -> s_tdim m = 0 \/ 2 < s_tdim m -> is_continuous m = Err TypeError).
Proof.
  intros m. unfold is_continuous. split.
  - intros Eg. replace (s_tdim m <? s_gdim m) with false by (symmetry; apply Nat.ltb_ge; auto). reflexivity.
  - intros Eg Et. replace (s_tdim m <? s_gdim m) with true by (symmetry; apply Nat.ltb_lt; auto). cbn [negb].
    replace (s_tdim m =? 1) with false by (symmetry; apply Nat.eqb_neq; lia).
    replace (s_tdim m =? 2) with false by (symmetry; apply Nat.eqb_neq; lia). reflexivity.
Qed.

(** Paths through edges are paths: then the answer is True *)
Theorem C77_edges_partial : forall m, surface m -> connected share_edge (s_cells m) -> is_continuous m = Ok true.
Proof.
  intros m Hm [Hne Hall]. destruct (C77_surface m Hm) as [b [E Hb]]. rewrite E. f_equal. apply Hb. split; auto.
  intros c d Hc Hd. specialize (Hall c d Hc Hd). clear - Hall. induction Hall as [c Hc | c d e Hc [v [w [_ [Hv [_ [Hv' _]]]]]] _ IH].
  - apply walk_end; auto.
  - apply walk_step with d; auto. exists v; auto.
Qed.

(** Cases: a path of three intervals, two intervals apart; two triangles that
    share an edge, and two apart *)
Definition line3 := SMesh 1 2 [[0; 1]; [1; 2]; [2; 3]] [] 4.
Definition apart := SMesh 1 2 [[0; 1]; [2; 3]] [] 4.
Definition two_triangles := SMesh 2 3 [[0; 1; 2]; [1; 2; 3]] [(0, 1); (0, 2); (1, 2); (1, 3); (2, 3)] 4.
Definition bow_tie := SMesh 2 3 [[0; 1; 2]; [2; 3; 4]] [(0, 1); (0, 2); (1, 2); (2, 3); (2, 4); (3, 4)] 5.
Definition triangles_apart := SMesh 2 3 [[0; 1; 2]; [3; 4; 5]] [(0, 1); (0, 2); (1, 2); (3, 4); (3, 5); (4, 5)] 6.

Ltac cases_in := repeat match goal with H : In _ (_ :: _) |- _ => destruct H as [H | H]; subst | H : In _ [] |- _ => destruct H | H : (_, _) = (_, _) |- _ => injection H as <- <- end.
Ltac is_surface := split; [reflexivity | split; [cbn; lia | split; [| split]]];
  [ intros c Hc; cbn in Hc; destruct Hc as [<- | [<- | []]]; (do 3 eexists; split; [reflexivity | cbn; lia])
  | intros v w H; cbn [s_edges two_triangles bow_tie triangles_apart] in H; cbn [s_cells two_triangles bow_tie triangles_apart];
    repeat (destruct H as [H | H]; [injection H as <- <-; split; [discriminate |];
      first [eexists; split; [left; reflexivity |]; cbn; solve [auto 9] | eexists; split; [right; left; reflexivity |]; cbn; solve [auto 9]] |]); destruct H
  | intros c v w Hc Hv Hw Hne; cbn in Hc; destruct Hc as [<- | [<- | []]]; cbn in Hv, Hw;
    repeat (destruct Hv as [<- | Hv]); try (destruct Hv); repeat (destruct Hw as [<- | Hw]); try (destruct Hw); try contradiction; cbn; auto 12 ].

Example case_line : curve line3 /\ is_continuous line3 = Ok true.
Proof. split; [| reflexivity]. split; [reflexivity | split; [cbn; lia |]]. intros c Hc. cbn in Hc. destruct Hc as [<- | [<- | [<- | []]]]; eauto. Qed.
Example case_apart : curve apart /\ is_continuous apart = Ok false.
Proof. split; [| reflexivity]. split; [reflexivity | split; [cbn; lia |]]. intros c Hc. cbn in Hc. destruct Hc as [<- | [<- | []]]; eauto. Qed.
Example case_two : surface two_triangles /\ is_continuous two_triangles = Ok true /\ connected share_edge (s_cells two_triangles).
Proof.
  split; [is_surface | split; [reflexivity |]]. split; [discriminate |].
  intros c d Hc Hd. cbn in Hc, Hd. destruct Hc as [<- | [<- | []]], Hd as [<- | [<- | []]];
    solve [apply walk_end; cbn; auto | apply walk_one; cbn; auto; exists 1, 2; cbn; auto 10].
Qed.
Example case_triangles_apart : surface triangles_apart /\ is_continuous triangles_apart = Ok false.
Proof. split; [is_surface | reflexivity]. Qed.
Example case_bow : surface bow_tie.
Proof. is_surface. Qed.

(** False: through edges, which the comment in line 147 has in mind, there need
    not be a path *)
Theorem C77_edges_refuted : exists m, surface m /\ is_continuous m = Ok true /\ ~ connected share_edge (s_cells m).
Proof.
  exists bow_tie. split; [apply case_bow | split; [reflexivity |]]. intros [_ H].
  specialize (H [0; 1; 2] [2; 3; 4] (or_introl eq_refl) (or_intror (or_introl eq_refl))).
  assert (Hgo : forall c d, walk share_edge (s_cells bow_tie) c d -> c = [0; 1; 2] -> d = [0; 1; 2]).
  { clear. intros c d H. induction H as [c Hc | c d e Hc Hs Hw IH]; auto. intros ->. apply IH.
    apply walk_in in Hw. destruct Hw as [Hd _]. cbn in Hd. destruct Hd as [<- | [<- | []]]; auto.
    exfalso. destruct Hs as [v [w [Hne [H1 [H2 [H3 H4]]]]]].
    assert (Hv : forall u, In u [0; 1; 2] -> In u [2; 3; 4] -> u = 2) by (clear; cbn; intros u H H'; lia).
    apply Hne. rewrite (Hv v H1 H3), (Hv w H2 H4). reflexivity. }
  specialize (Hgo _ _ H eq_refl). discriminate.
Qed.

(** False: a mesh of points or of solids (in four dimensions) raises TypeError *)
Theorem C77_points_refuted : exists m, s_tdim m < s_gdim m /\ is_continuous m = Err TypeError.
Proof. exists (SMesh 0 2 [[0]] [] 1). split; [cbn; lia | reflexivity]. Qed.

Print Assumptions C77_curve.
Print Assumptions C77_surface.
Print Assumptions C77_others.
Print Assumptions C77_edges_partial.
Print Assumptions C77_edges_refuted.
Print Assumptions C77_points_refuted.
