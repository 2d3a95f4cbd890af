(** Property C135: NLProblem in the solver of dolfin *)
From Coq Require Import Reals Lra Lia.
From Verif Require Import Base BaseProofs NewtonModel NewtonProofs NewtonProps SnesModel SnesProofs.
Local Open Scope R_scope.

(** Without a first residual below 1E-10 the solver is left with an exception.  If the system is solved and the
    step made, it is the AttributeError of the second residual, and the functions have made one step of Newton *)
Theorem C135_script : forall residual solve minus sizes, let w0 := map (repeat 0) sizes in let r := script residual solve minus sizes in
  (norm (residual w0) < 1 / 10 ^ 10 -> end_of r = Converged 0 /\ left_in r = w0) /\
  (1 / 10 ^ 10 <= norm (residual w0) -> exists e, end_of r = Raised e /\
     (forall dx w', solve w0 (residual w0) = Ok dx -> minus w0 dx = Ok w' -> e = AttributeError /\ left_in r = w') /\
     (forall e', solve w0 (residual w0) = Err e' -> e = e' /\ left_in r = w0) /\
     (forall dx e', solve w0 (residual w0) = Ok dx -> minus w0 dx = Err e' -> e = e' /\ left_in r = w0)) /\
  counted r = Counters 0 0.
Proof.
  intros residual solve minus sizes w0 r. unfold r, script, snes. fold w0. cbv zeta.
  assert (F0 : problem_F residual None w0 (Counters 0 0) = Ok (Some (residual w0), Counters 0 0)) by (unfold problem_F; cbv zeta; rewrite axpy_zero; reflexivity).
  assert (J0 : problem_J None w0 (Counters 0 0) = Ok (Some w0, Counters 0 0)) by reflexivity.
  rewrite F0. cbn [content snes_loop]. rewrite l2_norm.
  assert (SF := small_first (1 / 10 ^ 9) (1 / 10 ^ 10) (norm (residual w0)) ltac:(lra)).
  destruct (small _ _ _ _) eqn:SM.
  - split; [intros _; split; reflexivity |]. split; [| reflexivity]. intros H. assert (norm (residual w0) < 1 / 10 ^ 10) by (apply SF; reflexivity). lra.
  - split; [intros H; assert (C : false = true) by (apply SF; exact H); discriminate C |].
    rewrite J0. cbv iota beta.
    destruct (solve w0 (residual w0)) as [dx | e] eqn:SO.
    2: { cbn [end_of left_in counted]. split; [| reflexivity]. intros _. exists e. split; [reflexivity |]. split; [discriminate |]. split; [intros e' E; injection E as ->; auto | discriminate]. }
    destruct (minus w0 dx) as [w' | e] eqn:MI; cbn [problem_F end_of left_in counted]; (split; [| reflexivity]); intros _.
    + exists AttributeError. split; [reflexivity |]. split; [| split; [discriminate |]].
      * intros dx' w1 E1 E2. injection E1 as <-. rewrite MI in E2. injection E2 as <-. auto.
      * intros dx' e' E1 E2. injection E1 as <-. congruence.
    + exists e. split; [reflexivity |]. split; [| split; [discriminate |]].
      * intros dx' w1 E1 E2. injection E1 as <-. congruence.
      * intros dx' e' E1 E2. injection E1 as <-. rewrite MI in E2. injection E2 as <-. auto.
Qed.
Print Assumptions C135_script.

(** The claim of the file, that the solver solves the problem, holds for problems that zero solves *)
Theorem C135_solved_partial : forall residual solve minus sizes k, end_of (script residual solve minus sizes) = Converged k ->
  k = 0%nat /\ left_in (script residual solve minus sizes) = map (repeat 0) sizes /\ norm (residual (map (repeat 0) sizes)) < 1 / 10 ^ 10.
Proof.
  intros residual solve minus sizes k E. destruct (C135_script residual solve minus sizes) as (A & B & _).
  destruct (Rlt_dec (norm (residual (map (repeat 0) sizes))) (1 / 10 ^ 10)) as [L | L].
  - destruct (A L) as [E1 E2]. rewrite E in E1. injection E1 as ->. auto.
  - destruct (B ltac:(lra)) as (e & E1 & _). congruence.
Qed.
Print Assumptions C135_solved_partial.

Section Steps.
Variable residual : blocks -> list R.
Variable solve : blocks -> list R -> res (list R).
Variable minus : blocks -> list R -> res blocks.
Variable jac : blocks -> list R -> list R.
Variable sizes : list nat.
Let n := list_sum sizes.
Let w0 := map (repeat 0) sizes.
Hypothesis solves : forall w b x, shaped sizes w -> solve w b = Ok x -> length x = n /\ jac w x = b.
Hypothesis subtracts : forall w d w', shaped sizes w -> length d = n -> minus w d = Ok w' -> shaped sizes w' /\ flat w' = vsub (flat w) d.

(** A linear problem is solved all the same: its solution is in the functions when the exception is raised *)
Theorem C135_linear : forall (J : list R -> list R) b dx, length b = n ->
  (forall x, jac w0 x = J x) -> (forall w, shaped sizes w -> residual w = vsub (J (flat w)) b) ->
  (forall x, length x = n -> length (J x) = n) ->
  (forall x y, length x = n -> length y = n -> J (vsub x y) = vsub (J x) (J y)) ->
  1 / 10 ^ 10 <= norm (residual w0) -> solve w0 (residual w0) = Ok dx -> (exists w', minus w0 dx = Ok w') ->
  end_of (script residual solve minus sizes) = Raised AttributeError /\
  J (flat (left_in (script residual solve minus sizes))) = b.
Proof.
  intros J b dx Lb HJ HF JL Jadd H SO [w' MI]. destruct (C135_script residual solve minus sizes) as (_ & B & _). fold w0 in B.
  destruct (B H) as (e & E1 & C & _). destruct (C dx w' SO MI) as [-> ->]. split; [exact E1 |].
  assert (S0 : shaped sizes w0) by apply zeros_shaped. destruct (solves _ _ _ S0 SO) as [Ld Jd]. destruct (subtracts _ _ _ S0 Ld MI) as [_ F1].
  assert (L0 := flat_length sizes w0 S0). fold n in L0. rewrite F1, Jadd by assumption. rewrite <- (HJ dx), Jd, HF by assumption. apply vsub_sub. rewrite JL; auto.
Qed.
Print Assumptions C135_linear.

(** With methods that can be called again the solver makes the steps of Newton until the test is passed *)
Theorem C135_repaired : forall maxiter rtol atol, 0 < rtol ->
  let r := snes solve minus (again_F residual) again_J maxiter rtol atol w0 in
  exists m ws, (m <= maxiter)%nat /\ ws 0%nat = w0 /\ ws m = left_in r /\
    (forall i, (i < m)%nat -> (atol <= norm (residual (ws i)) /\ rtol * norm (residual w0) <= norm (residual (ws i))) /\
       exists d, length d = n /\ jac (ws i) d = residual (ws i) /\ flat (ws (S i)) = vsub (flat (ws i)) d) /\
    (forall k, end_of r = Converged k -> k = m /\ (norm (residual (left_in r)) < atol \/ norm (residual (left_in r)) < rtol * norm (residual w0))) /\
    (end_of r = NotConverged -> m = maxiter /\ atol <= norm (residual (left_in r)) /\ rtol * norm (residual w0) <= norm (residual (left_in r))) /\
    (forall e, end_of r = Raised e -> solve (ws m) (residual (ws m)) = Err e \/ exists dx, solve (ws m) (residual (ws m)) = Ok dx /\ minus (ws m) dx = Err e).
Proof.
  intros maxiter rtol atol Ht r. unfold r, snes. cbv zeta.
  assert (F0 : again_F residual None w0 (Counters 0 0) = Ok (Some (residual w0), Counters 0 0)) by reflexivity. rewrite F0. cbn [content]. rewrite l2_norm.
  destruct (again_loop residual solve minus jac sizes solves subtracts maxiter rtol atol w0 Ht 0%nat w0 None (Counters 0 0) _ (zeros_shaped sizes) eq_refl)
    as (m & ws & M & W0 & Wm & SH & ST & EN).
  set (rr := snes_loop solve minus (again_F residual) again_J maxiter 0 rtol atol (norm (residual w0)) (Some (residual w0)) None w0 (Counters 0 0)) in *.
  exists m, ws. split; [exact M |]. split; [exact W0 |]. split; [exact Wm |]. split; [intros i Hi; apply (ST i Hi) |].
  rewrite <- Wm. destruct (end_of rr) as [k | | e]; (split; [| split]); intros; try discriminate.
  - injection H as <-. exact EN.
  - exact EN.
  - injection H as <-. apply EN.
Qed.
End Steps.
Print Assumptions C135_repaired.

(** x - 1 = 0 from zero: solved in one step by methods that can be called again, an exception from those of the file *)
Definition minus1 (w : blocks) (d : list R) : res blocks := match w, d with [[x]], [a] => Ok [[x - a]] | _, _ => Err RuntimeError end.
Lemma subtracts1 : forall w d w', shaped [1%nat] w -> length d = list_sum [1%nat] -> minus1 w d = Ok w' -> shaped [1%nat] w' /\ flat w' = vsub (flat w) d.
Proof.
  intros w d w' Hw Hd E. destruct w as [| [| x [| ? ?]] [| ? ?]]; try discriminate. destruct d as [| a [| ? ?]]; try discriminate. injection E as <-. split; reflexivity.
Qed.
Theorem C135_solved_refuted : exists residual solve minus jac sizes,
  (forall w b x, shaped sizes w -> solve w b = Ok x -> length x = list_sum sizes /\ jac w x = b) /\
  (forall w d w', shaped sizes w -> length d = list_sum sizes -> minus w d = Ok w' -> shaped sizes w' /\ flat w' = vsub (flat w) d) /\
  end_of (snes solve minus (again_F residual) again_J 50 (1 / 10 ^ 9) (1 / 10 ^ 10) (map (repeat 0) sizes)) = Converged 1 /\
  end_of (script residual solve minus sizes) = Raised AttributeError.
Proof.
  exists (residual1 (fun x => x - 1)), (solve1 (fun _ => 1)), minus1, (jac1 (fun _ => 1)), [1%nat].
  split; [apply solves1 |]. split; [apply subtracts1 |]. cbn [map repeat].
  assert (R0 : norm (residual1 (fun x => x - 1) [[0]]) = 1). { unfold residual1. cbn [coordinate]. rewrite norm1. replace (0 - 1) with (- (1)) by ring. rewrite Rabs_Ropp, Rabs_R1. reflexivity. }
  assert (SO : solve1 (fun _ => 1) [[0]] (residual1 (fun x => x - 1) [[0]]) = Ok [-1]).
  { unfold solve1, residual1. cbn [coordinate]. destruct (Req_EM_T 1 0); [lra |]. do 2 f_equal. field. }
  split.
  - unfold snes, again_F at 1. cbn [content]. rewrite l2_norm, R0. cbn [snes_loop content]. rewrite l2_norm, R0.
    destruct (small (1 / 10 ^ 9) (1 / 10 ^ 10) 1 1) eqn:SM.
    { apply small_first in SM; lra. }
    unfold again_J at 1. rewrite SO. cbn [minus1 again_F content]. unfold residual1 at 1. cbn [coordinate]. rewrite l2_norm, norm1.
    replace (0 - -1 - 1) with 0 by ring. rewrite Rabs_R0. unfold small. destruct (Rlt_dec 0 (1 / 10 ^ 10)); [reflexivity | lra].
  - destruct (C135_script (residual1 (fun x => x - 1)) (solve1 (fun _ => 1)) minus1 [1%nat]) as (_ & B & _). cbn [map repeat] in B.
    destruct B as (e & E1 & C & _); [lra |]. destruct (C [-1] [[0 - -1]] SO eq_refl) as [-> _]. exact E1.
Qed.
Print Assumptions C135_solved_refuted.

(** The linear problem x - 1 = 0 meets what C135_linear asks for, and 1 is left in the function *)
Example C135_ex : flat (left_in (script (residual1 (fun x => x - 1)) (solve1 (fun _ => 1)) minus1 [1%nat])) = [1].
Proof.
  apply (C135_linear (residual1 (fun x => x - 1)) (solve1 (fun _ => 1)) minus1 (jac1 (fun _ => 1)) [1%nat] (solves1 _) subtracts1 (fun x => x) [1] [-1]); try reflexivity; auto.
  - intros x. unfold jac1. cbn [map repeat coordinate]. rewrite <- (map_id x) at 2. apply map_ext. intros a. ring.
  - intros w Hw. destruct w as [| [| x [| ? ?]] [| ? ?]]; try discriminate. reflexivity.
  - unfold residual1. cbn [map repeat coordinate]. rewrite norm1. replace (0 - 1) with (- (1)) by ring. rewrite Rabs_Ropp, Rabs_R1. lra.
  - unfold solve1, residual1. cbn [map repeat coordinate]. destruct (Req_EM_T 1 0); [lra |]. do 2 f_equal. field.
  - exists [[0 - -1]]. reflexivity.
Qed.
