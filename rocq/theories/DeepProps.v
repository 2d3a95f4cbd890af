(** Property C99: monolithic matrices of nested block matrices. *)
From Verif Require Import Base BaseProofs Mat MatProofs ConvertModel ConvertProofs BlockUtilsModel BlockUtilsProofs DeepModel DeepProofs.

(** Every matrix inside, at any depth, lands where the sizes of the blocks
    before it put it; zeros elsewhere. *)
Theorem C99_monolithic_partial : forall d m n G, spread d m n G -> known d -> ~ is_num d ->
  exists M, block_mat_to_numpy d = Ok (Some M) /\ nr M = m /\ nc M = n /\
  forall r c, r < m -> c < n -> ent M r c = G r c.
Proof. exact numpy_spread. Qed.
Print Assumptions C99_monolithic_partial.

(** The identity on a list of lists of ... of spaces is the identity on all the
    degrees of freedom. *)
Theorem C99_identity : forall V, filled V ->
  exists M, block_mat_to_numpy (identity_matrix V) = Ok (Some M) /\ meq M (mid (total V)).
Proof.
  intros V F. destruct (identity_spread V F) as [S K].
  destruct (numpy_spread _ _ _ _ S K (identity_not_num V)) as (M & E & M1 & M2 & M3).
  exists M. split; [exact E|]. split; [exact M1|]. split; [exact M2|].
  intros i j Hi Hj. rewrite M3 by lia. reflexivity.
Qed.
Print Assumptions C99_identity.

(** Grouping blocks with block_reshape does not change the monolithic matrix,
    as long as every group knows its sizes. *)
Theorem C99_reshape_partial : forall AA o k m n G,
  valid_offsets o k -> (0 < hd 0 o)%Z -> length AA = k -> (forall row, In row AA -> length row = k) ->
  spread (DBlock AA) m n G -> known (DBlock AA) ->
  exists d, reshaped AA o = Ok d /\
  (known d -> exists M M', block_mat_to_numpy (DBlock AA) = Ok (Some M) /\
     block_mat_to_numpy d = Ok (Some M') /\ meq M' M).
Proof.
  intros AA o k m n G V H0 LA LR S K.
  destruct (reshaped_spread AA o k m n G V H0 LA LR S) as (d & E & Sd & Nd).
  exists d. split; [exact E|]. intros Kd.
  destruct (numpy_spread _ _ _ _ S K) as (M & EM & M1 & M2 & M3); [intros [a X]; discriminate|].
  destruct (numpy_spread _ _ _ _ Sd Kd Nd) as (M' & EM' & N1 & N2 & N3).
  exists M, M'. split; [exact EM|]. split; [exact EM'|]. split; [congruence|]. split; [congruence|].
  intros i j Hi Hj. rewrite N3, M3 by lia. reflexivity.
Qed.
Print Assumptions C99_reshape_partial.

(** Four spaces of dimension 1; in groups of two the zeros off the diagonal
    form a block matrix without sizes, and scipy refuses. *)
Theorem C99_reshape_refuted : exists AA o m n G d,
  valid_offsets o 4 /\ (0 < hd 0 o)%Z /\ length AA = 4 /\ (forall row, In row AA -> length row = 4) /\
  spread (DBlock AA) m n G /\ known (DBlock AA) /\ reshaped AA o = Ok d /\ spread d m n G /\
  block_mat_to_numpy d = Err ValueError.
Proof.
  set (V := Spaces [Size 1; Size 1; Size 1; Size 1]).
  assert (F : filled V) by (constructor; [discriminate|]; intros W I; repeat (destruct I as [<- | I]; [constructor|]); contradiction).
  destruct (identity_spread V F) as [S K].
  assert (E : exists AA, identity_matrix V = DBlock AA /\ length AA = 4 /\ (forall row, In row AA -> length row = 4)).
  { eexists. split; [reflexivity|]. split; [reflexivity|]. intros row I. cbn in I. repeat (destruct I as [<- | I]; [reflexivity|]). contradiction. }
  destruct E as (AA & E & L1 & L2). rewrite E in S, K.
  assert (Vo : valid_offsets [2; 4]%Z 4).
  { split; [discriminate|]. split; [repeat constructor; lia|reflexivity]. }
  destruct (reshaped_spread AA [2; 4]%Z 4 _ _ _ Vo ltac:(cbn; lia) L1 L2 S) as (d & Ed & Sd & _).
  exists AA, [2; 4]%Z, (total V), (total V), delta, d.
  repeat (split; [assumption || (cbn; lia)|]).
  injection E as E. subst AA. cbv in Ed. injection Ed as <-. reflexivity.
Qed.
Print Assumptions C99_reshape_refuted.

(** A number other than zero is lost: the diagonal block 1 of this matrix is
    zero in the result. *)
Theorem C99_number_refuted : forall a, exists d M,
  d = DBlock [[DMat (mid 1); DMat (mzero 1 1)]; [DMat (mzero 1 1); DNum a]] /\
  block_mat_to_numpy d = Ok (Some M) /\ nr M = 2 /\ nc M = 2 /\ ent M 1 1 = q0.
Proof. intros a. eexists. eexists. split; [reflexivity|]. split; [reflexivity|]. repeat split; reflexivity. Qed.
Print Assumptions C99_number_refuted.

(** Hypotheses are met by a matrix with a block matrix inside. *)
Example C99_ex : exists d G, spread d 3 3 G /\ known d /\ ~ is_num d /\ G 2 1 = q0 /\ G 2 2 = q1.
Proof.
  set (V := Spaces [Space 1; Spaces [Size 1; Size 1]]).
  assert (F : filled V).
  { constructor; [discriminate|]. intros W [<- | [<- | [] ] ]; [constructor|].
    constructor; [discriminate|]. intros W [<- | [<- | [] ] ]; constructor. }
  destruct (identity_spread V F) as [S K]. exists (identity_matrix V), delta.
  split; [exact S|]. split; [exact K|]. split; [apply identity_not_num|]. split; reflexivity.
Qed.

(** Groups which know their sizes. *)
Definition C99_one : deep := DMat (mid 1).
Ltac not_num := intros [? X]; discriminate X.
Ltac known_tac := lazymatch goal with
  | |- known (DNum _) => constructor
  | |- known (DMat _) => constructor
  | |- known C99_one => exact (known_mat (mid 1))
  | |- known (DBlock _) => apply known_block;
    [ intros [|[|[|i] ] ] Hi; cbn in Hi; try lia; first [exists 0; split; [cbn; lia|not_num] | exists 1; split; [cbn; lia|not_num] ]
    | intros [|[|[|i] ] ] Hi; cbn in Hi; try lia; first [exists 0; split; [cbn; lia|not_num] | exists 1; split; [cbn; lia|not_num] ]
    | intros [|[|[|i] ] ] [|[|[|j] ] ] Hi Hj; cbn in Hi, Hj; try lia; cbn [dblk nth]; clear; known_tac ]
  end.
Example C99_reshape_ex : exists AA d G,
  AA = [[C99_one; C99_one; C99_one]; [C99_one; C99_one; C99_one]; [C99_one; C99_one; DNum q0]] /\
  valid_offsets [1; 3]%Z 3 /\ spread (DBlock AA) 3 3 G /\ known (DBlock AA) /\ reshaped AA [1; 3]%Z = Ok d /\ known d.
Proof.
  eexists. exists (DBlock [[C99_one; DBlock [[C99_one; C99_one] ] ]; [DBlock [[C99_one]; [C99_one] ]; DBlock [[C99_one; C99_one]; [C99_one; DNum q0] ] ] ]).
  exists (fun i j => if (i =? 2) && (j =? 2) then q0 else q1). split; [reflexivity|].
  split; [split; [discriminate|split; [repeat constructor; lia|reflexivity] ]|].
  split.
  - change 3 with (list_sum [1; 1; 1]). apply spread_block with (F := fun i j r c => if (i =? 2) && (j =? 2) then q0 else q1).
    + reflexivity.
    + intros row [<- | [<- | [<- | [] ] ] ]; reflexivity.
    + discriminate.
    + intros [|[|[|i] ] ] [|[|[|j] ] ] Hi Hj; cbn in Hi, Hj; try lia; cbn [dblk nth];
        first [ apply spread_num; reflexivity
              | apply (spread_mat (mid 1)); intros [|r] [|c] Hr Hc; cbn in Hr, Hc; try lia; reflexivity ].
    + intros [|[|[|i] ] ] [|[|[|j] ] ] [|r] [|c] Hi Hj Hr Hc; cbn in Hi, Hj, Hr, Hc; try lia; reflexivity.
  - split; [known_tac|]. split; [reflexivity|]. known_tac.
Qed.
