(** C126: the mesh that [load] returns is the one of the parameters. *)
From Coq Require Import List ZArith QArith Qabs String Ascii Bool Lia Lqa.
From Verif Require Import Base MeshFileModel MeshFileProofs PrintProofs.
Local Open Scope string_scope.
Local Open Scope nat_scope.
Local Open Scope string_scope.

(** A directory with domain.geo, without xml files of an earlier call and without mesh files. *)
Definition fresh (g : nat) (d : fs) : Prop :=
  uniq d /\ fs_get d "domain.geo" = Some (Geo g) /\ absent scratch_xml d /\ forall p, fs_get d (h5_file_name p) = None.

(** Sessions in which dolfin-convert and the child python come to their ends and gmsh says so when it fails: every call
    of load gives the mesh of its parameters, or gmsh has failed. *)
Theorem C126_session_partial g d l t p : fresh g d -> Forall well_run l -> reliable t ->
  snd (load t p (session d l)) = Ok (map (fun k => (k, (g, command p))) (match p with D123 _ _ => ["mesh"; "facet"; "physical"] | Enumath _ => ["mesh"] end)) \/
  t_gmsh t <> 0 /\ snd (load t p (session d l)) = Err AssertionError.
Proof.
  intros [U [G [A N]]] W R. assert (sound g (session d l)) as S.
  { apply sound_session; [| exact W]. repeat split; auto. }
  destruct (sound_load g t p _ S R) as [_ H]. destruct p; exact H.
Qed.
Print Assumptions C126_session_partial.

(** From a directory without intermediate files: whatever the programs do, when generate returns then the file holds the
    mesh of the parameters and nothing of another mesh, and the intermediate files are gone. *)
Theorem C126_clean_partial g t p d d' f : uniq d -> fs_get d "domain.geo" = Some (Geo g) -> absent scratch d ->
  fs_get d (h5_file_name p) = None -> generate t p d = (d', Ok f) ->
  f = h5_file_name p /\ absent scratch d' /\ exists c, fs_get d' f = Some c /\ only_of (g, command p) c.
Proof.
  intros U G A N E.
  destruct (generate_ok t p d d' f g U G (fun k K => A k (scratch_xml_scratch k K)) (fun _ => or_intror (A _ msh_scratch)) N E) as [-> [S [_ C]]].
  repeat split; auto. eexists. split; [exact C |]. eexists. split; [reflexivity |]. split; [now left |].
  intros k x [H | H]; [injection H as <- <-; reflexivity |]. apply in_map_iff in H. destruct H as [r [H _]]. injection H as <- <-. reflexivity.
Qed.
Print Assumptions C126_clean_partial.

(** Whatever the programs do, only the mesh file of the parameters and the intermediate files are touched. *)
Theorem C126_frame t p d f : f <> h5_file_name p -> ~ scratch f -> fs_get (fst (load t p d)) f = fs_get d f.
Proof. intros N S. rewrite load_fst. apply generate_keeps. auto. Qed.
Print Assumptions C126_frame.

(** The name of the file decides the command; a name of one program is never one of the other. *)
Theorem C126_name p q : h5_file_name p = h5_file_name q -> command p = command q.
Proof. apply same_name. Qed.
Print Assumptions C126_name.

(** The printed form is the number up to half a unit of its sixth digit, so the parameters of one file agree to 5 digits. *)
Theorem C126_printed x : (Qabs (x - value (fmt_g x)) <= (5 # 1000000) * Qabs (value (fmt_g x)))%Q.
Proof. apply fmt_close. Qed.
Print Assumptions C126_printed.
Theorem C126_sizes s i s' i' : h5_file_name (D123 s i) = h5_file_name (D123 s' i') ->
  (Qabs (s - s') <= (1 # 100000) * Qabs (value (fmt_g s)) /\ Qabs (i - i') <= (1 # 100000) * Qabs (value (fmt_g i)))%Q.
Proof.
  intros E. injection E as E. destruct (us_split _ _ _ _ (fmt_no_us s) (fmt_no_us s') E) as [Es Ei]. apply app_inv_tail_s in Ei.
  assert (forall x y, fmt_g x = fmt_g y -> (Qabs (x - y) <= (1 # 100000) * Qabs (value (fmt_g x)))%Q) as H.
  { intros x y F. pose proof (fmt_close x) as Cx. pose proof (fmt_close y) as Cy. rewrite <- F in Cy. set (v := value (fmt_g x)) in *.
    setoid_replace (x - y)%Q with ((x - v) + - (y - v))%Q by ring. eapply Qle_trans; [apply Qabs_triangle |]. rewrite Qabs_opp. lra. }
  split; now apply H.
Qed.
Print Assumptions C126_sizes.

(** An existing file is taken without running anything, and what was loaded once is loaded again. *)
Theorem C126_reuse t p d c : fs_get d (h5_file_name p) = Some c -> generate t p d = (d, Ok (h5_file_name p)).
Proof. intros H. unfold generate, exists_. now rewrite H. Qed.
Print Assumptions C126_reuse.
Theorem C126_again t p d d' ms t' : load t p d = (d', Ok ms) -> load t' p d' = (d', Ok ms).
Proof.
  intros E. unfold load in E. apply bind_ok in E. destruct E as [d1 [f [E1 E]]]. injection E as -> E.
  assert (f = h5_file_name p) as ->.
  { unfold generate in E1. destruct (exists_ d (h5_file_name p)); [now injection E1 |].
    repeat (apply bind_ok in E1; destruct E1 as [? [? [_ E1]]]). now injection E1. }
  unfold load. destruct (fs_get d' (h5_file_name p)) as [c |] eqn:X; [| discriminate].
  rewrite (bind_run _ _ _ _ _ (C126_reuse t' p d' c X)), X. now rewrite E.
Qed.
Print Assumptions C126_again.

(** The claim is false when a program stops early: the statuses of dolfin-convert and of an earlier call are not looked at.
    A call whose child python fails leaves domain.xml; when dolfin-convert fails in the next call then that mesh is taken. *)
Definition t_good : tools := {| t_gmsh := 0; t_msh := true; t_files := 3; t_stmts := 7 |}.
Definition d_geo (g : nat) : fs := [("domain.geo", Geo g)].
Lemma fresh_geo g : fresh g (d_geo g).
Proof.
  split; [repeat constructor; cbn; tauto |]. split; [reflexivity |]. split.
  - intros f F. unfold d_geo, fs_get. destruct (String.eqb_spec "domain.geo" f) as [<- | _]; [exfalso; now apply geo_not_scratch, scratch_xml_scratch | reflexivity].
  - intros p. unfold d_geo, fs_get. destruct (String.eqb_spec "domain.geo" (h5_file_name p)) as [E | _]; [now apply geo_not_name in E | reflexivity].
Qed.
Theorem C126_stale_refuted g : exists d l t p q, fresh g d /\ command p <> command q /\
  snd (load t p (session d l)) = Ok [("mesh", (g, command q))].
Proof.
  exists (d_geo g), [Load {| t_gmsh := 0; t_msh := true; t_files := 3; t_stmts := 0 |} (Enumath 1)],
    {| t_gmsh := 0; t_msh := true; t_files := 0; t_stmts := 7 |}, (Enumath (1 # 2)), (Enumath 1).
  split; [apply fresh_geo |]. split; [vm_compute; discriminate | reflexivity].
Qed.
Print Assumptions C126_stale_refuted.

(** A child python that stops between opening and writing leaves a file without a mesh, which is then taken for ever. *)
Theorem C126_half_refuted g : exists d t0 p, fresh g d /\ forall l t, Forall well_run l ->
  snd (load t p (session (fst (load t0 p d)) l)) = Err RuntimeError.
Proof.
  exists (d_geo g), {| t_gmsh := 0; t_msh := true; t_files := 3; t_stmts := 2 |}, (Enumath 1). split; [apply fresh_geo |].
  set (d := fst _). assert (fs_get d "mesh_1.h5" = Some (H5 [])) as H by reflexivity. clearbody d.
  assert (h5_file_name (Enumath 1) = "mesh_1.h5") as HN by reflexivity.
  intros l t. revert d H. induction l as [| e l IH]; intros d H W; cbn [session fold_left].
  - unfold load. rewrite <- HN in H. rewrite (bind_run _ _ _ _ _ (C126_reuse t _ d _ H)), H. reflexivity.
  - pose proof (Forall_inv W) as W1. pose proof (Forall_inv_tail W) as W2. apply IH; [| exact W2]. destruct e as [t' p | g']; [| cbn in W1; tauto]. cbn [step].
    destruct (string_dec "mesh_1.h5" (h5_file_name p)) as [E | E].
    + rewrite load_fst. rewrite E in H. rewrite (C126_reuse t' p d _ H). cbn [fst]. now rewrite E.
    + rewrite C126_frame; [exact H | exact E |]. rewrite <- HN. apply name_not_scratch.
Qed.
Print Assumptions C126_half_refuted.

(** A changed domain.geo is not noticed. *)
Theorem C126_edit_refuted g g' : g <> g' -> exists d p, fresh g d /\
  snd (load t_good p (session d [Load t_good p; Edit g'])) = Ok [("mesh", (g, command p)); ("facet", (g, command p)); ("physical", (g, command p))].
Proof. intros _. exists (d_geo g), (D123 (1 # 4) (1 # 2)). split; [apply fresh_geo | reflexivity]. Qed.
Print Assumptions C126_edit_refuted.

(** Parameters that differ after the sixth digit have one file and one command. *)
Theorem C126_digits_refuted i : exists s s', ~ (s == s')%Q /\ h5_file_name (D123 s i) = h5_file_name (D123 s' i) /\ command (D123 s i) = command (D123 s' i).
Proof.
  exists (1 # 4), (25000001 # 100000000). split; [discriminate |].
  assert (fmt_g (1 # 4) = fmt_g (25000001 # 100000000)) as E by reflexivity. cbn [h5_file_name command]. rewrite E. auto.
Qed.
Print Assumptions C126_digits_refuted.

(** Non-vacuity: a session of both programs, with a gmsh that fails in between *)
Example ex_reliable : reliable t_good /\ reliable {| t_gmsh := 1; t_msh := false; t_files := 3; t_stmts := 7 |}.
Proof. split; repeat split; cbn; try lia; discriminate. Qed.
Example ex_session : session (d_geo 5) [Load t_good (D123 (1 # 4) (1 # 2)); Load {| t_gmsh := 1; t_msh := true; t_files := 3; t_stmts := 7 |} (Enumath 1); Load t_good (Enumath 1)]
  = [("mesh_1.h5", complete (5, "gmsh -3 -clscale 1 domain.geo"));
     ("mesh_0.25_0.5.h5", complete (5, "gmsh -3 -setnumber inner 0.5 -clscale 0.25 domain.geo")); ("domain.geo", Geo 5)].
Proof. reflexivity. Qed.
Example ex_printed : map fmt_g [1 # 3; 2 # 3; 1234567; 1 # 100000; 1999999 # 2; 12345678 # 100000000000; -1 # 2; 0; 125 # 10]%Q
  = ["0.333333"; "0.666667"; "1.23457e+06"; "1e-05"; "1e+06"; "0.000123457"; "-0.5"; "0"; "12.5"].
Proof. reflexivity. Qed.
Example ex_missing : snd (load {| t_gmsh := 0; t_msh := true; t_files := 1; t_stmts := 7 |} (D123 1 1) (d_geo 0)) = Err RuntimeError
  /\ is_ok (snd (generate {| t_gmsh := 0; t_msh := true; t_files := 1; t_stmts := 7 |} (D123 1 1) (d_geo 0))) = true.
Proof. split; reflexivity. Qed.
