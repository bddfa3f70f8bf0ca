(** Property theorems: files of a convergence study (C70 - C74). *)
From Coq Require Import String Ascii.
From Coq Require Import List Bool Arith ZArith QArith Qabs Qreals Reals Lia Lra.
From Verif Require Import Base Ext Float64 M_Metadata M_Writer M_Tableaux M_Problems SpecWriter SpecProblems L_Problems2 L_Problems3 L_Problems4.
Import ListNotations.
Local Open Scope list_scope.
Local Open Scope string_scope.
Local Open Scope list_scope.

(** ** C70: every run has its own file *)

(** What is accepted, and where files are. *)
Theorem C70_accepts : forall folder name t,
  (exists nm p, get_file_path folder name t = Ok (nm, p)) <->
  t = Named "adaptive" \/ t = Named "avg_homogeneous" \/ exists x, t = Step x.
Proof. exact c70_accepts. Qed.
Print Assumptions C70_accepts.

Theorem C70_names : forall folder name t nm p, get_file_path folder name t = Ok (nm, p) ->
  (exists kind, In kind ["adaptive"; "avg_homogeneous"; "homogeneous"] /\ p = (folder ++ "/" ++ kind ++ "/" ++ nm ++ ".h5")%string) /\
  forall c, In c (list_ascii_of_string nm) -> c <> " "%char /\ c <> ","%char /\ ~ (65 <= nat_of_ascii c <= 90)%nat.
Proof. exact c70_name. Qed.
Print Assumptions C70_names.

(** Two runs share a file exactly if they are of one kind, the names of their
    tableaux differ only in commas, case and blanks against underscores, and
    their fixed step sizes (if any) agree in the first digit. *)
Theorem C70_same_file_iff_partial : forall folder a b t u na p nb q,
  positive_step t -> positive_step u ->
  get_file_path folder a t = Ok (na, p) -> get_file_path folder b u = Ok (nb, q) ->
  (p = q <-> same_name a b /\ same_run t u).
Proof. exact c70_same_file. Qed.
Print Assumptions C70_same_file_iff_partial.

(** Step sizes at least a factor of 2 apart have different files, *)
Theorem C70_factor_partial : forall x y, (2 * y <= x \/ 2 * x <= y)%Q -> ~ same_digit x y.
Proof. exact c70_factor. Qed.
Print Assumptions C70_factor_partial.

(** and so have different step sizes with one digit, as long as they are stored
    with an error of less than half of the next digit. *)
Theorem C70_one_digit_partial : forall x y m e m' e', (1 <= m <= 9)%Z -> (1 <= m' <= 9)%Z ->
  (20 * Qabs (x - inject_Z m * 10 ^ e) < 10 ^ e)%Q -> (20 * Qabs (y - inject_Z m' * 10 ^ e') < 10 ^ e')%Q ->
  same_digit x y -> m = m' /\ e = e'.
Proof. exact c70_digits. Qed.
Print Assumptions C70_one_digit_partial.

(** The shipped tableaux and step sizes: files are shared only by tableaux of
    the same name. *)
Theorem C70_shipped_partial : forall folder x y h k h' k' na p nb q, In x all_tableaux -> In y all_tableaux ->
  In h (prothero_steps ++ kaps_steps) -> In k (prothero_steps ++ kaps_steps) ->
  (1000 * Qabs (h' - h) <= h)%Q -> (1000 * Qabs (k' - k) <= k)%Q ->
  get_file_path folder (s_name x) (Step h') = Ok (na, p) -> get_file_path folder (s_name y) (Step k') = Ok (nb, q) ->
  p = q -> s_name x = s_name y /\ (h == k)%Q.
Proof. exact c70_shipped_steps. Qed.
Print Assumptions C70_shipped_partial.
Theorem C70_shipped_named_partial : forall folder x y s s' na p nb q, In x all_tableaux -> In y all_tableaux ->
  get_file_path folder (s_name x) (Named s) = Ok (na, p) -> get_file_path folder (s_name y) (Named s') = Ok (nb, q) ->
  p = q -> s_name x = s_name y /\ s = s'.
Proof. exact c70_shipped_named. Qed.
Print Assumptions C70_shipped_named_partial.

(** In general files are shared: by two step sizes, by two names, and by two of
    the shipped tableaux. *)
Theorem C70_refuted : forall folder name,
  (exists x y nm p, ~ (x == y)%Q /\ get_file_path folder name (Step x) = Ok (nm, p) /\ get_file_path folder name (Step y) = Ok (nm, p)) /\
  (exists a b, a <> b /\ forall s, get_file_path folder a (Named s) = get_file_path folder b (Named s)) /\
  (exists x y, In x all_tableaux /\ In y all_tableaux /\ map evalR (s_c x) <> map evalR (s_c y) /\
     forall t, get_file_path folder (s_name x) t = get_file_path folder (s_name y) t).
Proof.
  intros folder name. split; [|split].
  - destruct (proj2 (C70_accepts folder name (Step (12 # 10000)))) as (nm & p & E); [eauto|].
    destruct (proj2 (C70_accepts folder name (Step (14 # 10000)))) as (nm' & p' & F); [eauto|].
    exists (12 # 10000)%Q, (14 # 10000)%Q, nm, p. split; [discriminate|]. split; [exact E|].
    cbn [get_file_path] in *. rewrite <- E. do 3 f_equal.
  - exists "SDIRK 2", "sdirk_2". split; [discriminate|]. intros s. reflexivity.
  - exists embedded_third_order_three_stage_sdirk1, embedded_third_order_three_stage_sdirk2.
    split; [apply (nth_error_In _ 9); reflexivity|]. split; [apply (nth_error_In _ 10); reflexivity|].
    split; [|reflexivity]. intros C. apply (f_equal (fun l => nth 2 l 0%R)) in C. cbn in C. unfold Q2R in C. cbn in C. lra.
Qed.
Print Assumptions C70_refuted.

Example C70_paths :
  get_file_path "data/kaps" "SDIRK 3-stage, 3rd order" (Step (2 # 100))
    = Ok ("data_2e-02_sdirk_3-stage_3rd_order", "data/kaps/homogeneous/data_2e-02_sdirk_3-stage_3rd_order.h5") /\
  get_file_path "data/kaps" "SDIRK 3-stage, 3rd order" (Named "adaptive")
    = Ok ("sdirk_3-stage_3rd_order", "data/kaps/adaptive/sdirk_3-stage_3rd_order.h5") /\
  get_file_path "data/kaps" "SDIRK 3-stage, 3rd order" (Named "homogeneous") = Err ValueError /\
  positive_step (Step (2 # 100)) /\ same_digit (12 # 10000) (14 # 10000) /\
  (20 * Qabs ((2 # 100) - inject_Z 2 * 10 ^ (- 2)) < 10 ^ (- 2))%Q /\
  In (2 # 100)%Q (prothero_steps ++ kaps_steps) /\ (1000 * Qabs ((2 # 100) - (2 # 100)) <= 2 # 100)%Q.
Proof.
  split; [vm_compute; reflexivity|]. split; [vm_compute; reflexivity|]. split; [reflexivity|]. split; [reflexivity|].
  split; [exact twelve_fourteen|]. split; [reflexivity|]. split; [cbn; tauto|]. discriminate.
Qed.

(** ** C71: the tolerance for adaptive runs *)

(** After runs with all step sizes the tolerance is the mean of the last local
    errors of these runs, if the step sizes differ in the first digit. *)
Theorem C71_mean_partial : forall (fs : files R) folder name (run : Q -> file R) (err : Q -> R) steps, steps <> [] ->
  (forall h, In h steps -> (0 < h)%Q /\ ends_with (run h) (err h)) -> pairwise (fun h k => ~ same_digit h k) steps ->
  exists m, compute_tolerance (homogeneous folder name run steps fs) folder name steps = Ok m /\ mean (map err steps) m.
Proof. exact c71_study. Qed.
Print Assumptions C71_mean_partial.

(** The mean is within the range of the errors. *)
Theorem C71_range : forall l m lo hi, l <> [] -> mean l m -> (forall x, In x l -> lo <= x <= hi)%R -> (lo <= m <= hi)%R.
Proof. exact mean_between. Qed.
Print Assumptions C71_range.

(** Without one of the files it is 1e-6. *)
Theorem C71_missing : forall (fs : files R) folder name steps,
  (forall h nm p, In h steps -> get_file_path folder name (Step h) = Ok (nm, p) ->
     fs p = None \/ exists f e, fs p = Some f /\ ends_with f e) ->
  (exists h nm p, In h steps /\ get_file_path folder name (Step h) = Ok (nm, p) /\ fs p = None) ->
  exists x, compute_tolerance fs folder name steps = Ok x /\ (x * 1000000 = 1)%R.
Proof. exact c71_missing. Qed.
Print Assumptions C71_missing.

(** For step sizes that are merely different, the later run replaces the file of
    the earlier one and counts twice. *)
Theorem C71_refuted :
  ~ (forall (fs : files R) folder name (run : Q -> file R) (err : Q -> R) steps, steps <> [] -> NoDup steps ->
     (forall h, In h steps -> (0 < h)%Q /\ ends_with (run h) (err h)) ->
     exists m, compute_tolerance (homogeneous folder name run steps fs) folder name steps = Ok m /\ mean (map err steps) m).
Proof. exact c71_refuted. Qed.
Print Assumptions C71_refuted.

Example C71_hypotheses_met : exists run err, (forall h, In h kaps_steps -> (0 < h)%Q /\ ends_with (run h) (err h)) /\
  pairwise (fun h k => ~ same_digit h k) kaps_steps /\ (forall h, In h kaps_steps -> 1 <= err h <= 3)%R /\
  exists h nm p, In h kaps_steps /\ get_file_path "data/kaps" "RK" (Step h) = Ok (nm, p).
Proof.
  exists runs, (fun h => if Qeq_bool h (12 # 10000) then 1 else 3)%R. split.
  - intros h I. split; [cbn in I; intuition (subst; reflexivity)|apply one_step_ends].
  - split; [|split].
    + intros i j x y L E F S.
      assert (N : forall k h, nth_error kaps_steps k = Some h -> (1000 * Qabs (h - h) <= h)%Q).
      { intros k h Hk. apply nth_error_In in Hk. cbn in Hk. intuition (subst; discriminate). }
      assert (Q : (x == y)%Q).
      { refine (steps_differ x y x y _ _ (N _ _ E) (N _ _ F) S); apply in_or_app; right; eapply nth_error_In; eassumption. }
      do 5 (destruct i as [|i]; [do 5 (destruct j as [|j]; [try lia; cbn in E, F; injection E as <-; injection F as <-; revert Q; unfold Qeq; cbn; discriminate|]);
        destruct j; discriminate F|]). destruct i; discriminate E.
    + intros h _. destruct (Qeq_bool h (12 # 10000)); lra.
    + exists (1 # 100)%Q. eexists. eexists. split; [now left|reflexivity].
Qed.

(** ** C72: directories for output files *)

(** A path with a directory: it is returned unchanged, and its directory is
    there afterwards if the path is that of a result or a figure; no other is
    made. *)
Theorem C72_directory_partial : forall path d ds, directory_of path d ->
  exists ds', generate_path path ds = (ds', Ok path) /\ incl ds ds' /\ (forall x, In x ds' -> In x ds \/ x = d) /\
    (is_output path = true -> In d ds').
Proof. exact c72_paved. Qed.
Print Assumptions C72_directory_partial.

(** A bare file name raises. *)
Theorem C72_bare_refuted : forall path ds, is_output path = true -> ~ In "/"%char (list_ascii_of_string path) -> ~ In "" ds ->
  generate_path path ds = (ds, Err FileError).
Proof. exact c72_bare. Qed.
Print Assumptions C72_bare_refuted.

(** Several processes: none raises if the directory is there, *)
Theorem C72_parallel_partial : forall path d order ds n, directory_of path d -> In d ds ->
  forall r, In (Done r) (snd (moves path order ds (repeat Start n))) -> r = Ok tt.
Proof. exact c72_parallel. Qed.
Print Assumptions C72_parallel_partial.

(** else two of them can look before either makes the directory, and the second
    raises. *)
Theorem C72_parallel_refuted : exists order,
  snd (moves "out/run.h5" order [] [Start; Start]) = [Done (Ok tt); Done (Err FileError)].
Proof. exists [0; 1; 0; 1]%nat. reflexivity. Qed.
Print Assumptions C72_parallel_refuted.

Example C72_hypotheses_met : directory_of "data/kaps/adaptive/x.h5" "data/kaps/adaptive/" /\ is_output "data/kaps/adaptive/x.h5" = true /\
  generate_path "data/kaps/adaptive/x.h5" [] = (["data/kaps/adaptive/"], Ok "data/kaps/adaptive/x.h5") /\
  is_output "output.h5" = true /\ ~ In "/"%char (list_ascii_of_string "output.h5") /\
  moves "out/run.h5" [0; 0; 1]%nat [] [Start; Start] = (["out/"], [Done (Ok tt); Done (Ok tt)]).
Proof.
  split; [exists "data/kaps/adaptive", "x.h5"; split; [reflexivity|]; split; [reflexivity|]; cbn; intuition discriminate|].
  split; [reflexivity|]. split; [reflexivity|]. split; [reflexivity|]. split; [cbn; intuition discriminate|reflexivity].
Qed.

(** ** C73: the average step size of an adaptive run *)

(** The script counts the groups of the file; the initial state has one, so
    after n steps it takes n + 1 steps of 1/(n + 1) of the time. *)
Theorem C73_one_step_more_refuted : forall (T : Type) (fs : files T) folder name T0 nm p names shapes start rs (N : Num T),
  get_file_path folder name (Named "adaptive") = Ok (nm, p) -> fs p = Some (result_file names shapes 1 start rs) ->
  average_steps fs folder name T0 = Ok (S (length rs), ndiv T0 (nlit (inject_Z (Z.of_nat (S (length rs)))))).
Proof. exact (@c73_count). Qed.
Print Assumptions C73_one_step_more_refuted.

Example C73_hypotheses_met : exists nm p,
  get_file_path "data" "RK" (Named "adaptive") = Ok (nm, p) /\
  average_steps (N := RNum) (fun q => if String.eqb q p then Some (one_step 3) else None) "data" "RK" 1%R
    = Ok (2%nat, (1 / Q2R (inject_Z 2))%R).
Proof. eexists. eexists. split; [reflexivity|]. reflexivity. Qed.

(** ** C74: the number of fixed steps of a study *)

(** For the shipped end times and step sizes int(T / h), in double precision, is
    the number of steps that fill the time exactly, *)
Theorem C74_shipped_partial : forall T h, In (T, h) study_pairs ->
  exists n, number_of_steps (flit T) (flit h) = Ok n /\ (inject_Z n * h == T)%Q.
Proof. exact c74_shipped. Qed.
Print Assumptions C74_shipped_partial.

(** but not for all: int(0.3 / 0.1) is 2. *)
Theorem C74_refuted : ~ (forall T h n, (0 < h)%Q -> (inject_Z n * h == T)%Q -> number_of_steps (flit T) (flit h) = Ok n).
Proof. exact c74_refuted. Qed.
Print Assumptions C74_refuted.

Example C74_hypotheses_met : In (10%Q, (1 # 1000)%Q) study_pairs /\ number_of_steps (flit 10) (flit (1 # 1000)) = Ok 10000%Z.
Proof. split; [cbn; tauto|vm_compute; reflexivity]. Qed.
