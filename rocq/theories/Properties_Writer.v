(** Property theorems: the result file (C34, C35, C54, C55). *)
From Coq Require Import String.
From Coq Require Import List Bool Arith ZArith Lia Permutation.
From Verif Require Import Base M_Tableau M_State M_ODE M_Step M_Controller M_Measure M_Integrator M_Metadata M_Writer
  SpecRK SpecRun SpecRevolve SpecMetadata SpecWriter L_Writer2 L_Writer4 L_Writer5 L_Writer6 L_Writer7 L_Writer8 L_Writer9 L_RevolveLog
  Witness WitnessRun WitnessMPI WitnessWriter.
Import ListNotations.
Local Open Scope string_scope.
Local Open Scope nat_scope.
Local Open Scope list_scope.

(** ** C34: Result file holds exactly the requested steps *)

(** On any number of processes: after one or more steps the file has the groups
    of step 0 and of the steps that are multiples of the period, each with the
    time, the whole of every quantity and the error measure of that step, and
    nothing else, whatever it had before ([fs]) and in whatever order the
    processes write. *)
Theorem C34_file_of_a_run :
  forall (T : Type) (N : Num T) vs qs is procs mds names outs period emb (start : instant T) steps rs fs out,
  well_tagged vs qs -> named procs vs -> 0 < procs -> metadata_of procs vs qs is = Ok mds ->
  quantities_are vs qs mds names outs -> names_ok names emb -> 0 < period -> steps <> [] ->
  i_error start = (if emb then Some n0 else None) -> Forall (flagged emb) rs ->
  Forall2 (fun s r => length (fst s) = procs /\ Forall (embedded_like (i_error r)) (fst s) /\
     wholes mds outs (map (fun st => final_state (disc st)) (snd s)) (i_values r) /\
     Forall (fun st => final_time (disc st) = i_time r /\ embedded_like (i_error r) st /\
       forall e, i_error r = Some e -> nth_error (err_hist st) 0 = Some e) (snd s)) steps rs ->
  (forall s, hd_error steps = Some s ->
     wholes mds outs (map (fun st => start_state (disc st)) (snd s)) (i_values start) /\
     Forall (fun st => start_time (disc st) = i_time start) (snd s)) ->
  writes period mds 1 steps fs out ->
  out = Ok (Some (result_file names (map v_global_shape outs) period start rs)).
Proof. exact (@c34_distributed). Qed.
Print Assumptions C34_file_of_a_run.

(** Three distributed entries and a copied one on two processes; every second
    step of two is written over some other file. *)
Example C34_file_hypotheses_met : forall fs, exists out,
  well_tagged two ["x"; "y"] /\ named 2 two /\ metadata_of 2 two ["x"; "y"] [] = Ok two_mds /\
  quantities_are two ["x"; "y"] two_mds ["x"; "y"] two /\ names_ok ["x"; "y"] true /\ Forall (flagged true) [at1; at2] /\
  writes 2 two_mds 1 [step1; step2] fs out /\
  out = Ok (Some [("0", record_of ["x"; "y"] [[3]; [1]] at0); ("2", record_of ["x"; "y"] [[3]; [1]] at2)]).
Proof.
  intros fs; destruct (writes_exists 2 two_mds [step1; step2] 1 fs) as (o & W & _); exists o.
  split; [exact two_tagged|]; split; [exact two_named|]; split; [exact two_ok|]; split; [exact two_are|]; split; [apply two_names|].
  split; [exact (Forall_inv_tail two_flags)|]; split; [exact W|].
  refine (C34_file_of_a_run Z _ two ["x"; "y"] [] 2 two_mds ["x"; "y"] two 2 true at0 _ [at1; at2] fs o
    two_tagged two_named _ two_ok two_are (two_names true) _ _ eq_refl (Forall_inv_tail two_flags) two_steps two_start W);
    [lia|lia|discriminate].
Qed.

(** On one process: the file of a returning [compute] that calls the writer as
    its callback number [k]; step 0 has the initial values, the other groups
    the states of the trajectory. *)
Theorem C34_file_of_compute :
  forall (T : Type) (N : Num T) (C : Type) (op : options T C) (md : metadata),
  undivided md -> state_size (o_ode op) = time_integration_array_size md ->
  names_ok (names_of md) (is_embedded (o_bt op)) ->
  forall c w i w' out k period fs, 0 < period ->
  sized_ode (o_ode op) -> loops op -> reachable op c w -> inputs_sized (o_ode op) i ->
  compute op i w = (w', Ok out) -> k < length (o_callbacks op Compute) ->
  exists a l ev, starts_at op i a /\ trajectory op a l /\ stops op a l /\ live w' = last l a /\ log w' = log w ++ ev /\
    (l <> [] -> replay period md k ev fs =
       Ok (Some (result_file (names_of md) (shapes_of md) period
         (instant_at md (time_initial i) (initial i) (if is_embedded (o_bt op) then Some n0 else None))
         (map (instant_of (is_embedded (o_bt op)) md) l)))) /\
    (l = [] -> replay period md k ev fs = Ok fs).
Proof. exact (@run_file_of). Qed.
Print Assumptions C34_file_of_compute.

(** What it needs of the metadata holds on one process. *)
Theorem C34_one_process :
  forall vs qs is md names outs, well_tagged vs qs -> named 1 vs -> metadata_of 1 vs qs is = Ok [md] ->
  quantities_are vs qs [md] names outs -> Forall copied outs -> undivided md.
Proof. exact undivided_of. Qed.
Print Assumptions C34_one_process.

Definition wop : options Z unit :=
  gop euler (gode (fun i => Z.eqb (M_ODE.time i) 1 && Z.eqb (nth 0 (independent_input i) 0%Z) 7) never)
    AllCheckpointer false 1%Z (PredefinedNumberOfSteps 2).
Example C34_compute_hypotheses_met : exists w1 out,
  well_tagged lonely ["x"] /\ named 1 lonely /\ metadata_of 1 lonely ["x"] [] = Ok [lonely_md] /\
  quantities_are lonely ["x"] [lonely_md] ["x"] lonely /\ Forall copied lonely /\ undivided lonely_md /\
  state_size (o_ode wop) = time_integration_array_size lonely_md /\ names_ok (names_of lonely_md) (is_embedded (o_bt wop)) /\
  sized_ode (o_ode wop) /\ loops wop /\ reachable wop tt (setup wop tt) /\ 1 < length (o_callbacks wop Compute) /\
  compute wop (gin 0 1 2)%Z (setup wop tt) = (w1, Ok out) /\
  option_map (map fst) match replay 1 lonely_md 1 (log w1) None with Ok fs => fs | Err _ => None end = Some ["0"; "1"; "2"].
Proof.
  eexists; eexists; split; [apply one_tagged; reflexivity|]; split; [exact lonely_named|]; split; [exact lonely_ok|].
  split; [exact lonely_are|]; split; [exact lonely_copied|]; split; [exact lonely_undivided|]; split; [reflexivity|].
  split; [apply NoDup_cons; [intros [H|[]]; discriminate|]; apply NoDup_cons; [intros []|constructor]|].
  split; [apply gode_sized|]; split; [exact I|]; split; [exists []; split; [constructor|reflexivity]|].
  split; [cbn; lia|]; split; [vm_compute; reflexivity|vm_compute; reflexivity].
Qed.

(** ** Interrupted runs *)

(** Wherever a later iteration is broken off, the records of the steps before
    are complete and unchanged, and at most one group more is in the file. *)
Theorem C34_interrupted_partial :
  forall (T : Type) (N : Num T) period names shapes emb mds (start : instant T) steps rs fs fs1 pre post o l1 l2 fs2,
  0 < period -> names_ok names emb -> mds <> [] -> Forall (agree names shapes) mds ->
  i_error start = (if emb then Some n0 else None) -> steps <> [] ->
  Forall2 (proper_step mds) steps rs -> Forall (flagged emb) rs ->
  (forall s, hd_error steps = Some s -> at_start mds (snd s) start) ->
  writes period mds 1 steps fs (Ok fs1) ->
  Permutation o (all_after period (S (length steps)) mds post) ->
  l1 ++ l2 = all_before period (S (length steps)) mds pre ++ o -> run_ops l1 fs1 = Ok fs2 ->
  exists extra, fs2 = Some (result_file names shapes period start rs ++ extra) /\
    Forall (fun p => fst p = step_name (S (length steps))) extra.
Proof. exact (@c34_interrupted). Qed.
Print Assumptions C34_interrupted_partial.

Lemma two_spread (a b c d : Z) : spread_all two_mds [[a; d]; [b; c; d]] [[a; b; c]; [d]].
Proof. refine (wholes_spread two ["x"; "y"] [] 2 two_mds two_tagged two_named two_ok ["x"; "y"] two _ _ _ two_are (two_wholes a b c d)); lia. Qed.
Example C34_interrupted_hypotheses_met : forall fs, exists fs1 l2 fs2,
  names_ok ["x"; "y"] true /\ Forall (agree ["x"; "y"] [[3]; [1]]) two_mds /\
  Forall2 (proper_step two_mds) [step1] [at1] /\ Forall (flagged true) [at1] /\
  (forall s, hd_error [step1] = Some s -> at_start two_mds (snd s) at0) /\
  writes 1 two_mds 1 [step1] fs (Ok fs1) /\
  all_before 1 2 two_mds (fst step2) ++ l2 = all_before 1 2 two_mds (fst step2) ++ all_after 1 2 two_mds (snd step2) /\ l2 <> [] /\
  run_ops (all_before 1 2 two_mds (fst step2)) fs1 = Ok fs2.
Proof.
  intros fs; destruct breaks_off as (f & gr & B & _).
  assert (P : Forall2 (proper_step two_mds) [step1] [at1]).
  { apply Forall2_cons; [|constructor]; split; [reflexivity|]; split; [repeat constructor|]; split; [exact (two_spread 11 12 13 14)%Z|].
    repeat (apply Forall_cons; [split; [reflexivity|]; split; [reflexivity|]; intros e [= <-]; reflexivity|]); constructor. }
  assert (S0 : forall s, hd_error [step1] = Some s -> at_start two_mds (snd s) at0).
  { intros s [= <-]; split; [exact (two_spread 1 2 3 4)%Z|repeat constructor]. }
  assert (A : Forall (agree ["x"; "y"] [[3]; [1]]) two_mds) by (repeat constructor).
  assert (F1 : Forall (flagged true) [at1]) by (apply Forall_cons; [reflexivity|constructor]).
  destruct (writes_exists 1 two_mds [step1] 1 fs) as (o & W & _).
  pose proof (c34_main 1 ["x"; "y"] [[3]; [1]] true two_mds (two_names true) ltac:(discriminate) A at0 eq_refl [step1] [at1] fs o
    ltac:(lia) ltac:(discriminate) P F1 S0 W) as E; subst o.
  eexists; exists (all_after 1 2 two_mds (snd step2)), (Some f); split; [apply two_names|]; split; [exact A|]; split; [exact P|].
  split; [repeat constructor|]; split; [exact S0|]; split; [exact W|]; split; [reflexivity|]; split; [discriminate|exact B].
Qed.

(** The same for a [compute] that raises. *)
Theorem C34_file_when_raising :
  forall (T : Type) (N : Num T) (C : Type) (op : options T C) (md : metadata),
  undivided md -> state_size (o_ode op) = time_integration_array_size md ->
  names_ok (names_of md) (is_embedded (o_bt op)) ->
  forall c w i w' out k period, 0 < period ->
  sized_ode (o_ode op) -> loops op -> reachable op c w -> inputs_sized (o_ode op) i ->
  compute op i w = (w', out) -> k < length (o_callbacks op Compute) ->
  exists a l ev, starts_at op i a /\ trajectory op a l /\ log w' = log w ++ ev /\
    (l <> [] -> forall fs fs', replay period md k ev fs = Ok fs' ->
      exists extra, fs' = Some (result_file (names_of md) (shapes_of md) period
         (instant_at md (time_initial i) (initial i) (if is_embedded (o_bt op) then Some n0 else None))
         (map (instant_of (is_embedded (o_bt op)) md) l) ++ extra) /\
        Forall (fun p => fst p = step_name (S (length l))) extra).
Proof. exact (@raising_file). Qed.
Print Assumptions C34_file_when_raising.

(** A run whose second step cannot be solved; it leaves an unwritten group. *)
Example C34_raising_hypotheses_met : exists w1,
  undivided lonely_md /\ loops wop /\ compute wop (gin 0 1 7)%Z (setup wop tt) = (w1, Err SolverError) /\
  option_map (map fst) match replay 1 lonely_md 1 (log w1) None with Ok fs => fs | Err _ => None end = Some ["0"; "1"; "2"].
Proof.
  eexists; split; [exact lonely_undivided|]; split; [exact I|]; split; [vm_compute; reflexivity|vm_compute; reflexivity].
Qed.

(** "No group exists without its data" does not hold: a step broken off after
    [before_iteration] leaves a group of zeros, and the reader takes it for the
    last step. *)
Theorem C34_no_group_without_data_refuted :
  exists (mds : list metadata) (start r1 : instant Z) pre f gr,
  run_ops (all_before 1 2 mds pre) (Some (result_file ["x"; "y"] [[3]; [1]] 1 start [r1])) = Ok (Some f) /\
  lookup "2" f = Some gr /\ lookup "time" gr <> None /\ Forall (fun p => Forall (fun x => x = 0%Z) (d_data (snd p))) gr /\
  i_error r1 = Some 5%Z /\
  read_last_local_error (Some (result_file ["x"; "y"] [[3]; [1]] 1 start [r1])) = Ok 5%Z /\
  read_last_local_error (Some f) = Ok 0%Z.
Proof.
  destruct breaks_off as (f & gr & B1 & B2 & B3 & B4 & B5 & B6).
  exists two_mds, at0, at1, (fst step2), f, gr; repeat (split; [assumption || reflexivity|]); exact B5.
Qed.
Print Assumptions C34_no_group_without_data_refuted.

(** With the recomputing checkpointer, which numbers the steps 0, ..., N-1, the
    writer raises in the first step: there is no file yet, or it has a group 0
    already. *)
Theorem C34_recomputing_refuted :
  forall (T : Type) (N : Num T) (C : Type) (op : options T C) c n fs rs i w w' out md k period,
  stateless op c -> o_ckpt op = PyrevolveCheckpointer fs rs -> valid_schedule n fs rs ->
  Forall forward_action fs -> ctl w = c -> compute op i w = (w', Ok out) -> k < length (o_callbacks op Compute) ->
  exists ev, log w' = log w ++ ev /\ replay period md k ev None = Err FileError /\
    forall f, lookup "0" f <> None -> replay period md k ev (Some f) = Err ValueError.
Proof.
  intros T N C op c n fs rs i w w' out md k period H1 H2 H3 H4 H5 H6 Hk.
  destruct (revolve_callbacks op c n fs rs i w w' out H1 H2 H3 H4 H5 H6) as (a & l & _ & _ & Ll & Lg & _).
  eexists; split; [exact Lg|]; apply numbered_from_zero; [destruct l; discriminate|exact Hk].
Qed.
Print Assumptions C34_recomputing_refuted.

Definition wfs : list action := [Save 0; Advance 0 2].
Definition wrs : list action := [Reverse 1 2; Restore 0; Advance 0 1; Reverse 0 1].
Definition wrev : options Z unit :=
  gop euler (gode never never) (PyrevolveCheckpointer wfs wrs) false 1%Z (PredefinedNumberOfSteps 3).
Example C34_recomputing_hypotheses_met : exists w1 out,
  stateless wrev tt /\ valid_schedule 2 wfs wrs /\ Forall forward_action wfs /\
  compute wrev (gin 0 1 2)%Z (setup wrev tt) = (w1, Ok out) /\ 1 < length (o_callbacks wrev Compute).
Proof.
  eexists; eexists; split; [apply gop_stateless|]; split; [eexists; eexists; split; [reflexivity|]; repeat split; reflexivity|].
  split; [repeat constructor|]; split; [vm_compute; reflexivity|cbn; lia].
Qed.

(** A quantity cannot be called [error_measure]. *)
Theorem C34_error_measure_name_refuted :
  exists vs mds (steps : list (list (tistate Z) * list (tistate Z))), metadata_of 1 vs ["error_measure"] [] = Ok mds /\
  forall fs, run_steps 1 1 mds steps fs = Err ValueError.
Proof. exists clash, clash_mds; eexists; split; [vm_compute; reflexivity|exact clash_raises]. Qed.
Print Assumptions C34_error_measure_name_refuted.

(** ** C35: Distributed result datasets are written without gaps or overlaps *)

(** Every entry of the dataset is selected by exactly one process, *)
Theorem C35_every_entry_once :
  forall vs qs is procs mds, well_tagged vs qs -> named procs vs -> metadata_of procs vs qs is = Ok mds ->
  forall v q j idx k, In v vs -> v_output v = true -> In q qs -> has q v -> split_rows v ->
  Forall (fun md => option_map q_name (nth_error (time_integration_quantities md) j) = Some q) mds ->
  place (v_global_shape v) idx k ->
  exists! r, exists md qu sel, nth_error mds r = Some md /\ nth_error (time_integration_quantities md) j = Some qu /\
    ~ nothing (q_array qu) /\ get_write_indices (q_array qu) = Ok sel /\ selected sel idx = true.
Proof. exact c35_one. Qed.
Print Assumptions C35_every_entry_once.

(** and the selection of a process has the shape of its portion, with the entry
    in the same place. *)
Theorem C35_selection_is_portion :
  forall vs qs is procs mds, well_tagged vs qs -> named procs vs -> metadata_of procs vs qs is = Ok mds ->
  forall v q j r md qu, In v vs -> v_output v = true -> In q qs -> has q v -> split_rows v ->
  Forall (fun md => option_map q_name (nth_error (time_integration_quantities md) j) = Some q) mds ->
  nth_error mds r = Some md -> nth_error (time_integration_quantities md) j = Some qu -> ~ nothing (q_array qu) ->
  exists sel, get_write_indices (q_array qu) = Ok sel /\ sel_shape sel = shape (q_array qu) /\
    local_shape r v = Some (shape (q_array qu)) /\
    forall idx k, place (v_global_shape v) idx k -> selected sel idx = true ->
      place (shape (q_array qu)) (inside sel idx) (k - global_start_index (q_array qu)).
Proof. exact c35_portion. Qed.
Print Assumptions C35_selection_is_portion.

(** Rows of two entries: two rows on the first process, none on the second, one
    on the third, where the variable does not exist on the fourth. *)
Definition split_v : variable := out "xs" "x" [Some [2; 2]; Some [0; 2]; Some [1; 2]; None] [3; 2].
Definition split_mds : list metadata := Eval vm_compute in mds_of (metadata_of 4 [split_v] ["x"] []).
Example C35_hypotheses_met :
  well_tagged [split_v] ["x"] /\ named 4 [split_v] /\ metadata_of 4 [split_v] ["x"] [] = Ok split_mds /\
  v_output split_v = true /\ has "x" split_v /\ split_rows split_v /\
  Forall (fun md => option_map q_name (nth_error (time_integration_quantities md) 0) = Some "x") split_mds /\
  place (v_global_shape split_v) [2; 1] 5 /\
  map (fun md => map (fun q => (M_Metadata.shape (q_array q), get_write_indices (q_array q))) (time_integration_quantities md)) split_mds
    = [[([2; 2], Ok [(0, 2); (0, 2)])]; [([0; 2], Ok [(2, 2); (0, 2)])]; [([1; 2], Ok [(2, 3); (0, 2)])]; [([0], Err ValueError)]].
Proof.
  split; [apply one_tagged; reflexivity|]; split; [split; [apply NoDup_cons; [intros []|constructor]|repeat constructor]|].
  split; [vm_compute; reflexivity|]; split; [reflexivity|]; split; [left; reflexivity|]; split.
  - exists 3, [2], [2; 0; 1; 0]; split; [reflexivity|]; split; [reflexivity|].
    repeat (apply Forall2_cons; [auto|]); constructor.
  - split; [repeat constructor|]; split; [|vm_compute; reflexivity].
    apply (place_axis 3 [2] 2 [1] 1); [lia|]; apply (place_axis 2 [] 1 [] 0); [lia|constructor].
Qed.

(** ** C54: The last recorded error measure *)

(** [read_last_local_error] gives the error measure of the last step that was
    written: 0 if none was, and a KeyError for a scheme without error
    estimate. *)
Theorem C54_last_local_error :
  forall (T : Type) names shapes period emb (start : instant T) rs m,
  names_ok names emb -> flagged emb start -> Forall (flagged emb) rs ->
  Forall (fun r => map (@length T) (i_values r) = map (@prod) shapes) (start :: rs) -> length names = length shapes ->
  ~ In "error_measure" names -> last_recorded period (length rs) m ->
  read_last_local_error (Some (result_file names shapes period start rs)) =
    match i_error (nth m (start :: rs) start) with Some e => Ok e | None => Err KeyError end.
Proof. exact (@c54). Qed.
Print Assumptions C54_last_local_error.

(** Of two steps the last one is written with period 2, none with period 3. *)
Example C54_hypotheses_met : names_ok ["x"; "y"] true /\ Forall (flagged true) [at0; at1; at2] /\
  Forall (fun r => map (@length Z) (i_values r) = map (@prod) [[3]; [1]]) [at0; at1; at2] /\
  last_recorded 2 2 2 /\ last_recorded 3 2 0 /\
  read_last_local_error (Some (result_file ["x"; "y"] [[3]; [1]] 2 at0 [at1; at2])) = Ok 6%Z /\
  read_last_local_error (Some (result_file ["x"; "y"] [[3]; [1]] 3 at0 [at1; at2])) = Ok 0%Z.
Proof.
  split; [apply two_names|]; split; [exact two_flags|]; split; [repeat constructor|].
  split; [split; [exists 1; reflexivity|lia]|]; split; [split; [exists 0; reflexivity|lia]|]; split; vm_compute; reflexivity.
Qed.

(** ** C55: Reading a result file *)

(** Times and values are those recorded, under the numbers of their steps; the
    errors are the distances to the given solution, for one quantity, *)
Theorem C55_one_quantity :
  forall (T : Type) (N : Num T) names shapes period emb (start : instant T) rs,
  names_ok names emb -> Forall (flagged emb) (start :: rs) ->
  Forall (fun r => map (@length T) (i_values r) = map (@prod) shapes) (start :: rs) -> length names = length shapes ->
  Forall (fun sh => sh <> []) shapes -> forall sol1 soln q, In q names ->
  let recs := recorded_instants period start rs in
  read_hdf5_file (Some (result_file names shapes period start rs)) [q] sol1 soln =
  Ok (map (fun p => (fst p, i_time (snd p))) recs,
      [(q, map (fun p => (fst p, map nabs (map2 nsub (sol1 (i_time (snd p)) (value_of names start q) (i_time start))
                                                     (value_of names (snd p) q)))) recs)],
      [(q, map (fun p => (fst p, value_of names (snd p) q)) recs)]).
Proof. exact (@c55_one). Qed.
Print Assumptions C55_one_quantity.

(** and for several quantities if each component of the solution depends on the
    initial values of its own quantity only. *)
Theorem C55_several_quantities_partial :
  forall (T : Type) (N : Num T) names shapes period emb (start : instant T) rs,
  names_ok names emb -> Forall (flagged emb) (start :: rs) ->
  Forall (fun r => map (@length T) (i_values r) = map (@prod) shapes) (start :: rs) -> length names = length shapes ->
  Forall (fun sh => sh <> []) shapes -> forall sol1 soln qs, (forall q, In q qs -> In q names) -> 1 < length qs ->
  (forall t xs t0, length xs = length qs -> length (soln t xs t0) = length qs) ->
  (forall t t0 xs xs' j, length xs = length qs -> length xs' = length qs -> nth j xs [] = nth j xs' [] ->
     nth j (soln t xs t0) [] = nth j (soln t xs' t0) []) ->
  let recs := recorded_instants period start rs in
  read_hdf5_file (Some (result_file names shapes period start rs)) qs sol1 soln =
  Ok (map (fun p => (fst p, i_time (snd p))) recs,
      map (fun jq => (snd jq, map (fun p => (fst p, map nabs (map2 nsub
             (nth (fst jq) (soln (i_time (snd p)) (map (value_of names start) qs) (i_time start)) [])
             (value_of names (snd p) (snd jq))))) recs)) (combine (seq 0 (length qs)) qs),
      map (fun q => (q, map (fun p => (fst p, value_of names (snd p) q)) recs)) qs).
Proof. exact (@c55_own). Qed.
Print Assumptions C55_several_quantities_partial.

(** Each quantity grows by ten in a unit of time. *)
Definition growing (t : Z) (x : list Z) (t0 : Z) : list Z := map (fun v => v + 10 * (t - t0))%Z x.
Example C55_hypotheses_met :
  names_ok ["x"; "y"] true /\ Forall (flagged true) [at0; at1; at2] /\
  Forall (fun r => map (@length Z) (i_values r) = map (@prod) [[3]; [1]]) [at0; at1; at2] /\
  Forall (fun sh => sh <> []) [[3]; [1]] /\
  (forall t xs t0, length xs = 2 -> length (map (fun x => growing t x t0) xs) = 2) /\
  (forall t t0 (xs xs' : list (list Z)) j, length xs = 2 -> length xs' = 2 -> nth j xs [] = nth j xs' [] ->
     nth j (map (fun x => growing t x t0) xs) [] = nth j (map (fun x => growing t x t0) xs') []) /\
  read_hdf5_file (Some (result_file ["x"; "y"] [[3]; [1]] 1 at0 [at1; at2])) ["y"; "x"] growing
      (fun t xs t0 => map (fun x => growing t x t0) xs)
    = Ok ([(0%nat, 0); (1%nat, 1); (2%nat, 3)]%Z,
          [("y", [(0%nat, [0]); (1%nat, [0]); (2%nat, [10])]); ("x", [(0%nat, [0; 0; 0]); (1%nat, [0; 0; 0]); (2%nat, [10; 10; 10])])]%Z,
          [("y", [(0%nat, [4]); (1%nat, [14]); (2%nat, [24])]); ("x", [(0%nat, [1; 2; 3]); (1%nat, [11; 12; 13]); (2%nat, [21; 22; 23])])]%Z).
Proof.
  split; [apply two_names|]; split; [exact two_flags|]; split; [repeat constructor|]; split; [repeat constructor; discriminate|].
  split; [intros t xs t0 L; rewrite map_length; exact L|]; split.
  - intros t t0 xs xs' j _ _ E.
    assert (G : forall l, nth j (map (fun x => growing t x t0) l) [] = growing t (nth j l []) t0)
      by (intros l; exact (map_nth (fun x => growing t x t0) l [] j)).
    rewrite !G, E; reflexivity.
  - vm_compute; reflexivity.
Qed.

(** In general the errors of several quantities are wrong: the initial values
    of one quantity are used for all.  Here every recorded value is the exact
    solution and yet an error is reported. *)
Definition coupled (t : Z) (xs : list (list Z)) (t0 : Z) : list (list Z) :=
  match xs with [[x]; [y]] => [[x + (t - t0) * y]; [y]]%Z | _ => [[]; []] end.
Theorem C55_several_quantities_refuted :
  exists (start r : instant Z) times errors results,
  map (value_of ["x"; "y"] r) ["x"; "y"] = coupled (i_time r) (map (value_of ["x"; "y"] start) ["x"; "y"]) (i_time start) /\
  read_hdf5_file (Some (result_file ["x"; "y"] [[1]; [1]] 1 start [r])) ["x"; "y"] (fun _ x _ => x) coupled
    = Ok (times, errors, results) /\
  In ("x", [(0%nat, [0]); (1%nat, [1])])%Z errors.
Proof.
  exists {| i_time := 0; i_values := [[1]; [2]]; i_error := None |}%Z, {| i_time := 1; i_values := [[3]; [2]]; i_error := None |}%Z.
  eexists; eexists; eexists; split; [vm_compute; reflexivity|]; split; [vm_compute; reflexivity|left; reflexivity].
Qed.
Print Assumptions C55_several_quantities_refuted.
