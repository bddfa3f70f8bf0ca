(** Properties of the metadata extraction (C24, C26, C50). *)
From Coq Require Import String.
From Coq Require Import List Bool Arith Lia.
From Verif Require Import Base M_Metadata SpecMetadata L_Metadata L_Metadata2 L_Metadata3.
Import ListNotations.
Local Open Scope string_scope.
Local Open Scope nat_scope.
Local Open Scope list_scope.

(** A stage problem on two processes: "x" is split up over both, "y" lives on
    the second one only, "t" is the time, "p" an independent input. *)
Definition var (n : string) (out : bool) (tags : list string) (parts : list (option (list nat))) (gs : list nat) : variable :=
  {| v_name := n; v_output := out; v_tags := tags; v_parts := parts; v_global_shape := gs |}.
Definition problem : list variable := [
  var "x_old" false ["x"; "step_input_var"] [Some [1; 2]; Some [2; 2]] [3; 2];
  var "x_acc" false ["x"; "accumulated_stage_var"] [Some [1; 2]; Some [2; 2]] [3; 2];
  var "t" false ["time_variable"] [Some [1]; Some [1]] [1];
  var "p" false ["p"; "time_independent_input_var"] [Some [2]; Some [2]] [2];
  var "x_stage" true ["x"; "stage_output_var"] [Some [1; 2]; Some [2; 2]] [3; 2];
  var "other" true [] [Some [7]; Some [7]] [7];
  var "y_stage" true ["y"; "stage_output_var"] [None; Some [3]] [3] ].

Example problem_accepted : exists md0 md1, metadata_of 2 problem ["x"; "y"] ["p"] = Ok [md0; md1] /\
  time_variable md0 = Some "t" /\ time_integration_array_size md0 = 2 /\ time_integration_array_size md1 = 7 /\
  time_independent_input_size md1 = 2 /\
  map (fun q => (q_name q, start_index (q_array q), end_index (q_array q), local (q_array q), distributed (q_array q)))
    (time_integration_quantities md0) = [("x", 0, 2, true, true); ("y", 0, 0, false, true)] /\
  map (fun q => (q_name q, start_index (q_array q), end_index (q_array q), local (q_array q), distributed (q_array q)))
    (time_integration_quantities md1) = [("x", 0, 4, true, true); ("y", 4, 7, true, true)].
Proof. eexists _, _; split; [vm_compute; reflexivity|]; repeat split. Qed.

Lemma problem_well_tagged : well_tagged problem ["x"; "y"].
Proof.
  unfold problem; constructor; cbn [In].
  - intros q [<-|[<-|[]]].
    + exists (nth 4 problem (var "" true [] [] [])); split; [|cbn; auto].
      eexists [_; _; _; _], [_; _]; split; [reflexivity|].
      repeat split; cbn; auto; repeat constructor; cbn; unfold has; cbn; intuition discriminate.
    + exists (nth 6 problem (var "" true [] [] [])); split; [|cbn; auto].
      eexists [_; _; _; _; _; _], []; split; [reflexivity|].
      repeat split; cbn; auto; repeat constructor; cbn; unfold has; cbn; intuition discriminate.
  - unfold has, stage_output, has; cbn; intros q u Iq Iu; destruct Iq as [<-|[<-|[]]];
      repeat (destruct Iu as [<-|Iu]; [cbn; intuition discriminate|]); contradiction.
  - unfold has; cbn; intros v q q' Iv; repeat (destruct Iv as [<-|Iv]; [cbn; intuition congruence|]); contradiction.
  - intros q rank Iq; destruct Iq as [<-|[<-|[]]].
    + destruct rank as [|[|rank]].
      1,2: right; exists (nth 0 problem (var "" true [] [] [])), (nth 1 problem (var "" true [] [] [])); split;
        [eexists [], [_; _; _; _; _; _]|eexists [_], [_; _; _; _; _]]; (split; [reflexivity|]);
        unfold of_quantity, has, here, step_input, accumulated_input, stage_output, has; cbn;
        repeat split; try tauto; try (intuition discriminate); repeat constructor; cbn; intuition discriminate.
      left; split; repeat constructor; unfold of_quantity, here, local_shape; cbn; destruct rank; intuition.
    + left; split; repeat constructor; unfold of_quantity, has, here, step_input, accumulated_input, stage_output, has; cbn;
        intuition discriminate.
Qed.

Lemma problem_timed rank : rank < 2 -> well_timed rank problem.
Proof.
  intros H; right; exists (nth 2 problem (var "" true [] [] [])); split; [|split; [|reflexivity]].
  - eexists [_; _], [_; _; _; _]; split; [reflexivity|].
    repeat split; cbn; auto; repeat constructor; unfold has; cbn; intuition discriminate.
  - destruct rank as [|[|rank]]; [discriminate|discriminate|lia].
Qed.

(** ** C24: disjoint, gap-free ranges *)
Theorem C24_ranges_fill_array :
  forall procs vs qs is mds rank md,
  metadata_of procs vs qs is = Ok mds -> nth_error mds rank = Some md ->
  fills (map q_array (time_integration_quantities md)) (time_integration_array_size md) /\
  fills (map q_array (time_independent_quantities md)) (time_independent_input_size md).
Proof. exact c24_fills. Qed.
Print Assumptions C24_ranges_fill_array.

Theorem C24_range_lengths :
  forall procs vs qs is mds rank md,
  metadata_of procs vs qs is = Ok mds -> nth_error mds rank = Some md ->
  Forall (ti_source vs rank) (time_integration_quantities md) /\
  Forall (ind_source vs rank) (time_independent_quantities md).
Proof.
  intros procs vs qs is mds rank md H N; split; [exact (c24_sources procs vs qs is mds rank md H N)|].
  exact (c24_ind_sources procs vs qs is mds rank md H N).
Qed.
Print Assumptions C24_range_lengths.

(** The processes agree on which quantities there are and on their order. *)
Theorem C24_same_order_everywhere :
  forall procs vs qs is mds r r' md md', metadata_of procs vs qs is = Ok mds ->
  nth_error mds r = Some md -> nth_error mds r' = Some md' ->
  map q_name (time_integration_quantities md) = map q_name (time_integration_quantities md') /\
  map q_name (time_independent_quantities md) = map q_name (time_independent_quantities md').
Proof. exact c24_same_names. Qed.
Print Assumptions C24_same_order_everywhere.

Example C24_applies : exists mds md, metadata_of 2 problem ["x"; "y"] ["p"] = Ok mds /\ nth_error mds 1 = Some md /\
  map q_name (time_integration_quantities md) = ["x"; "y"] /\ time_integration_array_size md = 7.
Proof. eexists _, _; split; [vm_compute; reflexivity|]; repeat split. Qed.

(** ** C26: wrongly tagged problems *)
(** Each quantity that is set up on a process has exactly one stage output
    there, and one step input and one accumulated input or none of both. *)
Theorem C26_accepted_quantities :
  forall procs vs qs is mds rank md,
  metadata_of procs vs qs is = Ok mds -> nth_error mds rank = Some md ->
  Forall (fun q => local (q_array q) = true ->
    (exists v, exactly_one (of_quantity rank (q_name q) stage_output) vs v) /\ paired rank vs (q_name q))
    (time_integration_quantities md).
Proof. exact c26_accepted. Qed.
Print Assumptions C26_accepted_quantities.

(** If an output carries a requested quantity, and that quantity does not have
    one stage output, or its inputs are not paired, or the output carries
    another requested quantity too, then the setup raises an error. *)
Theorem C26_wrong_tags_rejected :
  forall vs qs is rank v q, In v vs -> v_output v = true -> here rank v -> In q qs -> has q v ->
  ~ ((exists u, exactly_one (of_quantity rank q stage_output) vs u) /\ paired rank vs q /\
     (forall q', In q' qs -> has q' v -> q' = q)) ->
  exists e, process_metadata rank vs qs is = Err e /\ (e = SetupError \/ e = IndexError).
Proof. exact c26_rejects. Qed.
Print Assumptions C26_wrong_tags_rejected.

(** "x_stage" without its role, with the step input but no accumulated input,
    and with a second quantity. *)
Example C26_wrong_tags_applies :
  let one := [var "a" false ["x"; "step_input_var"] [Some [2]] [2]; var "b" true ["x"; "stage_output_var"] [Some [2]] [2]] in
  (exists v, In v one /\ v_output v = true /\ here 0 v /\ has "x" v /\ ~ paired 0 one "x") /\
  process_metadata 0 one ["x"] [] = Err SetupError /\
  process_metadata 0 [var "b" true ["x"] [Some [2]] [2]] ["x"] [] = Err SetupError /\
  process_metadata 0 [var "b" true ["x"; "y"; "stage_output_var"] [Some [2]] [2]] ["x"; "y"] [] = Err SetupError.
Proof.
  split; [|repeat split].
  eexists (var "b" true ["x"; "stage_output_var"] [Some [2]] [2]); repeat split; cbn; auto; [discriminate|].
  unfold paired, of_quantity, has, here, step_input, accumulated_input, stage_output, has.
  intros [[A B]|(s & a & A & (l1 & l2 & E & P & _))].
  - inversion A as [|? ? N]; subst; apply N; cbn; repeat split; auto; try discriminate; intuition discriminate.
  - destruct l1 as [|u1 [|u2 [|]]]; cbn in E; try discriminate; injection E as <- E; subst; cbn in P; intuition discriminate.
Qed.

(** A problem tagged as the documentation says is accepted, and each requested
    quantity is in the metadata exactly once. *)
Theorem C26_properly_tagged_accepted :
  forall vs qs, well_tagged vs qs -> forall procs, (forall rank, rank < procs -> well_timed rank vs) ->
  exists mds, metadata_of procs vs qs [] = Ok mds /\
    forall rank md q, nth_error mds rank = Some md -> In q qs ->
      count_occ string_dec (map q_name (time_integration_quantities md)) q = 1.
Proof. exact c26_complete. Qed.
Print Assumptions C26_properly_tagged_accepted.

Example C26_properly_tagged_applies : well_tagged problem ["x"; "y"] /\ forall rank, rank < 2 -> well_timed rank problem.
Proof. exact (conj problem_well_tagged problem_timed). Qed.

(** The converse fails.  A requested quantity that no output is tagged with is
    left out without an error (also when inputs are tagged with it), *)
Theorem C26_missing_quantity_accepted :
  exists vs md, metadata_of 1 vs ["x"; "y"] [] = Ok [md] /\
    (exists v, In v vs /\ has "y" v /\ step_input v) /\
    map q_name (time_integration_quantities md) = ["x"].
Proof.
  eexists [var "a" true ["x"; "stage_output_var"] [Some [2]] [2]; var "b" false ["y"; "step_input_var"] [Some [2]] [2]], _.
  split; [vm_compute; reflexivity|]; split; [|reflexivity].
  eexists; split; [right; left; reflexivity|]; unfold step_input, stage_output, has; cbn; intuition discriminate.
Qed.
Print Assumptions C26_missing_quantity_accepted.

(** a quantity with two tagged outputs, one of them without a role, is listed
    twice, and the array twice as large, *)
Theorem C26_doubled_quantity_accepted :
  exists vs md, metadata_of 1 vs ["x"] [] = Ok [md] /\
    map q_name (time_integration_quantities md) = ["x"; "x"] /\ time_integration_array_size md = 4 /\
    map (fun q => stage_output_var (q_translation q)) (time_integration_quantities md) = [Some "a"; Some "a"].
Proof.
  eexists [var "a" true ["x"; "stage_output_var"] [Some [2]] [2]; var "b" true ["x"] [Some [3]] [3]], _.
  split; [vm_compute; reflexivity|]; repeat split.
Qed.
Print Assumptions C26_doubled_quantity_accepted.

(** and shapes of the inputs are not compared with that of the stage output. *)
Theorem C26_other_shapes_accepted :
  exists vs md o s a, metadata_of 1 vs ["x"] [] = Ok [md] /\
    exactly_one (of_quantity 0 "x" stage_output) vs o /\ exactly_one (of_quantity 0 "x" step_input) vs s /\
    exactly_one (of_quantity 0 "x" accumulated_input) vs a /\
    v_global_shape s <> v_global_shape o /\ v_global_shape a <> v_global_shape o /\
    time_integration_array_size md = 2.
Proof.
  exists [var "o" true ["x"; "stage_output_var"] [Some [2]] [2];
          var "s" false ["x"; "step_input_var"] [Some [3]] [3];
          var "a" false ["x"; "accumulated_stage_var"] [Some [1; 5]] [1; 5]].
  eexists _, _, _, _; split; [vm_compute; reflexivity|].
  split; [eexists [], [_; _]; split; [reflexivity|]|].
  2: split; [eexists [_], [_]; split; [reflexivity|]|].
  3: split; [eexists [_; _], []; split; [reflexivity|]|].
  4: cbn; repeat split; discriminate.
  all: unfold of_quantity, has, here, step_input, accumulated_input, stage_output, has; cbn;
    repeat split; try tauto; try (intuition discriminate); repeat constructor; cbn; intuition discriminate.
Qed.
Print Assumptions C26_other_shapes_accepted.

(** The setup of one process may fail while that of another one succeeds: here
    the second process has no step input. *)
Theorem C26_verdicts_differ :
  exists vs md, process_metadata 0 vs ["x"] [] = Ok md /\ process_metadata 1 vs ["x"] [] = Err SetupError.
Proof.
  eexists [var "o" true ["x"; "stage_output_var"] [Some [2]; Some [2]] [4];
           var "s" false ["x"; "step_input_var"] [Some [2]; None] [2];
           var "a" false ["x"; "accumulated_stage_var"] [Some [2]; Some [2]] [4]], _.
  split; vm_compute; reflexivity.
Qed.
Print Assumptions C26_verdicts_differ.

(** ** C50: global index ranges *)
Theorem C50_global_ranges_partition :
  forall vs qs, well_tagged vs qs -> forall procs is mds v q j,
  named procs vs -> metadata_of procs vs qs is = Ok mds ->
  In v vs -> v_output v = true -> In q qs -> has q v -> split_up v ->
  (forall md, In md mds -> option_map q_name (nth_error (time_integration_quantities md) j) = Some q) ->
  partitions (map (global_range j) mds) (prod (v_global_shape v)).
Proof. exact c50_partition. Qed.
Print Assumptions C50_global_ranges_partition.

Example C50_global_ranges_applies : exists mds v, named 2 problem /\ metadata_of 2 problem ["x"; "y"] ["p"] = Ok mds /\
  In v problem /\ v_output v = true /\ has "x" v /\ split_up v /\
  (forall md, In md mds -> option_map q_name (nth_error (time_integration_quantities md) 0) = Some "x") /\
  map (global_range 0) mds = [(0, 2); (2, 6)].
Proof.
  eexists _, (nth 4 problem (var "" true [] [] [])); split.
  - split; [|repeat constructor].
    cbn; repeat (constructor; [cbn; intuition discriminate|]); constructor.
  - split; [vm_compute; reflexivity|]; cbn; repeat split; auto 10.
    intros md [<-|[<-|[]]]; reflexivity.
Qed.

(** A quantity is marked as distributed on a process exactly if on some process
    its portion is not the whole. *)
Theorem C50_distributed_mark :
  forall vs qs procs is mds r md j qu,
  metadata_of procs vs qs is = Ok mds -> nth_error mds r = Some md ->
  nth_error (time_integration_quantities md) j = Some qu ->
  (distributed (q_array qu) = true <->
   exists r' md' qu', nth_error mds r' = Some md' /\ nth_error (time_integration_quantities md') j = Some qu' /\
     shape (q_array qu') <> global_shape (q_array qu')).
Proof. exact c50_distributed. Qed.
Print Assumptions C50_distributed_mark.

(** For distributed independent inputs the ranges are those of some output:
    here the input has portions of 1 and 3 entries, but the second process
    claims entries 2 and 3 only and entry 1 belongs to the first one. *)
Theorem C50_independent_inputs_refuted :
  exists vs mds v, named 2 vs /\ metadata_of 2 vs ["x"] ["p"] = Ok mds /\ In v vs /\ has "p" v /\ split_up v /\
    var_sizes v = [1; 3] /\ map (global_input_range 0) mds = [(0, 2); (2, 4)].
Proof.
  exists [var "p" false ["p"; "time_independent_input_var"] [Some [1]; Some [3]] [4];
          var "x" true ["x"; "stage_output_var"] [Some [2]; Some [2]] [4]].
  eexists _, _; split; [|split; [vm_compute; reflexivity|split; [left; reflexivity|]]].
  - split; [|repeat constructor]; cbn; repeat (constructor; [cbn; intuition discriminate|]); constructor.
  - repeat split; cbn; auto.
Qed.
Print Assumptions C50_independent_inputs_refuted.
