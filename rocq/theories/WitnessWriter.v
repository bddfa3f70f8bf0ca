(** Concrete runs and files used in the Examples and refutations about the
    result file; not part of the model. *)
From Coq Require Import String.
From Coq Require Import List Bool Arith ZArith Lia Permutation.
From Verif Require Import Base M_Tableau M_State M_ODE M_Integrator M_Metadata M_Writer SpecMetadata SpecRun SpecWriter
  L_Writer2 L_Writer6 Witness WitnessRun WitnessMPI.
Import ListNotations.
Local Open Scope string_scope.
Local Open Scope nat_scope.
Local Open Scope list_scope.

(** A state of which only what is written matters. *)
Definition seen (emb : bool) (t0 : Z) (x0 : list Z) (t : Z) (x : list Z) (e : Z) : tistate Z := {|
  disc := {| start_state := x0; stage_states := []; stage_updates := []; final_state := x; independent_inputs := [];
             stage_independent_outputs := []; final_independent_outputs := []; start_time := t0; stage_times := [];
             final_time := t; step_size := (t - t0)%Z; linearization_points := [];
             embedded := if emb then Some (x, x) else None |};
  suggestion := 1%Z; step_hist := [1; 1]%Z; err_hist := [e; e] |}.

(** Two processes with 1 + 2 entries of one quantity and a copy each of the
    other; two steps. *)
Definition step1 : list (tistate Z) * list (tistate Z) :=
  ([seen true 0 [0; 0] 0 [1; 4] 0; seen true 0 [0; 0; 0] 0 [2; 3; 4] 0]%Z,
   [seen true 0 [1; 4] 1 [11; 14] 5; seen true 0 [2; 3; 4] 1 [12; 13; 14] 5]%Z).
Definition step2 : list (tistate Z) * list (tistate Z) :=
  (snd step1, [seen true 1 [11; 14] 3 [21; 24] 6; seen true 1 [12; 13; 14] 3 [22; 23; 24] 6]%Z).
Definition at0 : instant Z := {| i_time := 0%Z; i_values := [[1; 2; 3]; [4]]%Z; i_error := Some 0%Z |}.
Definition at1 : instant Z := {| i_time := 1%Z; i_values := [[11; 12; 13]; [14]]%Z; i_error := Some 5%Z |}.
Definition at2 : instant Z := {| i_time := 3%Z; i_values := [[21; 22; 23]; [24]]%Z; i_error := Some 6%Z |}.

Lemma two_named : named 2 two.
Proof.
  split; [|repeat constructor]; unfold two; cbn [map]; apply NoDup_cons; [intros [H|[]]; discriminate|]; apply NoDup_cons; [intros []|constructor].
Qed.
Lemma two_are : quantities_are two ["x"; "y"] two_mds ["x"; "y"] two.
Proof.
  split; [repeat constructor|]; apply Forall2_cons; [|apply Forall2_cons; [|constructor]]; unfold has, two; cbn; auto 8.
Qed.
Lemma two_names emb : names_ok ["x"; "y"] emb.
Proof.
  unfold names_ok; destruct emb; cbn [app]; repeat (apply NoDup_cons; [intros H; cbn in H; intuition discriminate|]); constructor.
Qed.
Lemma two_wholes (a b c d : Z) : wholes two_mds two [[a; d]; [b; c; d]] [[a; b; c]; [d]].
Proof.
  split; [apply Forall2_cons; [reflexivity|apply Forall2_cons; [reflexivity|constructor]]|]; split; [reflexivity|].
  intros [|[|[|j]]] v y Ev Ey; try discriminate; injection Ev as <-; injection Ey as <-.
  - left; split; [|vm_compute; reflexivity]; exists 3, [], [1; 2]; split; [reflexivity|]; split; [reflexivity|].
    apply Forall2_cons; [left; reflexivity|apply Forall2_cons; [left; reflexivity|constructor]].
  - right; split; [split; [discriminate|]; split; [left; reflexivity|repeat (apply Forall_cons; [left; reflexivity|]); constructor]|].
    split; [reflexivity|]; apply Forall_cons; [reflexivity|]; apply Forall_cons; [reflexivity|constructor].
Qed.
Lemma two_steps : Forall2 (fun s r => length (fst s) = 2 /\ Forall (embedded_like (i_error r)) (fst s) /\
     wholes two_mds two (map (fun st => final_state (disc st)) (snd s)) (i_values r) /\
     Forall (fun st => final_time (disc st) = i_time r /\ embedded_like (i_error r) st /\
       forall e, i_error r = Some e -> nth_error (err_hist st) 0 = Some e) (snd s)) [step1; step2] [at1; at2].
Proof.
  apply Forall2_cons; [|apply Forall2_cons; [|constructor]]; (split; [reflexivity|]; split; [repeat constructor|]; split; [apply two_wholes|]);
    repeat (apply Forall_cons; [split; [reflexivity|]; split; [reflexivity|]; intros e [= <-]; reflexivity|]); constructor.
Qed.
Lemma two_start : forall s, hd_error [step1; step2] = Some s ->
     wholes two_mds two (map (fun st => start_state (disc st)) (snd s)) (i_values at0) /\
     Forall (fun st => start_time (disc st) = i_time at0) (snd s).
Proof. intros s [= <-]; split; [apply two_wholes|repeat constructor]. Qed.
Lemma two_flags : Forall (flagged true) [at0; at1; at2].
Proof. repeat constructor. Qed.

(** The second step breaks off after its datasets were made. *)
Definition file1 : file Z := result_file ["x"; "y"] [[3]; [1]] 1 at0 [at1].
Lemma breaks_off : exists f gr, run_ops (all_before 1 2 two_mds (fst step2)) (Some file1) = Ok (Some f) /\
  lookup "2" f = Some gr /\ Forall (fun p => Forall (fun x => x = 0%Z) (d_data (snd p))) gr /\
  read_last_local_error (Some file1) = Ok 5%Z /\ read_last_local_error (Some f) = Ok 0%Z /\
  lookup "time" gr <> None.
Proof.
  eexists; eexists; split; [vm_compute; reflexivity|]; split; [vm_compute; reflexivity|]; split; [|split; [vm_compute; reflexivity|split; [vm_compute; reflexivity|discriminate]]].
  repeat (apply Forall_cons; [cbn; repeat constructor|]); constructor.
Qed.

(** A quantity called [error_measure]. *)
Definition clash : list variable := [out "xs" "error_measure" [Some [1]] [1]].
Definition clash_mds : list metadata := Eval vm_compute in mds_of (metadata_of 1 clash ["error_measure"] []).
Lemma clash_raises fs : run_steps 1 1 clash_mds [([seen true 0 [0] 0 [1] 0]%Z, [seen true 0 [1] 1 [2] 5]%Z)] fs = Err ValueError.
Proof. vm_compute; reflexivity. Qed.

(** One process, one quantity of one entry: the component of [WitnessRun]. *)
Definition lonely : list variable := [out "xs" "x" [Some [1]] [1]].
Definition lonely_md : metadata := Eval vm_compute in
  match metadata_of 1 lonely ["x"] [] with Ok (md :: _) => md | _ => {| time_integration_array_size := 0; time_integration_quantities := [];
    time_independent_input_size := 0; time_independent_quantities := []; time_variable := None |} end.
Lemma lonely_ok : metadata_of 1 lonely ["x"] [] = Ok [lonely_md].
Proof. vm_compute; reflexivity. Qed.
Lemma lonely_named : named 1 lonely.
Proof. split; [cbn; apply NoDup_cons; [intros []|constructor]|repeat constructor]. Qed.
Lemma lonely_are : quantities_are lonely ["x"] [lonely_md] ["x"] lonely.
Proof. split; [repeat constructor|]; apply Forall2_cons; [|constructor]; unfold has, lonely; cbn; auto 8. Qed.
Lemma lonely_copied : Forall copied lonely.
Proof. apply Forall_cons; [|constructor]; split; [discriminate|]; split; [left; reflexivity|apply Forall_cons; [left; reflexivity|constructor]]. Qed.
Lemma lonely_undivided : undivided lonely_md.
Proof. apply Forall_cons; [|constructor]; cbn; repeat split; auto; discriminate. Qed.
