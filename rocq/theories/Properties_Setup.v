(** Property theorems about the set-up of a component: C82 (which options are
    accepted, and what they become), C83 (orders of tableaux) and C84 (options
    of the recomputing checkpointer). *)
From Coq Require Import String.
From Coq Require Import List Bool ZArith QArith Reals Lia.
From Verif Require Import Base Ext M_Tableau M_State M_ODE M_Step M_Controller M_Measure M_Integrator
  SpecRK SpecShape SpecDeriv SpecRun SpecRevolve M_Tableaux M_TableauxInit M_Setup SpecSetup L_Tableau L_Setup
  Witness WitnessRun.
Import ListNotations.
Local Open Scope nat_scope.

(** ** C82 *)
(** Construction and set-up return exactly for these options, *)
Theorem C82_set_up_accepts_exactly :
  forall (T : Type) (N : Num T) (I : NumInf T) (u : user_options T) size who h sc,
  (forall t a, u_ckpt u = ChooseRevolve t a -> dict_wf (h a)) ->
  ((exists r, snd (construct_and_setup u size who h sc) = Ok r) <->
   u_controllers u <> [] /\ Forall (fun f => f_args f = []) (u_controllers u) /\ u_args u = [] /\
   orders_known (u_bt u) (u_controllers u) /\ checkpointing_usable u h).
Proof. exact (@setup_iff). Qed.
Print Assumptions C82_set_up_accepts_exactly.

(** they become these options of the run and a fresh component: the listed
    controllers nested in the order of the list, all with the order of the
    weaker method, with the given configuration or else the default of the
    first. *)
Theorem C82_set_up_result :
  forall (T : Type) (N : Num T) (I : NumInf T) (u : user_options T) size who h sc h' op w,
  construct_and_setup u size who h sc = (h', Ok (op, w)) ->
  exists f fs c cfg ck, u_controllers u = f :: fs /\
    cfg = match u_config u with Some g => g | None => f_config f end /\
    build_chain (map (fun f => f_exponents f (match t_p (u_bt u) with
                                              | Some _ => nlit (inject_Z (Z.of_nat (weaker_order (u_bt u))))
                                              | None => n0 end) (arg [])) (f :: fs)) = Some c /\
    holds_options u cfg (ctl_call cfg) ninf op /\ o_ckpt op = ck /\ w = setup op c /\
    match u_ckpt u with
    | ChooseNo => ck = NoCheckpointer
    | ChooseAll => ck = AllCheckpointer
    | ChooseRevolve _ _ => ck = PyrevolveCheckpointer (fst sc) (snd sc)
    end.
Proof. exact (@setup_value). Qed.
Print Assumptions C82_set_up_result.

(** and a set-up that fails leaves the dictionaries of the user alone. *)
Theorem C82_set_up_errors :
  forall (T : Type) (N : Num T) (I : NumInf T) (u : user_options T) size who h sc h' e,
  construct_and_setup u size who h sc = (h', Err e) ->
  h' = h /\ (e = TypeError \/ e = AttributeError).
Proof. exact (@setup_error). Qed.
Print Assumptions C82_set_up_errors.

(** Every shipped tableau can be used with every list of controllers without
    further arguments; they get the lesser of the two orders. *)
Theorem C82_shipped_tableaux :
  forall x bt ws, shipped_init x = Ok (bt, ws) ->
  weaker_order bt = match s_hat x with None => s_p x | Some (_, q) => Nat.min (s_p x) q end /\
  forall (I : NumInf R) (u : user_options R) size who h sc,
  u_bt u = bt -> u_controllers u <> [] -> incl (u_controllers u) plain_factories -> u_args u = [] ->
  (forall t a, u_ckpt u = ChooseRevolve t a -> dict_wf (h a)) ->
  ((exists r, snd (construct_and_setup u size who h sc) = Ok r) <-> checkpointing_usable u h).
Proof.
  exact (fun x bt ws H => conj (shipped_weaker x bt ws H)
    (fun I u size who h sc H1 H2 H3 H4 H5 => shipped_accepted I x bt ws u size who h sc H H1 H2 H3 H4 H5)).
Qed.
Print Assumptions C82_shipped_tableaux.

(** The controllers with further arguments cannot be chosen, whatever
    error_controller_options holds. *)
Theorem C82_general_controllers_refuted :
  forall (T : Type) (N : Num T) (I : NumInf T) (u : user_options T) size who h sc g,
  In g general_factories -> In g (u_controllers u) ->
  construct_and_setup u size who h sc = (h, Err TypeError).
Proof. exact (@general_refused). Qed.
Print Assumptions C82_general_controllers_refuted.

(** A run with two nested controllers, and one with a tableau of unknown order
    that fails although its step size is fixed. *)
Definition su (bt : tableau (ext Q)) (fs : list (factory (ext Q))) (k : checkpointing_choice) : user_options (ext Q) := {|
  u_bt := bt; u_ode := gode never never; u_adaptive := false; u_step := nlit (1 # 2);
  u_crit := PredefinedNumberOfSteps 3; u_meas := SimpleErrorMeasurer; u_controllers := fs; u_args := [];
  u_config := None; u_ckpt := k; u_callbacks := fun _ => []; u_retry_limit := 10; u_loop_limit := 10 |}.
Definition no_order (bt : tableau (ext Q)) : tableau (ext Q) := {| t_A := t_A bt; t_b := t_b bt; t_c := t_c bt;
  t_stages := t_stages bt; t_p := None; t_name := t_name bt; t_hat := t_hat bt |}.
Definition empty_heap : heap := fun _ => [].

Example C82_accepted :
  exists op w, construct_and_setup (su heun [plain_factory pid; plain_factory integral] ChooseAll) 1 0 empty_heap ([], [])
    = (empty_heap, Ok (op, w)) /\ o_tol op = Fin (1 # 1000000) /\ o_ckpt op = AllCheckpointer /\
  (exists h' op w, construct_and_setup (su euler [pseudo_factory] (ChooseRevolve "SingleLevel" 0)) 1 0 empty_heap ([], [])
    = (h', Ok (op, w)) /\ o_tol op = PInf).
Proof.
  eexists; eexists; split; [reflexivity|]; split; [reflexivity|]; split; [reflexivity|].
  eexists; eexists; eexists; split; [reflexivity|]; reflexivity.
Qed.
Example C82_rejected :
  snd (construct_and_setup (su (no_order euler) [plain_factory integral] ChooseAll) 1 0 empty_heap ([], [])) = Err TypeError /\
  (exists r, snd (construct_and_setup (su (no_order euler) [pseudo_factory] ChooseAll) 1 0 empty_heap ([], [])) = Ok r) /\
  snd (construct_and_setup (su (no_order heun) [pseudo_factory] ChooseAll) 1 0 empty_heap ([], [])) = Err TypeError /\
  snd (construct_and_setup (su euler [] ChooseAll) 1 0 empty_heap ([], [])) = Err AttributeError /\
  snd (construct_and_setup (su euler [pseudo_factory] (ChooseRevolve "Single" 0)) 1 0 empty_heap ([], [])) = Err TypeError /\
  construct_and_setup (su heun [h_330_general_factory] ChooseAll) 1 0 empty_heap ([], []) = (empty_heap, Err TypeError).
Proof. repeat split; eexists; reflexivity. Qed.

(** ** C83 *)
(** from_butchertableau keeps the method and its order and adds the weights; it
    fails exactly for an unknown order and for weights of another number. *)
Theorem C83_from_tableau :
  forall (T : Type) (N : Num T) (bt : tableau T) bh q name, tableau_wf bt ->
  match from_butchertableau bt bh q name with
  | Ok (e, ws) =>
      (exists p, t_p bt = Some p) /\ length bh = t_stages bt /\
      t_A e = t_A bt /\ t_b e = t_b bt /\ t_c e = t_c bt /\ t_stages e = t_stages bt /\ t_p e = t_p bt /\
      t_hat e = Some (bh, q) /\
      t_name e = match name with Some s => s | None => ("Adaptive " ++ t_name bt)%string end /\
      tableau_wf e
  | Err x => x = ValueError /\ t_p bt = None \/ x = AssertionError /\ length bh <> t_stages bt
  end.
Proof. exact (@from_tableau). Qed.
Print Assumptions C83_from_tableau.

(** main_method and embedded_method are the two methods with their orders, and
    min_p_order is the lesser of the orders they report. *)
Theorem C83_methods_and_orders :
  forall (T : Type) (N : Num T) (e : tableau T) bh q m wm em we, t_hat e = Some (bh, q) ->
  main_method e = Ok (m, wm) -> embedded_method e = Ok (em, we) ->
  (t_A m = t_A e /\ t_b m = t_b e /\ t_c m = t_c e /\ t_p m = t_p e /\ t_hat m = None /\
   t_A em = t_A e /\ t_b em = bh /\ t_c em = t_c e /\ t_p em = q /\ t_hat em = None) /\
  forall r, min_p_order e = Ok r <-> exists p p', get_p m = Ok p /\ get_p em = Ok p' /\ r = Some (Nat.min p p').
Proof.
  exact (fun T N e bh q m wm em we H Hm He =>
    conj (methods_data e bh q m wm em we H Hm He) (min_order_methods e bh q m wm em we H Hm He)).
Qed.
Print Assumptions C83_methods_and_orders.

(** An unknown order is not reported as such by min_p_order: without phat -
    the default of from_butchertableau - the tableau cannot be set up, and the
    error is another one than that of the attribute [phat]. *)
Theorem C83_unknown_order_refuted :
  forall (T : Type) (N : Num T) (I : NumInf T) (bt : tableau T) bh name e ws, tableau_wf bt ->
  from_butchertableau bt bh None name = Ok (e, ws) ->
  get_phat e = Err ValueError /\ min_p_order e = Err TypeError /\
  forall (u : user_options T) size who h sc r, u_bt u = e -> snd (construct_and_setup u size who h sc) <> Ok r.
Proof.
  exact (fun T N I bt bh name e ws W H => default_phat bt bh name e ws W H).
Qed.
Print Assumptions C83_unknown_order_refuted.

Example C83_hypotheses_met :
  tableau_wf (@euler Q _) /\
  (exists e ws, from_butchertableau (@euler Q _) [(1 # 2)%Q] None None = Ok (e, ws) /\
     t_name e = "Adaptive euler"%string) /\
  (exists e ws, from_butchertableau (@euler Q _) [(1 # 2)%Q] (Some 0) (Some "x"%string) = Ok (e, ws) /\
     min_p_order e = Ok (Some 0)) /\
  from_butchertableau (@euler Q _) [0; 1]%Q None None = Err AssertionError.
Proof.
  split; [apply euler_wf|]; split; [eexists; eexists; split; [vm_compute; reflexivity|reflexivity]|].
  split; [eexists; eexists; split; [vm_compute; reflexivity|reflexivity]|reflexivity].
Qed.
Example C83_orders_met :
  exists m wm em we, main_method (@heun Q _) = Ok (m, wm) /\ embedded_method (@heun Q _) = Ok (em, we) /\
    min_p_order (@heun Q _) = Ok (Some 1).
Proof. do 4 eexists; split; [vm_compute; reflexivity|]; split; [vm_compute; reflexivity|reflexivity]. Qed.

(** ** C84 *)
(** A set-up returns exactly for usable options; the library is then given this
    and no other dictionary is touched. *)
Theorem C84_options_handed_over :
  forall (T : Type) (N : Num T) h t a size who (crit : criterion T), dict_wf (h a) ->
  ((exists rc, snd (post_init h t a size who crit) = Ok rc) <-> usable_options t crit (h a)) /\
  forall n h' rc, crit = PredefinedNumberOfSteps n -> post_init h t a size who crit = (h', Ok rc) ->
    In (t, fst (revolver_arguments h' rc)) revolvers /\
    (forall k, dget k (snd (revolver_arguments h' rc)) = to_library t size who n (h a) k) /\
    (forall b, b <> a -> h' b = h b) /\ dict_wf (h' a).
Proof. exact (@options_handed_over). Qed.
Print Assumptions C84_options_handed_over.

(** The storages are those named, in the order of the dictionary, of the size
    of a checkpoint. *)
Theorem C84_storages :
  forall size sts, Forall (fun e => In (fst e) ["Numpy"; "Disk"; "Bytes"]%string) sts ->
  Forall2 (storage_named size) sts (flat_map (make_storage size) sts).
Proof. exact storages_named. Qed.
Print Assumptions C84_storages.

(** With dictionaries of their own, set-ups do not disturb each other. *)
Theorem C84_separate_dictionaries :
  forall (T : Type) (l : list one_setup) h b,
  Forall (fun s : one_setup (T := T) => address_of s <> b) l -> run_setups l h b = h b.
Proof. exact (@setups_other). Qed.
Print Assumptions C84_separate_dictionaries.

(** Set-up again with the same number of steps: as if with the options of the
    user, unless they hold storages. *)
Theorem C84_same_again_partial :
  forall (T : Type) h t a size size' who who' n h' rc h'' rc', dict_wf (h a) ->
  post_init h t a size who (PredefinedNumberOfSteps n : criterion T) = (h', Ok rc) ->
  post_init h' t a size' who' (PredefinedNumberOfSteps n : criterion T) = (h'', Ok rc') ->
  (t = "MultiLevel"%string -> dget "storage_list" (h a) = None) ->
  forall k, dget k (h'' a) = to_library t size' who' n (h a) k.
Proof. exact (@again_get). Qed.
Print Assumptions C84_same_again_partial.

(** With storages the second set-up fails. *)
Theorem C84_storages_twice_refuted :
  forall (T : Type) (N : Num T) h a size size' who who' n n' h' rc sts, dict_wf (h a) ->
  dget "storage_list" (h a) = Some (VDict sts) ->
  post_init h "MultiLevel" a size who (PredefinedNumberOfSteps n : criterion T) = (h', Ok rc) ->
  post_init h' "MultiLevel" a size' who' (PredefinedNumberOfSteps n' : criterion T) = (h', Err AttributeError).
Proof. exact (@multi_level_twice). Qed.
Print Assumptions C84_storages_twice_refuted.

(** With another number of steps the number of checkpoints is that chosen for
    the first set-up. *)
Theorem C84_checkpoint_number_refuted :
  forall (T : Type) (N : Num T) h t a size size' who who' n n' h' rc h'' rc', dict_wf (h a) ->
  t <> "MultiLevel"%string -> t <> "Base"%string -> dget "n_checkpoints" (h a) = None ->
  post_init h t a size who (PredefinedNumberOfSteps n : criterion T) = (h', Ok rc) ->
  post_init h' t a size' who' (PredefinedNumberOfSteps n' : criterion T) = (h'', Ok rc') ->
  dget "n_checkpoints" (h'' a) = Some (if Nat.eqb n 1 then VInt 1 else VNone).
Proof. exact (@stale_checkpoints). Qed.
Print Assumptions C84_checkpoint_number_refuted.

(** Two integrators with the same dictionary: the library is given the state,
    the step method and the number of steps of the one set up last, *)
Theorem C84_shared_dictionary_refuted :
  forall (T : Type) (N : Num T) h t a size size' who who' n n' h' rc h'' rc', dict_wf (h a) ->
  post_init h t a size who (PredefinedNumberOfSteps n : criterion T) = (h', Ok rc) ->
  post_init h' t a size' who' (PredefinedNumberOfSteps n' : criterion T) = (h'', Ok rc') ->
  revolver_arguments h'' rc = revolver_arguments h'' rc' /\
  let d := snd (revolver_arguments h'' rc) in
  dget "checkpoint" d = Some (VCheckpoint who') /\ dget "n_timesteps" d = Some (VInt (Z.of_nat n' - 1)) /\
  dget "fwd_operator" d = Some (VForward who') /\ dget "rev_operator" d = Some (VReverse who').
Proof. exact (@shared_options). Qed.
Print Assumptions C84_shared_dictionary_refuted.

(** so compute of the one set up first returns the result of steps of the
    other: its ODE, its tableau, its number of steps. *)
Theorem C84_shared_run_refuted :
  forall (T : Type) (N : Num T) (C : Type) (opA opB : options T C) n fs rs i wA wB p out,
  stateless opB (ctl wB) -> valid_schedule n fs rs -> Forall forward_action fs ->
  shared_compute opA opB fs i (wA, wB) = (p, Ok out) ->
  exists a l, starts_at opA i a /\ trajectory opB a l /\ length l = S n /\
    time_final out = final_time (disc (last l a)) /\ final out = final_state (disc (last l a)).
Proof. exact (@shared_steps). Qed.
Print Assumptions C84_shared_run_refuted.

Definition user_heap : heap := fun a =>
  if Nat.eqb a 0 then [("storage_list", VDict [("Disk", []); ("Numpy", [("n", 3%Z)])]); ("other", VOther 7)]%string
  else if Nat.eqb a 1 then [("n_checkpoints", VInt 2)]%string else [].

Example C84_hypotheses_met :
  (forall a, dict_wf (user_heap a)) /\
  (exists h' rc, post_init user_heap "MultiLevel" 0 5 1 (PredefinedNumberOfSteps 4 : criterion Q) = (h', Ok rc) /\
     dget "storage_list" (h' 0) = Some (VStorages [{| s_kind := DiskStorage; s_size := 5; s_options := [] |};
       {| s_kind := NumpyStorage; s_size := 5; s_options := [("n"%string, 3%Z)] |}]) /\
     dget "n_timesteps" (h' 0) = Some (VInt 3) /\
     post_init h' "MultiLevel" 0 5 2 (PredefinedNumberOfSteps 4 : criterion Q) = (h', Err AttributeError)) /\
  (exists h' rc h'' rc', post_init user_heap "SingleLevel" 2 5 1 (PredefinedNumberOfSteps 1 : criterion Q) = (h', Ok rc) /\
     post_init h' "SingleLevel" 2 5 2 (PredefinedNumberOfSteps 100 : criterion Q) = (h'', Ok rc') /\
     dget "n_checkpoints" (h'' 2) = Some (VInt 1) /\ dget "n_timesteps" (h'' 2) = Some (VInt 99)) /\
  snd (post_init user_heap "Disk" 1 5 1 (PredefinedFinalTime 1%Q)) = Err TypeError.
Proof.
  split.
  { intros a; unfold user_heap, dict_wf; destruct (Nat.eqb a 0); [|destruct (Nat.eqb a 1)]; cbn;
      repeat constructor; cbn; intuition discriminate. }
  split; [eexists; eexists; split; [reflexivity|]; repeat split|].
  split; [do 4 eexists; split; [reflexivity|]; split; [reflexivity|]; split; reflexivity|reflexivity].
Qed.

(** Over the integers: two steps of Euler's method for the first integrator,
    three of Heun's for the second (the weights one half are zero here). *)
Definition sA : options Z unit := gop euler (gode never never) (PyrevolveCheckpointer [Save 0; Advance 0 1] [Reverse 0 1])
  false 1%Z (PredefinedNumberOfSteps 2).
Definition sB : options Z unit := gop heun (gode never never)
  (PyrevolveCheckpointer [Save 0; Advance 0 2] [Reverse 1 2; Restore 0; Advance 0 1; Reverse 0 1])
  false 1%Z (PredefinedNumberOfSteps 3).
Example C84_shared_run_differs :
  (exists w, compute sA (gin 0 1 1)%Z (setup sA tt) = (w, Ok (gout 2 5)%Z)) /\
  (exists p, shared_compute sA sB [Save 0; Advance 0 2] (gin 0 1 1)%Z (setup sA tt, setup sB tt) = (p, Ok (gout 3 1)%Z)) /\
  stateless sB (ctl (setup sB tt)) /\ Forall forward_action [Save 0; Advance 0 2] /\
  valid_schedule 2 [Save 0; Advance 0 2] [Reverse 1 2; Restore 0; Advance 0 1; Reverse 0 1].
Proof.
  split; [eexists; vm_compute; reflexivity|]; split; [eexists; vm_compute; reflexivity|].
  split; [apply gop_stateless|]; split; [repeat constructor|].
  eexists; eexists; split; [reflexivity|]; repeat split; reflexivity.
Qed.
