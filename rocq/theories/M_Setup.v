(** Model of the set-up of the integrator component: construction and [setup]
    of /repo/src/rkopenmdao/runge_kutta_integrator.py ("RKI"), the factory
    functions of error_controllers.py ("ECS") as called from there, and
    [__post_init__]/[create_checkpointer] of
    checkpoint_interface/pyrevolve_checkpointer.py ("PC").

    Not modelled: printing and the default callback lists (M_Console.v), the [name] argument of
    the factories, and orders [p = 0] (a ZeroDivisionError in most factories). *)
From Coq Require Import String.
From Coq Require Import List Bool ZArith QArith.
From Verif Require Import Base M_Tableau M_State M_ODE M_Step M_Controller M_Measure M_Integrator.
Import ListNotations.

(** ** Error controllers *)
Section Controllers.
Context {T : Type} {N : Num T} {I : NumInf T}.

(** A function of ECS: the arguments it requires besides [p], whether it
    computes with [p], the exponents, and the default of [config]. *)
Record factory : Type := {
  f_args : list string;
  f_uses_order : bool;
  f_exponents : T -> (string -> T) -> exponents T;
  f_config : config T
}.

Definition mem (x : string) (l : list string) : bool := existsb (String.eqb x) l.
(** Keyword arguments as a list of pairs. *)
Definition arg (args : list (string * T)) (k : string) : T :=
  match find (fun e => String.eqb (fst e) k) args with Some (_, v) => v | None => n0 end.

(** Calling it with [p], further keyword arguments and possibly [config]:
    Python raises TypeError for a missing or an unexpected argument, and for
    [None] in arithmetic. *)
Definition call_factory (f : factory) (p : option nat) (args : list (string * T))
    (cfg : option (config T)) : res (exponents T * config T) :=
  if forallb (fun a => mem a (map fst args)) (f_args f)
     && forallb (fun k => mem k (f_args f)) (map fst args)
  then
    let c := match cfg with Some c => c | None => f_config f end in
    match p with
    | Some n => Ok (f_exponents f (nlit (inject_Z (Z.of_nat n))) (arg args), c)
    | None => if f_uses_order f then Err TypeError else Ok (f_exponents f n0 (arg args), c)
    end
  else Err TypeError.

(** ECS:17-29. *)
Definition pseudo_factory : factory := {| f_args := []; f_uses_order := false;
  f_exponents := fun p _ => pseudo p; f_config := pseudo_config |}.
(** The factories with no argument besides [p], [config], [name], [base]. *)
Definition plain_factory (x : T -> exponents T) : factory := {| f_args := []; f_uses_order := true;
  f_exponents := fun p _ => x p; f_config := default_config |}.
(** ECS:32-246, 282-372, 410-439, in the order of the file. *)
Definition plain_factories : list factory := pseudo_factory :: map plain_factory
  [integral; h0_110; h_211; h0_211; pc; h0_220; pid; h_312; h0_312; ppid; h_321; h0_321; h0_330].
(** ECS:248-279, 375-407, 442-474. *)
Definition h_312_general_factory : factory := {| f_args := ["var_alpha"; "a"; "b"]%string;
  f_uses_order := true; f_config := default_config;
  f_exponents := fun p v => h_312_general p (v "var_alpha") (v "a") (v "b") |}%string.
Definition h_321_general_factory : factory := {| f_args := ["var_alpha"; "var_beta"; "a"]%string;
  f_uses_order := true; f_config := default_config;
  f_exponents := fun p v => h_321_general p (v "var_alpha") (v "var_beta") (v "a") |}%string.
Definition h_330_general_factory : factory := {| f_args := ["var_alpha"; "var_beta"; "var_gamma"]%string;
  f_uses_order := true; f_config := default_config;
  f_exponents := fun p v => h_330_general p (v "var_alpha") (v "var_beta") (v "var_gamma") |}%string.
Definition general_factories : list factory :=
  [h_312_general_factory; h_321_general_factory; h_330_general_factory].

(** RKI:236-248, [check_error_controller], run by OpenMDAO when the option is
    assigned: every entry is called with [p = 1] and nothing else. *)
Fixpoint check_error_controller (fs : list factory) : res unit :=
  match fs with
  | [] => Ok tt
  | f :: fs' => let* _ := call_factory f (Some 1%nat) [] None in check_error_controller fs'
  end.

(** RKI:398-403, the loop.  A decorator ignores its [config] argument and takes
    that of the wrapped controller (error_controller.py:333). *)
Fixpoint nest (p : option nat) (args : list (string * T)) (cfg : option (config T))
    (fs : list factory) (base : option (controller T * config T)) : res (option (controller T * config T)) :=
  match fs with
  | [] => Ok base
  | f :: fs' =>
      let* (x, c) := call_factory f p args cfg in
      nest p args cfg fs'
        (Some match base with
              | None => (mk_plain x, c)
              | Some (inner, ci) => (mk_decorated x inner, ci)
              end)
  end.

(** RKI:393-405, [_setup_error_controller], with the access of RKI:420 to
    [_error_controller.config] (AttributeError on None). *)
Definition setup_error_controller (bt : tableau T) (args : list (string * T)) (cfg : option (config T))
    (fs : list factory) : res (controller T * config T) :=
  let* p := min_p_order bt in
  let* r := nest p args cfg fs None in
  match r with None => Err AttributeError | Some cc => Ok cc end.
End Controllers.
Arguments factory T : clear implicits.

(** ** Options of the recomputing checkpointer *)
(** Storages handed to the library (PC:80-85): kind, size, options. *)
Inductive storage_kind : Type := NumpyStorage | DiskStorage | BytesStorage.
Record library_storage : Type := { s_kind : storage_kind; s_size : nat; s_options : list (string * Z) }.

(** Values in the dictionary [revolver_options].  Set-ups are numbered; the
    objects created by one belong to its number: the state, the perturbation
    and the methods [_run_step], [_run_step_jacvec_rev] of the integrator. *)
Inductive oval : Type :=
| VNone
| VInt (z : Z)
| VOther (z : Z)                                        (* any other value that is no dict *)
| VDict (d : list (string * list (string * Z)))         (* storage types with options *)
| VStorages (l : list library_storage)
| VCheckpoint (setup_number : nat)                      (* PC:65, RungeKuttaCheckpoint(self.state) *)
| VForward (setup_number : nat)                         (* PC:97-100 *)
| VReverse (setup_number : nat).                        (* PC:101-105 *)

(** A dictionary: pairs in order of insertion. *)
Definition dict : Type := list (string * oval).
Fixpoint dget (k : string) (d : dict) : option oval :=
  match d with
  | [] => None
  | (k', v) :: d' => if String.eqb k k' then Some v else dget k d'
  end.
Fixpoint dset (k : string) (v : oval) (d : dict) : dict :=
  match d with
  | [] => [(k, v)]
  | (k', v') :: d' => if String.eqb k k' then (k, v) :: d' else (k', v') :: dset k v d'
  end.

(** The dictionaries of a program, by address. *)
Definition heap : Type := nat -> dict.
Definition hset (a : nat) (d : dict) (h : heap) : heap := fun b => if Nat.eqb b a then d else h b.

(** PC:112-145, [_setup_revolver_class_type]. *)
Inductive revolver_class : Type :=
| SingleLevelRevolver | MultiLevelRevolver | DiskRevolver | BaseRevolver | MemoryRevolver.
Definition setup_revolver_class_type (t : string) : res revolver_class :=
  if String.eqb t "SingleLevel" then Ok SingleLevelRevolver
  else if String.eqb t "MultiLevel" then Ok MultiLevelRevolver
  else if String.eqb t "Disk" then Ok DiskRevolver
  else if String.eqb t "Base" then Ok BaseRevolver
  else if String.eqb t "Memory" then Ok MemoryRevolver
  else Err TypeError.

(** PC:77-85: storage types other than these three are skipped. *)
Definition make_storage (size : nat) (e : string * list (string * Z)) : list library_storage :=
  if String.eqb (fst e) "Numpy" then [{| s_kind := NumpyStorage; s_size := size; s_options := snd e |}]
  else if String.eqb (fst e) "Disk" then [{| s_kind := DiskStorage; s_size := size; s_options := snd e |}]
  else if String.eqb (fst e) "Bytes" then [{| s_kind := BytesStorage; s_size := size; s_options := snd e |}]
  else [].

(** PC:75-88, the loop over the items: [d] are the items still to visit, the
    result the dictionary after the loop.  [.items()] on anything but a dict is
    an AttributeError. *)
Fixpoint convert_options (t : string) (size : nat) (items d : dict) : res dict :=
  match items with
  | [] => Ok d
  | (k, v) :: items' =>
      if String.eqb t "MultiLevel" && String.eqb k "storage_list" then
        match v with
        | VDict sts => convert_options t size items' (dset k (VStorages (flat_map (make_storage size) sts)) d)
        | _ => Err AttributeError
        end
      else convert_options t size items' (dset k v d)
  end.

(** The checkpointer object as far as set-up determines it. *)
Record revolve_checkpointer : Type := { rc_class : revolver_class; rc_options : nat (* address *) }.

(** PC:62-106, [__post_init__]: [size] is the size of the checkpoint (C32),
    [who] the number of this set-up, [a] the address of [revolver_options].
    Returns the dictionaries after the call. *)
Definition post_init {T} (h : heap) (t : string) (a size who : nat) (crit : criterion T)
    : heap * res revolve_checkpointer :=
  match setup_revolver_class_type t with
  | Err e => (h, Err e)
  | Ok cl =>
    match crit with
    | PredefinedFinalTime _ => (h, Err TypeError)
    | PredefinedNumberOfSteps n =>
      match convert_options t size (h a) (h a) with
      | Err e => (h, Err e)
      | Ok d =>
        let d := dset "checkpoint" (VCheckpoint who) d in
        let d := dset "n_timesteps" (VInt (Z.of_nat n - 1)) d in
        let d := match dget "n_checkpoints" d with
                 | Some _ => d
                 | None => if mem t ["MultiLevel"; "Base"]%string then d
                           else dset "n_checkpoints" (if Nat.eqb n 1 then VInt 1 else VNone) d
                 end in
        let d := dset "fwd_operator" (VForward who) d in
        let d := dset "rev_operator" (VReverse who) d in
        (hset a d h, Ok {| rc_class := cl; rc_options := a |})
      end
    end
  end.

(** PC:108-110, [create_checkpointer]: what the constructor of the library
    gets. *)
Definition revolver_arguments (h : heap) (rc : revolve_checkpointer) : revolver_class * dict :=
  (rc_class rc, h (rc_options rc)).

(** ** The component *)
Section Component.
Context {T : Type} {N : Num T} {I : NumInf T}.

(** The option checkpointing_type with the checkpoint options; for the
    recomputing checkpointer the revolver type and the address of
    [revolver_options]. *)
Inductive checkpointing_choice : Type :=
| ChooseNo
| ChooseAll
| ChooseRevolve (revolver_type : string) (options_address : nat).

(** The options of RKI:78-223 and integration_config.py:10-26. *)
Record user_options : Type := {
  u_bt : tableau T;
  u_ode : ode T;
  u_adaptive : bool;
  u_step : T;
  u_crit : criterion T;
  u_meas : measurer T;
  u_controllers : list (factory T);
  u_args : list (string * T);
  u_config : option (config T);
  u_ckpt : checkpointing_choice;
  u_callbacks : mode -> list (callback T);
  u_retry_limit : nat;
  u_loop_limit : nat
}.

(** The options of M_Integrator.v they stand for, given the controller's
    configuration and the library's schedule. *)
Definition resolved (u : user_options) (cfg : config T) (ck : checkpointing) : options T (controller T) := {|
  o_bt := u_bt u; o_ode := u_ode u; o_ckpt := ck; o_adaptive := u_adaptive u; o_step := u_step u;
  o_crit := u_crit u; o_inf := ninf; o_meas := u_meas u; o_tol := tol cfg;
  o_ctl := ctl_call cfg; o_callbacks := u_callbacks u;
  retry_limit := u_retry_limit u; loop_limit := u_loop_limit u |}.

(** Result of a set-up: options, component and the dictionaries.  The library's
    schedules ([schedule]) do not matter before compute is called. *)
Definition setup_checkpointing (u : user_options) (size who : nat) (h : heap)
    (schedule : list action * list action) : heap * res checkpointing :=
  match u_ckpt u with
  | ChooseNo => (h, Ok NoCheckpointer)
  | ChooseAll => (h, Ok AllCheckpointer)
  | ChooseRevolve t a =>
      match post_init h t a size who (u_crit u) with
      | (h', Err e) => (h', Err e)
      | (h', Ok _) => (h', Ok (PyrevolveCheckpointer (fst schedule) (snd schedule)))
      end
  end.

(** Construction (RKI:161-176 through OpenMDAO's option check) followed by
    [setup] (RKI:250-291) for a stage problem that has been accepted
    (M_Metadata.v); RKI:264-270 in order. *)
Definition construct_and_setup (u : user_options) (size who : nat) (h : heap)
    (schedule : list action * list action)
    : heap * res (options T (controller T) * component T (controller T)) :=
  match check_error_controller (u_controllers u) with
  | Err e => (h, Err e)
  | Ok _ =>
    match setup_error_controller (u_bt u) (u_args u) (u_config u) (u_controllers u) with
    | Err e => (h, Err e)
    | Ok (c, cfg) =>
      match setup_checkpointing u size who h schedule with
      | (h', Err e) => (h', Err e)
      | (h', Ok ck) => (h', Ok (resolved u cfg ck, setup (resolved u cfg ck) c))
      end
    end
  end.
End Component.
Arguments user_options T : clear implicits.

(** ** Two integrators whose checkpointers were given the same dictionary *)
Section Shared.
Context {T : Type} {N : Num T} {C : Type}.
Variables opA opB : options T C.

(** A method of B, called while A's call is running. *)
Definition on_b {A} (m : method T C A) (p : component T C * component T C)
    : (component T C * component T C) * res A :=
  let '(wB, r) := m (snd p) in ((fst p, wB), r).

(** PC:147-170 for A with a revolver built from B's objects: the forward
    operator's state is B's, its steps are B's [_run_step], the library saves
    and restores B's state.  [fwd] is the library's schedule. *)
Definition shared_iterate_forward (fwd : list action) (p : component T C * component T C)
    : (component T C * component T C) * res unit :=
  let '(wA, wB) := p in
  let wB := w_live (ti_set (live wB) (live wA)) wB in                           (* PC:162 *)
  match forward_operator opB 1 0 wB with                                        (* PC:163 *)
  | (wB, Err e) => ((wA, wB), Err e)
  | (wB, Ok _) =>
      let wA := w_first_complete (ti_set (first_complete wA) (live wB)) wA in   (* PC:164-166 *)
      let wA := w_live (ti_set (live wA) (live wB)) wA in                       (* PC:167 *)
      on_b (run_actions opB fwd) (wA, wB)                                       (* PC:168 *)
  end.

(** RKI:438-453 for A; the storage of the new revolver is empty (PC:110). *)
Definition shared_compute (fwd : list action) (i : inputs T) (p : component T C * component T C)
    : (component T C * component T C) * res (outputs T) :=
  let '(wA, wB) := p in
  let '(wA, _) := compute_preparation_phase opA i wA in
  let wB := w_slots [] wB in
  match shared_iterate_forward fwd (wA, wB) with
  | (p, Err e) => (p, Err e)
  | ((wA, wB), Ok _) =>
      let wA := w_live (ti_set (live wA) (live wB)) wA in                       (* RKI:443-445 *)
      ((wA, wB), Ok {| time_final := final_time (disc (live wA)); final := final_state (disc (live wA)) |})
  end.
End Shared.
