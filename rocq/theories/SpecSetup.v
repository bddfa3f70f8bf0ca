(** Notions the theorems about the set-up of a component are stated with. *)
From Coq Require Import String.
From Coq Require Import List Bool ZArith.
From Verif Require Import Base M_Tableau M_Controller M_Integrator M_Setup.
Import ListNotations.

Section Spec.
Context {T : Type} {N : Num T}.

(** The orders the listed controllers compute with are known. *)
Definition orders_known (bt : tableau T) (fs : list (factory T)) : Prop :=
  match t_hat bt with
  | Some (_, phat) => t_p bt <> None /\ phat <> None
  | None => t_p bt <> None \/ Forall (fun f => f_uses_order f = false) fs
  end.

(** The order of the weaker method (0 where it does not matter). *)
Definition weaker_order (bt : tableau T) : nat :=
  match t_p bt, t_hat bt with
  | Some p, Some (_, Some q) => if Nat.leb p q then p else q
  | Some p, None => p
  | _, _ => 0
  end.

(** The storages named in the user's dictionary, in order. *)
Definition storage_named (size : nat) (e : string * list (string * Z)) (s : library_storage) : Prop :=
  s_size s = size /\ s_options s = snd e /\
  fst e = match s_kind s with NumpyStorage => "Numpy" | DiskStorage => "Disk" | BytesStorage => "Bytes" end%string.

Definition revolvers : list (string * revolver_class) :=
  [("SingleLevel", SingleLevelRevolver); ("MultiLevel", MultiLevelRevolver); ("Disk", DiskRevolver);
   ("Base", BaseRevolver); ("Memory", MemoryRevolver)]%string.
Definition revolver_types : list string := map fst revolvers.

(** Options of a run that hold what the user gave, with the configuration
    [cfg] of the controllers. *)
Definition holds_options {C} (u : user_options T) (cfg : config T) (ctl : C -> call_args T -> C * res (status T))
    (inf : T) (op : options T C) : Prop :=
  o_bt op = u_bt u /\ o_ode op = u_ode u /\ o_adaptive op = u_adaptive u /\ o_step op = u_step u /\
  o_crit op = u_crit u /\ o_meas op = u_meas u /\ o_callbacks op = u_callbacks u /\
  o_tol op = tol cfg /\ o_ctl op = ctl /\ o_inf op = inf.

(** What the library can be set up with. *)
Definition usable_options (t : string) (crit : criterion T) (d : dict) : Prop :=
  In t revolver_types /\ (exists n, crit = PredefinedNumberOfSteps n) /\
  (t = "MultiLevel"%string -> forall v, dget "storage_list" d = Some v -> exists sts, v = VDict sts).

Definition checkpointing_usable (u : user_options T) (h : heap) : Prop :=
  match u_ckpt u with ChooseRevolve t a => usable_options t (u_crit u) (h a) | _ => True end.

(** Python dictionaries have every key once. *)
Definition dict_wf (d : dict) : Prop := NoDup (map fst d).

(** What the library is to be given under key [k] by set-up number [who] of a
    run of [n] steps, when the user's options are [user]. *)
Definition to_library (t : string) (size who n : nat) (user : dict) (k : string) : option oval :=
  if String.eqb k "checkpoint" then Some (VCheckpoint who)
  else if String.eqb k "n_timesteps" then Some (VInt (Z.of_nat n - 1))
  else if String.eqb k "fwd_operator" then Some (VForward who)
  else if String.eqb k "rev_operator" then Some (VReverse who)
  else match dget k user with
       | Some (VDict sts) =>
           if String.eqb t "MultiLevel" && String.eqb k "storage_list"
           then Some (VStorages (flat_map (make_storage size) sts))
           else Some (VDict sts)
       | Some v => Some v
       | None =>
           if String.eqb k "n_checkpoints" && negb (String.eqb t "MultiLevel") && negb (String.eqb t "Base")
           then Some (if Nat.eqb n 1 then VInt 1 else VNone)
           else None
       end.

(** Set-ups one after the other: revolver type, address, size, number,
    criterion; those that raise leave the dictionaries as they are. *)
Definition one_setup : Type := string * nat * nat * nat * criterion T.
Definition address_of (s : one_setup) : nat := let '(_, a, _, _, _) := s in a.
Definition run_setups (l : list one_setup) (h : heap) : heap :=
  fold_left (fun h s => let '(t, a, size, who, crit) := s in fst (post_init h t a size who crit)) l h.
End Spec.
