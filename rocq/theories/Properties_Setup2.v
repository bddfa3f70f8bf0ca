(** Property theorems about the error controllers with arguments of their own,
    called by hand, C82, and about storages of unknown types, C84. *)
From Coq Require Import String.
From Coq Require Import List Bool ZArith QArith Permutation.
From Verif Require Import Base Ext M_Controller M_Integrator M_Setup SpecSetup L_Setup2.
Import ListNotations.
Local Open Scope nat_scope.

(** Called by hand, the controllers the set-up never accepts take their
    arguments by name, in any order, and become exactly these exponents. *)
Theorem C82_general_by_name :
  forall (T : Type) (N : Num T) (I : NumInf T) n (args : list (string * T)) cfg x y z,
  let p := nlit (inject_Z (Z.of_nat n)) in
  let c := match cfg with Some c => c | None => default_config end in
  (Permutation args [("var_alpha", x); ("a", y); ("b", z)]%string ->
   call_factory h_312_general_factory (Some n) args cfg =
   Ok ({| x_alpha := ndiv x p; x_beta := ndiv (nmul (nlit (-2 # 1)) x) p; x_gamma := ndiv x p; x_a := y; x_b := z |}, c)) /\
  (Permutation args [("var_alpha", x); ("var_beta", y); ("a", z)]%string ->
   call_factory h_321_general_factory (Some n) args cfg =
   Ok ({| x_alpha := ndiv x p; x_beta := ndiv y p; x_gamma := ndiv (nopp (nadd x y)) p;
          x_a := z; x_b := nsub (nlit (1 # 1)) z |}, c)) /\
  (Permutation args [("var_alpha", x); ("var_beta", y); ("var_gamma", z)]%string ->
   call_factory h_330_general_factory (Some n) args cfg =
   Ok ({| x_alpha := ndiv x p; x_beta := ndiv y p; x_gamma := ndiv z p;
          x_a := nlit (2 # 1); x_b := nlit (-1 # 1) |}, c)).
Proof.
  exact (fun T N I n args cfg x y z => conj (@called_312 T N I n args cfg x y z)
    (conj (@called_321 T N I n args cfg x y z) (@called_330 T N I n args cfg x y z))).
Qed.
Print Assumptions C82_general_by_name.

(** A missing, a misspelt or a further argument raises TypeError, and so does
    an unknown order. *)
Theorem C82_general_accepts_exactly :
  forall (T : Type) (N : Num T) (I : NumInf T) (g : factory T) p (args : list (string * T)) cfg,
  In g general_factories -> NoDup (map fst args) ->
  ((exists r, call_factory g p args cfg = Ok r) <-> Permutation (map fst args) (f_args g) /\ p <> None) /\
  (forall e, call_factory g p args cfg = Err e -> e = TypeError).
Proof.
  exact (fun T N I g p args cfg G D => conj (@general_iff T N I g p args cfg G D)
    (fun e => @called_error T N g p args cfg e)).
Qed.
Print Assumptions C82_general_accepts_exactly.

(** The arguments in another order than that of the function. *)
Example C82_by_name_example :
  call_factory (T := ext Q) h_312_general_factory (Some 2) [("b", Fin (3 # 1)); ("var_alpha", Fin (4 # 1)); ("a", Fin (5 # 1))]%string None
  = Ok ({| x_alpha := ndiv (Fin (4 # 1)) (nlit (2 # 1)); x_beta := ndiv (nmul (nlit (-2 # 1)) (Fin (4 # 1))) (nlit (2 # 1));
           x_gamma := ndiv (Fin (4 # 1)) (nlit (2 # 1)); x_a := Fin (5 # 1); x_b := Fin (3 # 1) |}, default_config) /\
  call_factory (T := ext Q) h_312_general_factory (Some 2) [("b", Fin (3 # 1)); ("var_alpha", Fin (4 # 1))]%string None = Err TypeError /\
  call_factory (T := ext Q) h_312_general_factory (Some 2)
    [("b", Fin (3 # 1)); ("var_alpha", Fin (4 # 1)); ("a", Fin (5 # 1)); ("c", Fin (5 # 1))]%string None = Err TypeError.
Proof. repeat split; reflexivity. Qed.

(** Storages of other types are left out without an error; the others are made
    as named, in the order of the dictionary. *)
Theorem C84_unknown_storages_refuted :
  forall size sts,
  Forall2 (storage_named size) (filter (fun e => mem (fst e) ["Numpy"; "Disk"; "Bytes"]%string) sts)
    (flat_map (make_storage size) sts).
Proof. exact storages_kept. Qed.
Print Assumptions C84_unknown_storages_refuted.
(** A misspelt type: accepted, and the library is given no storage at all. *)
Example C84_misspelt_storage :
  exists h' rc, post_init (fun _ => [("storage_list", VDict [("numpy", [])])])%string "MultiLevel" 0 3 0
    (PredefinedNumberOfSteps 4 : M_Integrator.criterion Q) = (h', Ok rc) /\
  dget "storage_list" (snd (revolver_arguments h' rc)) = Some (VStorages []).
Proof. do 2 eexists; split; reflexivity. Qed.
