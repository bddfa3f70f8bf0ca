(** Notions for statements about several processes. *)
From Coq Require Import String.
From Coq Require Import List Bool Arith Reals.
From Verif Require Import Base Ext M_Tableau M_State M_ODE M_Step M_Integrator M_Metadata M_MPI.
Import ListNotations.
Local Open Scope nat_scope.
Local Open Scope list_scope.

(** *** Norms *)

(** Real powers of nonnegative numbers with positive exponent, sums. *)
Definition rpow (x p : R) : R := if Req_EM_T x 0 then 0%R else Rpower x p.
Definition rsum (l : list R) : R := fold_right Rplus 0%R l.

(** [n] is the norm of the given order of vector [x]; order 0 counts the
    nonzero entries, orders below 0 other than -inf are not covered. *)
Definition is_norm (ord : order R) (x : list R) (n : R) : Prop :=
  match ord with
  | OrdInf => (x = [] /\ n = 0%R) \/ (In n (map Rabs x) /\ (forall y, In y x -> (Rabs y <= n)%R))
  | OrdNegInf => In n (map Rabs x) /\ (forall y, In y x -> (n <= Rabs y)%R)
  | Ord p => (p = 0%R /\ n = INR (length (filter (fun y => negb (Reqb y 0)) x))) \/
             ((0 < p)%R /\ n = rpow (rsum (map (fun y => rpow (Rabs y) p) x)) (1 / p))
  end.

(** The orders for which the norm is defined to be what numpy documents and
    does not depend on how entries are spread: all but the negative ones. *)
Definition positive (ord : order R) : Prop :=
  match ord with OrdInf => True | OrdNegInf => False | Ord p => (0 <= p)%R end.

(** What a process holds of quantity number [j]. *)
Definition portion {T} (j : nat) (p : metadata * list T) : list T :=
  match nth_error (time_integration_quantities (fst p)) j with
  | Some q => slice (start_index (q_array q)) (end_index (q_array q)) (snd p)
  | None => []
  end.
Definition array_of (j : nat) (md : metadata) : option array_metadata :=
  option_map q_array (nth_error (time_integration_quantities md) j).

(** [y] is the whole of quantity [j]: every process has all of it, or the
    portions of the processes make it up. *)
Definition whole {T} (procs : list (metadata * list T)) (j : nat) (y : list T) : Prop :=
  Forall (fun p => exists a, array_of j (fst p) = Some a /\ length y = prod (global_shape a)) procs /\
  (Forall (fun p => portion j p = y /\
      exists a, array_of j (fst p) = Some a /\ shape a = global_shape a) procs \/
   concat (map (portion j) procs) = y).

(** The numbers of the quantities that are not excluded. *)
Definition included (excl : list string) (md : metadata) : list nat :=
  filter (fun j => match nth_error (time_integration_quantities md) j with
                   | Some q => negb (mem (q_name q) excl)
                   | None => false end)
         (seq 0 (length (time_integration_quantities md))).

(** [x] is the vector of all included quantities, each counted once. *)
Definition assembled {T} (excl : list string) (procs : list (metadata * list T)) (x : list T) : Prop :=
  exists md0 st0 rest parts, procs = (md0, st0) :: rest /\
    Forall2 (whole procs) (included excl md0) parts /\ x = concat parts.

(** Each process has an array of the size it announced. *)
Definition fitting {T} (procs : list (metadata * list T)) : Prop :=
  Forall (fun p => length (snd p) = time_integration_array_size (fst p)) procs.

(** No process lacks entries of an included quantity. *)
Definition no_gap {T} (excl : list string) (p : metadata * list T) : Prop :=
  Forall (fun j => portion j p <> []) (included excl (fst p)).

(** *** Runs *)
Section Joint.
Context {T : Type} {N : Num T}.
Variable ord : order T.
Variable excl : list string.

(** The entries of [x] that belong to quantities every process has a copy
    of. *)
Definition shared (md : metadata) (x : list T) : list (list T) :=
  map (fun q => slice (start_index (q_array q)) (end_index (q_array q)) x)
      (filter (fun q => negb (mem (q_name q) excl) && negb (distributed (q_array q)))
              (time_integration_quantities md)).

(** What the solvers return on the processes: updates of the right size, whose
    copies of shared quantities agree. *)
Definition consistent (mds : list metadata) (answers : list (ode_out T * list T)) : Prop :=
  exists y, Forall2 (fun md r => length (stage_update (fst r)) = time_integration_array_size md /\
                                 shared md (stage_update (fst r)) = y) mds answers.

(** One collective operation.  The answers of the stage solvers are arbitrary
    but consistent, those of the linear solvers arbitrary; or all processes get
    the same exception. *)
Inductive move {A} (mds : list metadata) : list (prog T A) -> list (prog T A) -> Prop :=
| move_solve (qs : list (ode_in T * T * T * (res (ode_out T * list T) -> prog T A))) answers :
    consistent mds answers ->
    move mds (map (fun q => Solve _ (fst (fst (fst q))) (snd (fst (fst q))) (snd (fst q)) (snd q)) qs)
             (map2 (fun q r => snd q (Ok r)) qs answers)
| move_fail (qs : list (ode_in T * T * T * (res (ode_out T * list T) -> prog T A))) e :
    move mds (map (fun q => Solve _ (fst (fst (fst q))) (snd (fst (fst q))) (snd (fst q)) (snd q)) qs)
             (map (fun q => snd q (Err e)) qs)
| move_reduce (qs : list (T * (T -> prog T A))) :
    move mds (map (fun q => Reduce _ (fst q) (snd q)) qs)
             (map (fun q => snd q (allreduce ord (map fst qs))) qs)
| move_jvp (qs : list (list T * ode_in T * T * T * (res (ode_out T) -> prog T A))) answers :
    length answers = length qs ->
    move mds (map (fun q => Jvp _ (fst (fst (fst (fst q)))) (snd (fst (fst (fst q)))) (snd (fst (fst q))) (snd (fst q)) (snd q)) qs)
             (map2 (fun q r => snd q (Ok r)) qs answers)
| move_jvp_fail (qs : list (list T * ode_in T * T * T * (res (ode_out T) -> prog T A))) e :
    move mds (map (fun q => Jvp _ (fst (fst (fst (fst q)))) (snd (fst (fst (fst q)))) (snd (fst (fst q))) (snd (fst q)) (snd q)) qs)
             (map (fun q => snd q (Err e)) qs)
| move_vjp (qs : list (list T * ode_out T * T * T * (res (ode_in T) -> prog T A))) answers :
    length answers = length qs ->
    move mds (map (fun q => Vjp _ (fst (fst (fst (fst q)))) (snd (fst (fst (fst q)))) (snd (fst (fst q))) (snd (fst q)) (snd q)) qs)
             (map2 (fun q r => snd q (Ok r)) qs answers)
| move_vjp_fail (qs : list (list T * ode_out T * T * T * (res (ode_in T) -> prog T A))) e :
    move mds (map (fun q => Vjp _ (fst (fst (fst (fst q)))) (snd (fst (fst (fst q)))) (snd (fst (fst q))) (snd (fst q)) (snd q)) qs)
             (map (fun q => snd q (Err e)) qs)
| move_hook m b s (ks : list (prog T A)) :
    move mds (map (Hook _ m b s) ks) ks
| move_decide (qs : list (T * bool * prog T A)) :
    move mds (map (fun q => Decide _ (fst (fst q)) (snd (fst q)) (snd q)) qs) (map snd qs).

Inductive moves {A} (mds : list metadata) (ps : list (prog T A)) : list (prog T A) -> Prop :=
| moves_none : moves mds ps ps
| moves_more ps1 ps2 : moves mds ps ps1 -> move mds ps1 ps2 -> moves mds ps ps2.

(** What the decisions depend on is the same in all members of the list. *)
Definition same_outcome {C} (l : list (C * tistate T * res unit)) : Prop :=
  exists c h sh eh t r, Forall (fun x => let st := snd (fst x) in
    fst (fst x) = c /\ suggestion st = h /\ step_hist st = sh /\ err_hist st = eh /\
    final_time (disc st) = t /\ snd x = r) l.

(** All processes are about to take part in the same operation with the same
    stage time and step size, or to pass the same verdict, or they have ended
    alike. *)
Definition abreast {A} (alike : list A -> Prop) (ps : list (prog T A)) : Prop :=
  (exists rs, ps = map (Done _) rs /\ alike rs) \/
  (exists t h a qs, ps = map (fun q => Solve _ (fst q) h a (snd q)) qs /\ Forall (fun q => time (fst q) = t) qs) \/
  (exists qs, ps = map (fun q => Reduce _ (fst q) (snd q)) qs) \/
  (exists h a qs, ps = map (fun q => Jvp _ (fst (fst q)) (snd (fst q)) h a (snd q)) qs) \/
  (exists h a qs, ps = map (fun q => Vjp _ (fst (fst q)) (snd (fst q)) h a (snd q)) qs) \/
  (exists m b s ks, ps = map (Hook _ m b s) ks) \/
  (exists h b ks, ps = map (Decide _ h b) ks).
Definition in_step {C} (ps : list (prog T (C * tistate T * res unit))) : Prop := abreast same_outcome ps.

(** Array sizes of a state on a process; without embedded weights there are no
    arrays for the embedded solution. *)
Record sized (bt : tableau T) (md : metadata) (s : rkstate T) : Prop := {
  sz_final : length (final_state s) = time_integration_array_size md;
  sz_updates : length (stage_updates s) = number_of_stages bt;
  sz_rows : Forall (fun r => length r = time_integration_array_size md) (stage_updates s);
  sz_times : length (stage_times s) = number_of_stages bt;
  sz_outputs : length (stage_independent_outputs s) = number_of_stages bt;
  sz_embedded : t_hat bt = None -> embedded s = None
}.

(** States from which the processes may start: what the decisions depend on is
    the same and the copies of shared quantities agree. *)
Definition together (bt : tableau T) (mds : list metadata) (sts : list (tistate T)) : Prop :=
  exists h sh eh t y, Forall2 (fun md st =>
    sized bt md (disc st) /\ suggestion st = h /\ step_hist st = sh /\ err_hist st = eh /\
    final_time (disc st) = t /\ shared md (final_state (disc st)) = y) mds sts.

(** The norm is finite for every state: an order other than the infinities, or
    each process has entries of each included quantity. *)
Definition norm_defined (mds : list metadata) : Prop :=
  (exists p, ord = Ord p) \/
  Forall (fun md => Forall (fun q => mem (q_name q) excl = false ->
     start_index (q_array q) < end_index (q_array q)) (time_integration_quantities md)) mds.
End Joint.

(** One process alone: it solves with the given ODE and reduces over itself.
    Hooks and verdicts have no effect here. *)
Section Alone.
Context {T : Type} {N : Num T}.
Fixpoint alone {A} (o : ode T) (p : prog T A) : A :=
  match p with
  | Done _ a => a
  | Solve _ i h a k => alone o (k (compute_update o i h a))
  | Reduce _ x k => alone o (k x)
  | Jvp _ l i h a k => alone o (k (compute_update_derivative o l i h a))
  | Vjp _ l r h a k => alone o (k (compute_update_adjoint_derivative o l r h a))
  | Hook _ _ _ _ k => alone o k
  | Decide _ _ _ k => alone o k
  end.
End Alone.
