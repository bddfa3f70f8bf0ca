(** What a process prints about the steps of its calls: the callbacks of
    callback.py:79-137 and the default callback lists of
    runge_kutta_integrator.py (RKI) 266-289.

    Simplifications: a printed line is kept as its contents, not as text; the
    readings of the clock (time.perf_counter) are numbered over the whole
    process and given by a function; the callbacks of one process are separate
    objects, as the default ones are; other printing (banners around the calls,
    RKI:251, 291, 391, 405, 440, 453, 568, 596, 660, 684, 766, 795, 833) is left
    out. *)
From Coq Require Import String List.
From Verif Require Import Base M_State M_Integrator.
Import ListNotations.

Section Console.
Context {T : Type} {N : Num T}.

(** callback.py:99, 108, 137. *)
Inductive line : Type :=
| Starting (step : nat) (name : string)
| Finishing (step : nat) (name : string)
| Took (seconds : T).

(** The two classes of callback.py:79-137. *)
Inductive builtin : Type :=
| IterationLogging (logged_function_name : string)
| WallClockMeasurement.

(** RKI:266-276. *)
Definition func_name (m : mode) : string :=
  match m with
  | Compute => "compute"
  | Fwd => "compute_jacvec_product_fwd"
  | Rev => "compute_jacvec_product_rev"
  end.

(** RKI:277-289; [option] are the values of the three options. *)
Definition setup_callbacks (rank : nat) (option : mode -> option (list builtin)) (m : mode) : list builtin :=
  match option m with
  | Some l => l
  | None => if Nat.eqb rank 0 then [IterationLogging (func_name m); WallClockMeasurement] else []
  end.

(** For the integrator these callbacks are hooks that return. *)
Definition as_callback (b : builtin) : callback T := {|
  before_iteration := fun _ _ => Ok tt; after_iteration := fun _ _ => Ok tt |}.

(** Number of clock readings so far, [_before_time] of the callback at a
    position of a list, and the lines printed so far (oldest first). *)
Record console : Type := {
  readings : nat;
  before_time : mode -> nat -> T;
  printed : list line
}.

Definition mode_eqb (m m' : mode) : bool :=
  match m, m' with
  | Compute, Compute | Fwd, Fwd | Rev, Rev => true
  | _, _ => false
  end.
Definition print (x : line) (c : console) : console := {|
  readings := readings c; before_time := before_time c; printed := printed c ++ [x] |}.

Variable clock : nat -> T.

(** callback.py:92-99 and 119-126. *)
Definition call_before (b : builtin) (m : mode) (i step : nat) (c : console) : console :=
  match b with
  | IterationLogging name => print (Starting step name) c
  | WallClockMeasurement => {|
      readings := S (readings c);
      before_time := fun m' i' => if andb (mode_eqb m' m) (Nat.eqb i' i) then clock (readings c) else before_time c m' i';
      printed := printed c |}
  end.

(** callback.py:101-108 and 128-137. *)
Definition call_after (b : builtin) (m : mode) (i step : nat) (c : console) : console :=
  match b with
  | IterationLogging name => print (Finishing step name) c
  | WallClockMeasurement =>
      let after_time := clock (readings c) in
      print (Took (nsub after_time (before_time c m i)))
        {| readings := S (readings c); before_time := before_time c; printed := printed c |}
  end.

(** What an invocation of a hook (M_Integrator.v, [event]) does. *)
Definition show (lists : mode -> list builtin) (c : console) (e : event T) : console :=
  match e with
  | Before m i n _ => match nth_error (lists m) i with Some b => call_before b m i n c | None => c end
  | After m i n _ => match nth_error (lists m) i with Some b => call_after b m i n c | None => c end
  end.
Definition console_after (lists : mode -> list builtin) (l : list (event T)) (c : console) : console :=
  fold_left (show lists) l c.
End Console.
Arguments line T : clear implicits.
Arguments console T : clear implicits.
