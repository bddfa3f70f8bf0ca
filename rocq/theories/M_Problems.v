(** Files of a convergence study (/repo/src/rkopenmdao/utils/problems.py, cited
    as PB, and /repo/examples/convergence_study/integration_scripts, cited as
    EX).

    Simplifications: strings are bytes and [lower] changes ASCII letters only;
    a path is the string [folder/kind/name.h5], names with "/" are not split
    into parts; a float is the rational number it stands for (no inf, no nan);
    of the file system only the named directories and result files are kept. *)
From Coq Require Import String Ascii.
From Coq Require Import List Bool Arith ZArith QArith SpecFloat.
From Verif Require Import Base M_Heap M_Writer Float64.
Import ListNotations.
Local Open Scope string_scope.
Local Open Scope nat_scope.
Local Open Scope list_scope.

(** *** Names *)

(** [str.lower] on one character (PB:73, 79). *)
Definition lower_char (c : ascii) : ascii :=
  let n := nat_of_ascii c in if (65 <=? n) && (n <=? 90) then ascii_of_nat (n + 32) else c.
(** [.replace(" ", "_").replace(",", "").lower()] (PB:73, 76-80). *)
Fixpoint normal (s : string) : string :=
  match s with
  | EmptyString => EmptyString
  | String c s' =>
    if Ascii.eqb c "," then normal s'
    else String (if Ascii.eqb c " " then "_"%char else lower_char c) (normal s')
  end.

(** *** The format [:.0E] (PB:77) *)

(** Scale n/d up to at least 1 and down to less than 10, counting the powers of
    ten. *)
Fixpoint scale_up (fuel : nat) (n d e : Z) : Z * Z * Z :=
  match fuel with
  | O => (n, d, e)
  | S f => if (n <? d)%Z then scale_up f (10 * n) d (e - 1) else (n, d, e)
  end.
Fixpoint scale_down (fuel : nat) (n d e : Z) : Z * Z * Z :=
  match fuel with
  | O => (n, d, e)
  | S f => if (10 * d <=? n)%Z then scale_down f n (10 * d) (e + 1) else (n, d, e)
  end.
(** Nearest integer, ties to even. *)
Definition round_even (n d : Z) : Z :=
  let q := (n / d)%Z in
  let r := (n mod d)%Z in
  match (2 * r ?= d)%Z with
  | Lt => q
  | Gt => (q + 1)%Z
  | Eq => if Z.even q then q else (q + 1)%Z
  end.
(** One significant digit and the power of ten of n/d > 0. *)
Definition one_digit (n d : Z) : Z * Z :=
  let '(n1, d1, e1) := scale_up (Z.to_nat (Z.log2_up d)) n d 0 in
  let '(n2, d2, e2) := scale_down (Z.to_nat (Z.log2 n1)) n1 d1 e1 in
  let m := round_even n2 d2 in
  if (m =? 10)%Z then (1, e2 + 1)%Z else (m, e2).
(** At least two digits for the exponent. *)
Definition exponent_text (e : Z) : string :=
  ((if (e <? 0)%Z then "-" else "+") ++
   (if (Z.abs e <? 10)%Z then "0" else "") ++ str (Z.to_nat (Z.abs e)))%string.
Definition format_0E (x : Q) : string :=
  let n := Qnum x in
  let d := Zpos (Qden x) in
  if (n =? 0)%Z then "0E+00"
  else
    let '(m, e) := one_digit (Z.abs n) d in
    ((if (n <? 0)%Z then "-" else "") ++ str (Z.to_nat m) ++ "E" ++ exponent_text e)%string.

(** *** [Problem.get_file_path] (PB:63-82) *)

(** The second argument: a string, a float or something else. *)
Inductive run_type : Type :=
| Named (s : string)
| Step (x : Q)
| Other.

Definition in_folder (folder kind name : string) : string := (folder ++ "/" ++ kind ++ "/" ++ name ++ ".h5")%string.

Definition get_file_path (folder butcher_name : string) (t : run_type) : res (string * string) :=
  match t with
  | Named s =>
    if String.eqb s "adaptive" || String.eqb s "avg_homogeneous" then
      let name := normal butcher_name in Ok (name, in_folder folder s name)
    else Err ValueError
  | Step x =>
    let name := normal ("data_" ++ format_0E x ++ "_" ++ butcher_name)%string in
    Ok (name, in_folder folder "homogeneous" name)
  | Other => Err ValueError
  end.

Section Files.
Context {T : Type} {N : Num T}.

(** Result files by path. *)
Definition files : Type := string -> option (file T).

(** PB:84-87, [file_exists]. *)
Definition file_exists (fs : files) (folder butcher_name : string) (t : run_type) : res bool :=
  let* p := get_file_path folder butcher_name t in
  Ok (match fs (snd p) with Some _ => true | None => false end).

(** PB:92-96: the last local errors, one file after the other. *)
Fixpoint last_errors (fs : files) (folder butcher_name : string) (steps : list Q) : res (list T) :=
  match steps with
  | [] => Ok []
  | h :: steps' =>
    let* p := get_file_path folder butcher_name (Step h) in
    let* e := read_last_local_error (fs (snd p)) in
    let* es := last_errors fs folder butcher_name steps' in
    Ok (e :: es)
  end.

(** PB:89-99, [compute_tolerance].  [np.average]: sum from the left over the
    number of entries; FileNotFoundError is the [FileError] of the reader. *)
Definition compute_tolerance (fs : files) (folder butcher_name : string) (steps : list Q) : res T :=
  match last_errors fs folder butcher_name steps with
  | Ok es => Ok (ndiv (fold_left nadd es n0) (nlit (inject_Z (Z.of_nat (length es)))))
  | Err FileError => Ok (nlit (1 # 1000000))
  | Err e => Err e
  end.

(** EX/avg_homogeneous.py:11-14, [count_keys]. *)
Definition count_keys (fs : files) (path : string) : res nat :=
  match fs path with None => Err FileError | Some f => Ok (length f) end.

(** EX/avg_homogeneous.py:26-31: number and size of the steps. *)
Definition average_steps (fs : files) (folder butcher_name : string) (time_objective : T) : res (nat * T) :=
  let* p := get_file_path folder butcher_name (Named "adaptive") in
  let* steps := count_keys fs (snd p) in
  Ok (steps, ndiv time_objective (nlit (inject_Z (Z.of_nat steps)))).
End Files.
Arguments files T : clear implicits.

(** *** [generate_path] (PB:24-35) *)

(** [path[-3::]], [path[-4::]]. *)
Definition tail_of (k : nat) (s : string) : string := substring (String.length s - k) k s.
(** [path[: path.rfind("/") + 1]]. *)
Fixpoint directory (s : string) : string :=
  match s with
  | EmptyString => EmptyString
  | String c s' =>
    match directory s' with
    | EmptyString => if Ascii.eqb c "/" then String c EmptyString else EmptyString
    | d => String c d
    end
  end.

(** The directories there are. *)
Definition directories : Type := list string.
Definition there (d : string) (ds : directories) : bool := existsb (String.eqb d) ds.
(** [os.makedirs]: no directory of the name "" can be made, and none that is
    there already. *)
Definition makedirs (d : string) (ds : directories) : directories * res unit :=
  if String.eqb d "" || there d ds then (ds, Err FileError) else (d :: ds, Ok tt).

(** Whether directories are looked at (PB:29). *)
Definition is_output (path : string) : bool :=
  String.eqb (tail_of 3 path) ".h5" || String.eqb (tail_of 4 path) ".png".
Definition generate_path (path : string) (ds : directories) : directories * res string :=
  if is_output path then
    if there (directory path) ds then (ds, Ok path)
    else match makedirs (directory path) ds with
         | (ds', Ok _) => (ds', Ok path)
         | (ds', Err e) => (ds', Err e)
         end
  else (ds, Ok path).

(** Several processes call [generate_path] with one path, as in a parallel
    [execute] (PB:137-139): each looks (PB:32), and makes the directory later
    (PB:33). *)
Inductive stage : Type := Start | Missing | Done (r : res unit).
Definition one_move (path : string) (ds : directories) (s : stage) : directories * stage :=
  match s with
  | Start =>
    if is_output path then if there (directory path) ds then (ds, Done (Ok tt)) else (ds, Missing)
    else (ds, Done (Ok tt))
  | Missing => let (ds', r) := makedirs (directory path) ds in (ds', Done r)
  | Done r => (ds, Done r)
  end.
(** The processes move in the given order. *)
Fixpoint set_nth {A} (k : nat) (x : A) (l : list A) : list A :=
  match l, k with
  | [], _ => []
  | _ :: l', O => x :: l'
  | y :: l', S k' => y :: set_nth k' x l'
  end.
Fixpoint moves (path : string) (order : list nat) (ds : directories) (ps : list stage) : directories * list stage :=
  match order with
  | [] => (ds, ps)
  | k :: order' =>
    match nth_error ps k with
    | None => moves path order' ds ps
    | Some s => let (ds', s') := one_move path ds s in moves path order' ds' (set_nth k s' ps)
    end
  end.

(** *** The shipped studies *)

(** PB:187-219, [prothero_robinson_problem]: step sizes and end time. *)
Definition prothero_steps : list Q := [1 # 1000; 2 # 1000; 4 # 1000; 5 # 1000; 1 # 100]%Q.
Definition prothero_end : Q := 10%Q.
(** PB:222-250, [kaps_problem]. *)
Definition kaps_steps : list Q := [1 # 100; 2 # 100; 4 # 100; 5 # 100; 1 # 10]%Q.
Definition kaps_end : Q := 1%Q.

(** *** The scripts *)

(** EX/homogeneous.py:19-31: one run after the other; a run replaces the file of
    its path (file_writer.py opens it with "w").  [run h] is the file a run with
    step size [h] leaves. *)
Fixpoint homogeneous {T} (folder butcher_name : string) (run : Q -> file T) (steps : list Q) (fs : files T) : files T :=
  match steps with
  | [] => fs
  | h :: steps' =>
    homogeneous folder butcher_name run steps'
      (match get_file_path folder butcher_name (Step h) with
       | Ok p => fun q => if String.eqb q (snd p) then Some (run h) else fs q
       | Err _ => fs
       end)
  end.

(** [int(x)] for a float: truncation towards zero; inf (OverflowError) and nan
    raise. *)
Definition int_of (x : spec_float) : res Z :=
  match x with
  | S754_zero _ => Ok 0%Z
  | S754_finite s m e =>
    let a := (if 0 <=? e then Zpos m * 2 ^ e else Zpos m / 2 ^ (- e))%Z in Ok (if s then (- a)%Z else a)
  | _ => Err ValueError
  end.
(** EX/homogeneous.py:24-26, in double precision. *)
Definition number_of_steps (time_objective step_size : spec_float) : res Z := int_of (ndiv time_objective step_size).
