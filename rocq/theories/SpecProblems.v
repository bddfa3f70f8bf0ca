(** Notions for statements about the files of a study. *)
From Coq Require Import String Ascii.
From Coq Require Import List Arith ZArith QArith Reals.
From Verif Require Import Base Ext M_Metadata M_Writer M_Problems SpecWriter.
Import ListNotations.
Local Open Scope list_scope.

(** Characters that differ at most in case, or are blank and underscore. *)
Definition capital_of (c d : ascii) : Prop :=
  exists k, (k < 26)%nat /\ c = ascii_of_nat (65 + k) /\ d = ascii_of_nat (97 + k).
Definition gap (c : ascii) : Prop := c = " "%char \/ c = "_"%char.
Definition alike (c d : ascii) : Prop := c = d \/ capital_of c d \/ capital_of d c \/ (gap c /\ gap d).

(** Names that differ only in commas, case, and blanks against underscores. *)
Inductive same_name : string -> string -> Prop :=
| same_end : same_name EmptyString EmptyString
| same_left s t : same_name s t -> same_name (String "," s) t
| same_right s t : same_name s t -> same_name s (String "," t)
| same_char c d s t : c <> ","%char -> d <> ","%char -> alike c d -> same_name s t -> same_name (String c s) (String d t).

Local Open Scope Q_scope.

(** The positive number [x], rounded to one significant digit with ties to even,
    is m * 10^e. *)
Definition shows (x : Q) (m e : Z) : Prop :=
  (1 <= m <= 9)%Z /\
  (if (m =? 1)%Z then (95 # 100) * 10 ^ e <= x
   else inject_Z (2 * m - 1) * 10 ^ e <= 2 * x /\ (inject_Z (2 * m - 1) * 10 ^ e == 2 * x -> Z.even m = true)) /\
  2 * x <= inject_Z (2 * m + 1) * 10 ^ e /\ (2 * x == inject_Z (2 * m + 1) * 10 ^ e -> Z.even m = true).

(** Two positive numbers with the same leading digit and power of ten. *)
Definition same_digit (x y : Q) : Prop := exists m e, shows x m e /\ shows y m e.

(** Runs of one kind; runs with fixed steps are told apart by one digit. *)
Definition same_run (t u : run_type) : Prop :=
  match t, u with
  | Named s, Named s' => s = s'
  | Step x, Step y => same_digit x y
  | _, _ => False
  end.
Definition positive_step (t : run_type) : Prop := match t with Step x => 0 < x | _ => True end.

(** [f] is the file of a run whose last recorded error measure is [e]. *)
Definition ends_with {T} (f : file T) (e : T) : Prop :=
  exists names shapes period emb (start : instant T) rs m,
    names_ok names emb /\ flagged emb start /\ Forall (flagged emb) rs /\
    Forall (fun r => map (@length T) (i_values r) = map (@prod) shapes) (start :: rs) /\ length names = length shapes /\
    ~ In "error_measure"%string names /\ last_recorded period (length rs) m /\
    f = result_file names shapes period start rs /\ i_error (nth m (start :: rs) start) = Some e.

(** The mean of a list. *)
Definition mean (l : list R) (m : R) : Prop := (m * INR (length l) = fold_right Rplus 0 l)%R.

(** [d] is everything up to the last "/". *)
Definition directory_of (path d : string) : Prop :=
  exists a b, path = (a ++ "/" ++ b)%string /\ d = (a ++ "/")%string /\ ~ In "/"%char (list_ascii_of_string b).

(** Every pair of two entries. *)
Definition pairwise {A} (P : A -> A -> Prop) (l : list A) : Prop :=
  forall i j x y, (i < j)%nat -> nth_error l i = Some x -> nth_error l j = Some y -> P x y.
