(** The construction of the shipped tableaux of
    /repo/src/rkopenmdao/butcher_tableaux.py. *)
From Coq Require Import String.
From Coq Require Import List Reals.
From Verif Require Import Base Ext M_Tableau M_Tableaux.
Import ListNotations.

(** The constructor call itself: [np.array] of the values, then
    ButcherTableau(...) or EmbeddedButcherTableau(...)
    (butcher_tableau.py:54-86, 251-272). *)
Definition shipped_init (x : shipped) : res (tableau R * list tableau_warning) :=
  let A := {| mrows := List.length (s_A x); mcols := List.length (nth 0 (s_A x) []);
              mdata := map (map evalR) (s_A x) |} in
  let b := map evalR (s_b x) in
  let c := map evalR (s_c x) in
  match s_hat x with
  | None => tableau_init A b (Some c) (Some (s_p x)) (s_name x)
  | Some (bh, phat) => embedded_init A b (map evalR bh) (Some c) (Some (s_p x)) (Some phat) (s_name x)
  end.
