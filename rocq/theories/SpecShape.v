(** Shape predicates used as hypotheses of the step theorems: array sizes that
    agree with the tableau and the ODE.  Properties_Step.v shows that every
    constructed tableau and every freshly created state satisfies them. *)
From Coq Require Import List Reals.
From Verif Require Import Base Ext M_Tableau M_State.
Import ListNotations.
Open Scope R_scope.

Record tableau_wf {T} (bt : tableau T) : Prop := {
  tw_A : length (t_A bt) = t_stages bt;
  tw_rows : Forall (fun r => length r = t_stages bt) (t_A bt);
  tw_b : length (t_b bt) = t_stages bt;
  tw_c : length (t_c bt) = t_stages bt;
  tw_hat : match t_hat bt with None => True | Some (bh, _) => length bh = t_stages bt end
}.

Record shaped {T} (S n ni no nl : nat) (s : rkstate T) : Prop := {
  sh_start : length (start_state s) = n;
  sh_ss : length (stage_states s) = S;
  sh_ssr : Forall (fun r => length r = n) (stage_states s);
  sh_su : length (stage_updates s) = S;
  sh_sur : Forall (fun r => length r = n) (stage_updates s);
  sh_final : length (final_state s) = n;
  sh_ind : length (independent_inputs s) = ni;
  sh_sio : length (stage_independent_outputs s) = S;
  sh_sior : Forall (fun r => length r = no) (stage_independent_outputs s);
  sh_fio : length (final_independent_outputs s) = no;
  sh_st : length (stage_times s) = S;
  sh_lp : length (linearization_points s) = S;
  sh_lpr : Forall (fun r => length r = nl) (linearization_points s)
}.

(** No entry above the diagonal. *)
Definition no_upper (bt : tableau R) : Prop :=
  forall i j, (i < j < t_stages bt)%nat -> entry (t_A bt) i j = 0.

(** Two tableaux that differ at most above the diagonal. *)
Record same_lower_part {T} {N : Num T} (bt bt' : tableau T) : Prop := {
  sl_stages : t_stages bt = t_stages bt';
  sl_A : forall i j, (j <= i < t_stages bt)%nat -> entry (t_A bt) i j = entry (t_A bt') i j;
  sl_b : t_b bt = t_b bt';
  sl_c : t_c bt = t_c bt';
  sl_hat : t_hat bt = t_hat bt'
}.
