(** The controllers of the catalogue in the loop with errors that are a power of
    the step size. *)
From Coq Require Import List Reals Lra Lia Bool QArith Qreals.
From Verif Require Import Base Ext M_State M_Controller M_Integrator SpecControl SpecAdaptive SpecLoop L_Loop2 L_Loop3 WitnessLoop.
Import ListNotations.
Local Open Scope R_scope.

(** ** C89: step sizes settle at the one whose error fits the tolerance *)
Theorem C89_settles : forall ctl p q s k cfg eps kappa C h h1 h2 hs D n h',
  settles ctl p q s k -> sane cfg eps kappa -> unlimited cfg -> 0 < C -> 0 < h -> 0 < h1 -> 0 < h2 ->
  closed_loop cfg C q (mk_plain (ctl p)) h h1 h2 hs -> nth_error hs n = Some h' ->
  let hb := balance C q eps kappa s in
  away hb h <= D -> away hb h1 <= D -> away hb h2 <= D ->
  0 < h' /\ away hb h' <= 4 * ((/ 2) ^ (S n / k) * D).
Proof. exact c89_settles. Qed.
Print Assumptions C89_settles.

(** Near it, all steps are accepted. *)
Theorem C89_accepted : forall ctl p q s k cfg eps kappa C h h1 h2 D n,
  settles ctl p q s k -> sane cfg eps kappa -> unlimited cfg -> 0 < C -> 0 < h -> 0 < h1 -> 0 < h2 ->
  let hb := balance C q eps kappa s in
  away hb h <= D -> away hb h1 <= D -> away hb h2 <= D -> 4 * D <= - ln kappa / (s * q) ->
  exists hs, length hs = n /\ closed_loop cfg C q (mk_plain (ctl p)) h h1 h2 hs.
Proof. exact c89_accepted. Qed.
Print Assumptions C89_accepted.

(** The same for the steps of an integrator. *)
Theorem C89_run : forall ctl p q s k op cfg eps kappa C st h h1 h2 l D n st',
  settles ctl p q s k -> open_ended op cfg -> sane cfg eps kappa -> unlimited cfg -> 0 < C -> 0 < h -> 0 < h1 -> 0 < h2 ->
  remembers st C q h h1 h2 -> at_once op C q (mk_plain (ctl p)) st l -> nth_error l n = Some st' ->
  let hb := balance C q eps kappa s in
  away hb h <= D -> away hb h1 <= D -> away hb h2 <= D ->
  exists h', suggestion st' = Fin h' /\ 0 < h' /\ away hb h' <= 4 * ((/ 2) ^ (S n / k) * D).
Proof. exact c89_run. Qed.
Print Assumptions C89_run.

(** Not so for three of the controllers: the integrator passes the order p of
    the method, the error measure behaves like h^(p + 1), and however close the
    step sizes are to the balance they swing away from it, further than the
    safety factor allows for. *)
Theorem C89_swings_refuted : forall ctl ps p cfg eps kappa C D,
  In (ctl, ps) swinging -> In p ps -> sane cfg eps kappa -> unlimited cfg -> kappa < 1 -> 0 < C -> 0 < D ->
  let hb := balance C (p + 1) eps kappa (/ p) in
  exists h h1 h2 hs h', 0 < h /\ 0 < h1 /\ 0 < h2 /\ away hb h <= D /\ away hb h1 <= D /\ away hb h2 <= D /\
  closed_loop cfg C (p + 1) (mk_plain (ctl p)) h h1 h2 hs /\ Forall (fun h => 0 < h) hs /\ In h' hs /\ p * - ln kappa / (p + 1) < away hb h'.
Proof. exact c89_swing. Qed.
Print Assumptions C89_swings_refuted.

(** The premises are met: [h_211] and the default configuration, with Heun's
    method and embedded Euler (order 1) on y' = 4 t, whose error measure is
    2 h^2. *)
Example C89_example : forall n, exists s k D h h1 h2 st l,
  settles (fun p => h_211 (Fin p)) 1 2 s k /\ open_ended (lop n) lcfg /\ sane lcfg (1 / 1000000) (95 / 100) /\ unlimited lcfg /\
  0 < h /\ 0 < h1 /\ 0 < h2 /\ h <> balance 2 2 (1 / 1000000) (95 / 100) s /\
  (let hb := balance 2 2 (1 / 1000000) (95 / 100) s in
   away hb h <= D /\ away hb h1 <= D /\ away hb h2 <= D /\ 4 * D <= - ln (95 / 100) / (s * 2)) /\
  remembers st 2 2 h h1 h2 /\ at_once (lop n) 2 2 (mk_plain (h_211 (Fin 1))) st l /\ length l = n.
Proof.
  intros n.
  assert (S0 : settles (fun p => h_211 (Fin p)) 1 2 (/ 2) 3).
  { split; [lra|]. left. exists (1 # 2)%Q. eexists. exists 2%Q. split; [left; reflexivity|]. split; [right; left; reflexivity|]. unfold Q2R; cbn. lra. }
  set (hb := balance 2 2 (1 / 1000000) (95 / 100) (/ 2)). assert (B : 0 < hb) by apply balance_pos.
  assert (L : ln (95 / 100) < 0) by (rewrite <- ln_1; apply ln_increasing; lra).
  set (D := - ln (95 / 100) / 4). assert (PD : 0 < D) by (unfold D; lra).
  assert (Pe : forall v, 0 < hb * exp v) by (intros; apply Rmult_lt_0_compat; [lra|apply exp_pos]).
  assert (A : forall v, Rabs v <= D -> away hb (hb * exp v) <= D).
  { intros v Hv. unfold away. replace (hb * exp v / hb) with (exp v) by (field; lra). rewrite ln_exp. exact Hv. }
  assert (A1 : Rabs D <= D) by (rewrite Rabs_right; lra). assert (A0 : Rabs 0 <= D) by (rewrite Rabs_R0; lra).
  assert (DD : 4 * D <= - ln (95 / 100) / (/ 2 * 2)) by (unfold D; right; field).
  destruct (C89_accepted _ _ _ _ _ lcfg _ _ 2 (hb * exp D) (hb * exp 0) (hb * exp 0) D n S0 lcfg_sane lcfg_unlimited ltac:(lra) (Pe _) (Pe _) (Pe _)
    (A _ A1) (A _ A0) (A _ A0) DD) as (hs & Len & CL).
  assert (Ph : Forall (fun h => 0 < h) hs).
  { apply Forall_forall. intros h' Hh. apply In_nth_error in Hh as (m & Hm).
    apply (C89_settles _ _ _ _ _ lcfg _ _ 2 (hb * exp D) (hb * exp 0) (hb * exp 0) hs D m h' S0 lcfg_sane lcfg_unlimited ltac:(lra) (Pe _) (Pe _) (Pe _) CL Hm
      (A _ A1) (A _ A0) (A _ A0)). }
  destruct (lop_loop n hs _ (lstate (hb * exp D) (hb * exp 0) (hb * exp 0)) _ _ _ 3 0 (Pe _) (lstate_form _ _ _) (lstate_remembers _ _ _) Ph CL) as (l & L1 & L2).
  exists (/ 2), 3%nat, D, (hb * exp D), (hb * exp 0), (hb * exp 0), (lstate (hb * exp D) (hb * exp 0) (hb * exp 0)), l.
  split; [exact S0|]. split; [apply lop_open|]. split; [exact lcfg_sane|]. split; [exact lcfg_unlimited|].
  do 3 (split; [apply Pe|]). split.
  { fold hb. intros X. assert (1 < exp D) by (rewrite <- exp_0; apply exp_increasing; lra). nra. }
  split; [cbv zeta; fold hb; auto|]. split; [apply lstate_remembers|]. split; [exact L1|].
  apply (f_equal (@length _)) in L2. rewrite !map_length in L2. congruence.
Qed.

(** ... and with [pc] in place of [h_211], steps of the same integrator swing
    away from the balance. *)
Example C89_swing_example : forall D, 0 < D -> exists n h h1 h2 st l st' h',
  let hb := balance 2 2 (1 / 1000000) (95 / 100) (/ 1) in
  away hb h <= D /\ away hb h1 <= D /\ away hb h2 <= D /\ remembers st 2 2 h h1 h2 /\
  at_once (lop n) 2 2 (mk_plain (pc (Fin 1))) st l /\ In st' l /\ suggestion st' = Fin h' /\ - ln (95 / 100) / 2 < away hb h'.
Proof.
  intros D HD.
  destruct (C89_swings_refuted (fun p => pc (Fin p)) [1; 2] 1 lcfg _ _ 2 D ltac:(left; reflexivity) ltac:(left; reflexivity) lcfg_sane lcfg_unlimited
    ltac:(lra) ltac:(lra) HD) as (h & h1 & h2 & hs & h' & P0 & P1 & P2 & A0 & A1 & A2 & CL & Ph & I & F).
  replace (1 + 1) with 2 in * by ring.
  destruct (lop_loop (length hs) hs _ (lstate h h1 h2) _ _ _ 3 0 P0 (lstate_form _ _ _) (lstate_remembers _ _ _) Ph CL) as (l & L1 & L2).
  apply (in_map (@Fin R)) in I. rewrite <- L2 in I. apply in_map_iff in I as (st' & E & I).
  exists (length hs), h, h1, h2, (lstate h h1 h2), l, st', h'. cbv zeta. do 3 (split; [assumption|]). split; [apply lstate_remembers|].
  split; [exact L1|]. split; [exact I|]. split; [exact E|]. lra.
Qed.
