(** Kaps' problem: its right hand side, and the stage problem. *)
From Coq Require Import String.
From Coq Require Import List Bool Arith Reals Lia Lra.
From Verif Require Import Base Ext M_ODE M_Metadata M_Components SpecMetadata SpecRK SpecDeriv SpecComponents SpecConvergence SpecSmooth SpecLocal
  M_Packing SpecPacking SpecComponent SpecTotal M_Stage M_Kaps SpecKaps L_Vec L_Metadata L_Components L_Packing L_Packing3 L_Packing6 L_Deriv
  L_Stage L_Stage2 L_Convergence L_Series L_Local.
Import ListNotations.
Local Open Scope string_scope.
Local Open Scope R_scope.
Local Open Scope list_scope.

Definition kaps_md : metadata := Eval vm_compute in
  match first_of (metadata_of 1 kaps_variables ["y_1"; "y_2"] []) with Some m => m
  | None => {| time_variable := None; time_integration_array_size := 0; time_independent_input_size := 0;
               time_integration_quantities := []; time_independent_quantities := [] |} end.
Lemma kaps_metadata : metadata_of 1 kaps_variables ["y_1"; "y_2"] [] = Ok [kaps_md].
Proof. vm_compute. reflexivity. Qed.

Lemma len4 {A} (l : list A) : length l = 4%nat -> exists a b c d, l = [a; b; c; d].
Proof. destruct l as [|a [|b [|c [|d [|]]]]]; try discriminate; eauto. Qed.
Lemma len8 {A} (l : list A) : length l = 8%nat -> exists a b c d e f g h, l = [a; b; c; d; e; f; g; h].
Proof. destruct l as [|a [|b [|c [|d [|e [|f [|g [|h [|]]]]]]]]]; try discriminate; eauto 10. Qed.

Lemma residuals_eq eps h a x0 x1 x2 x3 z0 z1 z2 z3 :
  group_residuals eps {| x_step_size := h; x_stage_factor := a |} [x0; x1; x2; x3] [z0; z1; z2; z3]
  = Ok [x0 + h * x1 + h * a * z1 - z0; - (1 + 2 * eps) * z0 + z2 ^ 2 - eps * z1;
        x2 + h * x3 + h * a * z3 - z2; z0 - z2 - z2 ^ 2 - z3].
Proof. reflexivity. Qed.

Section Problem.
Variable epsilon : R.
Variable newton : exchange -> list R -> list R -> res (list R).
Variables kf kr : exchange -> list R -> list R -> list R -> list R -> res (list R).
Notation pb := (kaps_problem epsilon newton kf kr).

Lemma four_ok z z' : four z = Ok z' -> z' = z /\ length z = 4%nat.
Proof. unfold four. destruct (Nat.eqb_spec (length z) 4); [|discriminate]. now intros [= <-]. Qed.

Lemma kaps_nonlinear_inv h a i o i' o' : kaps_nonlinear newton h a i o = Ok (i', o') ->
  exists v xs g z, length v = 6%nat /\ length xs = 4%nat /\ length g = 4%nat /\ length z = 4%nat /\
    i = vec_of kaps_in v /\ o = vec_of kaps_out (xs ++ g) /\
    newton {| x_step_size := h; x_stage_factor := a |} xs g = Ok z /\
    i' = vec_of kaps_in (map snd (kaps1_in xs z) ++ map snd (kaps2_in xs z)) /\ o' = vec_of kaps_out (xs ++ z).
Proof.
  unfold kaps_nonlinear. intros H. destruct (has _ i) eqn:H1; [|discriminate]. destruct (has _ o) eqn:H2; [|discriminate].
  cbn [andb] in H. apply has_inv in H1 as (v & L1 & ->), H2 as (xo & L2 & ->). rewrite vec_of_flat in H by exact L2.
  apply bind_ok in H as (z & E & H). apply bind_ok in H as (z' & F & H). apply four_ok in F as (-> & L3). injection H as <- <-.
  cbn in L2. apply len8 in L2 as (? & ? & ? & ? & ? & ? & ? & ? & ->).
  exists v, [x; x0; x1; x2], [x3; x4; x5; x6], z. repeat (split; [first [reflexivity|assumption]|]). reflexivity.
Qed.

Lemma kaps_keeps : keeps_layout pb.
Proof.
  split; [|split]; cbn [kaps_problem p_nonlinear p_linear_fwd p_linear_rev].
  - intros h a i o i' o' H. apply kaps_nonlinear_inv in H as (v & xs & g & z & L1 & L2 & L3 & L4 & -> & -> & _ & -> & ->).
    rewrite !vec_of_layout; auto; cbn; rewrite ?app_length; lia.
  - intros h a i o x r x' r' H. unfold kaps_linear_fwd in H.
    destruct (has _ x) eqn:H1; [|discriminate]. destruct (has _ r) eqn:H2; [|discriminate]. destruct (has _ o) eqn:H3; [|discriminate].
    cbn [andb] in H. apply has_inv in H1 as (x1 & L1 & ->), H2 as (x2 & L2 & ->), H3 as (x3 & L3 & ->). rewrite !vec_of_flat in H by assumption.
    apply bind_ok in H as (u & U & H). apply bind_ok in H as (z & _ & H). apply bind_ok in H as (z' & F & H). apply four_ok in F as (-> & L4). injection H as <- <-.
    cbn in L1, L2, L3. apply len8 in L2 as (? & ? & ? & ? & ? & ? & ? & ? & ->). apply len8 in L3 as (? & ? & ? & ? & ? & ? & ? & ? & ->).
    cbn in U. injection U as <-.
    rewrite !vec_of_layout; auto; cbn; rewrite ?L4; reflexivity.
  - intros h a i o w y w' y' H. unfold kaps_linear_rev in H.
    destruct (has _ w) eqn:H1; [|discriminate]. destruct (has _ y) eqn:H2; [|discriminate]. destruct (has _ o) eqn:H3; [|discriminate].
    cbn [andb] in H. apply has_inv in H1 as (x1 & L1 & ->), H2 as (x2 & L2 & ->), H3 as (x3 & L3 & ->). rewrite !vec_of_flat in H by assumption.
    apply bind_ok in H as (z & _ & H). apply bind_ok in H as (z' & F & H). apply four_ok in F as (-> & L4).
    cbn in L1, L2, L3. apply len8 in L1 as (? & ? & ? & ? & ? & ? & ? & ? & ->). apply len8 in L3 as (? & ? & ? & ? & ? & ? & ? & ? & ->).
    apply len4 in L4 as (? & ? & ? & ? & ->).
    cbn in H. injection H as <- <-.
    rewrite !vec_of_layout; auto.
Qed.
Lemma kaps_formed x : well_formed (kaps_vectors x).
Proof. split; reflexivity. Qed.
Lemma kaps_sources : distinct_sources pb kaps_md.
Proof. unfold distinct_sources. cbv. repeat constructor; cbn; intuition discriminate. Qed.
Lemma kaps_outputs : distinct_outputs kaps_md.
Proof. unfold distinct_outputs. vm_compute. repeat constructor; cbn; intuition discriminate. Qed.
Lemma kaps_time x : scalar_time pb kaps_md (kaps_vectors x).
Proof. intros tv s y E. discriminate. Qed.

(** What a call of the ODE returns. *)
Lemma kaps_update x norm inp h a r lp :
  compute_update (openmdao_ode pb kaps_md (kaps_vectors x) norm) inp h a = Ok (r, lp) ->
  exists y1 y2 s1 s2 z0 z1 z2 z3, M_ODE.step_input inp = [y1; y2] /\ stage_input inp = [s1; s2] /\ independent_input inp = [] /\
    newton {| x_step_size := h; x_stage_factor := a |} [y1; s1; y2; s2] [x; x; x; x] = Ok [z0; z1; z2; z3] /\
    stage_update r = [z1; z3].
Proof.
  destruct inp as [y s p t]. cbn [compute_update openmdao_ode M_ODE.step_input stage_input independent_input]. intros H.
  destruct (_ && _)%bool eqn:Q; [|discriminate].
  apply andb_prop in Q as (Q & Q3). apply andb_prop in Q as (Q1 & Q2). apply Nat.eqb_eq in Q1, Q2, Q3.
  cbn in Q1, Q2, Q3. apply len2 in Q1 as (y1 & y2 & ->). apply len2 in Q2 as (s1 & s2 & ->). destruct p; [|discriminate].
  apply bind_pair_ok in H as (st' & r' & E & Er). injection Er as ->.
  unfold om_compute_update in E. apply bind_ok in E as (v & Ev & E).
  apply bind_pair_ok in E as (i' & o' & En & E). apply bind_ok in E as (upd & Eu & [= <- <- <-]). cbn [stage_update].
  cbv -[Rplus Rmult Ropp Rdiv Rinv IZR vec_of kaps_out] in Ev. rewrite !Rmult_1_l in Ev. injection Ev as <-.
  cbn [p_nonlinear kaps_problem] in En. apply kaps_nonlinear_inv in En as (w & xs & g & z & L1 & L2 & L3 & L4 & _ & Eo & En & _ & ->).
  apply len4 in L2 as (a0 & a1 & a2 & a3 & ->), L3 as (b0 & b1 & b2 & b3 & ->), L4 as (z0 & z1 & z2 & z3 & ->).
  cbv in Eo. injection Eo as <- <- <- <- <- <- <- <-.
  cbv in Eu. injection Eu as <-.
  exists y1, y2, s1, s2, z0, z1, z2, z3. auto.
Qed.
End Problem.
