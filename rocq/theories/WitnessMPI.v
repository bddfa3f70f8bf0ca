(** Concrete problems on several processes used in the Examples and refutations
    about norms and joint runs; not part of the model. *)
From Coq Require Import String.
From Coq Require Import List Bool Arith Reals Lia Lra QArith.
From Verif Require Import Base Ext M_Tableau M_State M_ODE M_Step M_Controller M_Measure M_Integrator M_Metadata M_MPI
  SpecMetadata SpecMPI L_MPI4 L_MPI5 Witness WitnessRun.
Import ListNotations.
Local Open Scope string_scope.
Local Open Scope nat_scope.
Local Open Scope list_scope.

Definition out (n q : string) (parts : list (option (list nat))) (gs : list nat) : variable :=
  {| v_name := n; v_output := true; v_tags := [q; "stage_output_var"]; v_parts := parts; v_global_shape := gs |}.

(** Outputs only, one per quantity. *)
Lemma one_tagged v : v_output v = true -> v_tags v = ["x"; "stage_output_var"] -> well_tagged [v] ["x"].
Proof.
  intros O Tg; constructor; unfold has, stage_output, has; cbn [In].
  - intros q [<-|[]]; exists v; split; [|unfold has; rewrite Tg; cbn; auto].
    exists [], []; repeat split; auto; unfold has; rewrite Tg; cbn; auto.
  - intros q u _ [<-|[]] _ _; exact O.
  - intros u q q' _ _ [<-|[]] [<-|[]]; reflexivity.
  - intros q r [<-|[]]; left; split; constructor; try constructor;
      unfold of_quantity, step_input, accumulated_input, stage_output, has; rewrite Tg; cbn; intuition congruence.
Qed.

(** A distributed quantity of three entries and a quantity with a copy on each
    of two processes. *)
Definition two : list variable := [out "xs" "x" [Some [1]; Some [2]] [3]; out "ys" "y" [Some [1]; Some [1]] [1]].
Lemma two_tagged : well_tagged two ["x"; "y"].
Proof.
  constructor; unfold has, stage_output, has; cbn [In].
  - intros q [<-|[<-|[]]].
    + exists (out "xs" "x" [Some [1]; Some [2]] [3]); split; [|cbn; auto].
      exists [], [out "ys" "y" [Some [1]; Some [1]] [1]]; repeat split; cbn; auto.
      repeat constructor; unfold has; cbn; intuition discriminate.
    + exists (out "ys" "y" [Some [1]; Some [1]] [1]); split; [|cbn; auto].
      exists [out "xs" "x" [Some [1]; Some [2]] [3]], []; repeat split; cbn; auto.
      repeat constructor; unfold has; cbn; intuition discriminate.
  - intros q u _ [<-|[<-|[]]] _ _; reflexivity.
  - intros u q q' [<-|[<-|[]]] _; unfold has; cbn; intuition congruence.
  - intros q r [<-|[<-|[]]]; left; split; repeat constructor;
      unfold of_quantity, step_input, accumulated_input, stage_output, has; cbn; intuition discriminate.
Qed.

Definition mds_of (r : res (list metadata)) : list metadata := match r with Ok l => l | Err _ => [] end.
Definition two_mds : list metadata := Eval vm_compute in mds_of (metadata_of 2 two ["x"; "y"] []).
Lemma two_ok : metadata_of 2 two ["x"; "y"] [] = Ok two_mds.
Proof. vm_compute; reflexivity. Qed.
Definition two_procs {T} (a b c d : T) : list (metadata * list T) := combine two_mds [[a; d]; [b; c; d]].

Lemma two_assembled {T} (a b c d : T) : assembled [] (two_procs a b c d) [a; b; c; d].
Proof.
  eexists _, _, _, [[a; b; c]; [d]]; split; [reflexivity|]; split; [|reflexivity].
  constructor; [|constructor; [|constructor]]; split.
  - repeat constructor; eexists; split; reflexivity.
  - right; reflexivity.
  - repeat constructor; eexists; split; reflexivity.
  - left; repeat constructor; eexists; split; reflexivity.
Qed.
Lemma two_fitting {T} (a b c d : T) : fitting (two_procs a b c d).
Proof. repeat constructor. Qed.
Lemma two_no_gap {T} (a b c d : T) : Forall (no_gap []) (two_procs a b c d).
Proof. repeat constructor; discriminate. Qed.

(** *** Orders and layouts for which the norm is something else *)
Section Norms.
Local Open Scope R_scope.
Definition single : list variable := [out "xs" "x" [Some [2%nat]] [2%nat]].
Definition single_mds : list metadata := Eval vm_compute in mds_of (metadata_of 1 single ["x"] []).

Lemma c36_neg_refuted : exists mds procs x l, metadata_of 1 single ["x"] [] = Ok mds /\ well_tagged single ["x"] /\
  map fst procs = mds /\ fitting procs /\ assembled [] procs x /\
  compute_state_norms OrdNegInf [] procs = Ok l /\ forall v, In v l -> ~ is_norm OrdNegInf x v.
Proof.
  exists single_mds, (combine single_mds [[1; 2]]), [1; 2].
  assert (exists l, compute_state_norms OrdNegInf [] (combine single_mds [[1; 2]]) = Ok l) as (l & E) by (eexists; reflexivity).
  exists l; split; [vm_compute; reflexivity|]; split; [apply one_tagged; reflexivity|]; split; [reflexivity|].
  split; [repeat constructor|]; split.
  - eexists _, _, _, [[1; 2]]; split; [reflexivity|]; split; [|reflexivity].
    constructor; [|constructor]; split; [repeat constructor; eexists; split; reflexivity|left; repeat constructor; eexists; split; reflexivity].
  - split; [exact E|]; intros v I; apply c36_neg in E; rewrite Forall_forall in E; rewrite (E _ I).
    cbn; rewrite !Rabs_pos_eq by lra; intros [[X|[X|[]]] _]; lra.
Qed.

(** A quantity of one entry with copies on two of three processes. *)
Definition partly : list variable := [out "xs" "x" [Some [1%nat]; Some [1%nat]; None] [1%nat]].
Definition partly_mds : list metadata := Eval vm_compute in mds_of (metadata_of 3 partly ["x"] []).

Lemma c36_partly_refuted : exists mds procs l, metadata_of 3 partly ["x"] [] = Ok mds /\ well_tagged partly ["x"] /\
  map fst procs = mds /\ fitting procs /\
  (forall r v, nth_error (v_parts (out "xs" "x" [Some [1%nat]; Some [1%nat]; None] [1%nat])) r = Some (Some v) ->
     option_map (portion 0) (nth_error procs r) = Some [3]) /\
  compute_state_norms (Ord 1) [] procs = Ok l /\ forall v, In v l -> ~ is_norm (Ord 1) [3] v.
Proof.
  exists partly_mds, (combine partly_mds [[3]; [3]; []]), [6; 6; 6].
  split; [vm_compute; reflexivity|]; split; [apply one_tagged; reflexivity|]; split; [reflexivity|].
  split; [repeat constructor|]; split.
  - intros [|[|[|[|r]]]] v; cbn; intros H; try discriminate H; reflexivity.
  - assert (E1 : forall x, 0 <= x -> power x 1 = x) by (intros; rewrite power_rpow; apply rpow_1; assumption).
    split.
    + unfold compute_state_norms, combine, partly_mds, own_intermediates; cbn [map fst snd time_integration_quantities scan q_name mem existsb q_array].
      unfold partial_norm_intermediate; cbn [start_index end_index slice firstn skipn Nat.sub np_norm exponent].
      cbn [neqb RNum n0 n1]; rewrite !(eqb_neq 1 0) by lra; rewrite !eqb_refl; cbn [bind map distributed fst snd].
      cbn [vsum fold_left map nadd RNum n0 n1 add_to_intermediate].
      assert (A : @nabs R RNum 3 = 3) by (rewrite nabs_Rabs; apply Rabs_pos_eq; lra).
      rewrite A, !E1 by lra; cbn [all_ok bind map fst snd].
      unfold finish_norm; cbn [allreduce fold_left add_to_intermediate nadd RNum root_exponent neqb n0 n1 ndiv].
      rewrite !(eqb_neq 1 0) by lra.
      replace (1 / 1) with 1 by lra; rewrite E1 by lra.
      replace (0 + (0 + 3) + (0 + (0 + 3)) + (0 + 0) + 0) with 6 by lra.
      repeat f_equal; lra.
    + intros v I; assert (v = 6) as -> by (cbn in I; intuition congruence).
      intros [[X _]|[_ X]]; [lra|].
      cbn in X; rewrite (rpow_1 (Rabs 3)) in X by apply Rabs_pos; rewrite Rabs_pos_eq, Rplus_0_r in X by lra.
      replace (1 / 1) with 1 in X by lra; rewrite rpow_1 in X; lra.
Qed.
End Norms.

(** *** Joint runs *)
(** Accept when the measure is at most [m]. *)
Definition accepting {T} {N : Num T} (m : T) (c : unit) (q : call_args T) : unit * res (status T) :=
  (c, Ok {| step_size_suggestion := delta_t q; acceptance := nleb (error_measure q) m |}).

(** Heun's method with embedded Euler, measured relative to the state. *)
Definition mop (m : measurer Q) : options Q unit := {|
  o_bt := heun; o_ode := gode never never; o_ckpt := NoCheckpointer; o_adaptive := true; o_step := 1%Q;
  o_crit := PredefinedNumberOfSteps 3; o_inf := 0%Q; o_meas := m; o_tol := 1%Q; o_ctl := accepting (1 # 4)%Q;
  o_callbacks := fun _ => [quiet_cb]; retry_limit := 10; loop_limit := 10 |}.

(** The state of a process before the first step. *)
Definition fresh (y : list Q) : tistate Q := {|
  disc := w_final_state y (rk_init true (length y) 0 0 2 0); suggestion := 1%Q; step_hist := [0; 0]%Q; err_hist := [0; 0]%Q |}.

Lemma fresh_sized md y : length y = time_integration_array_size md -> sized heun md (disc (fresh y)).
Proof.
  intros E; constructor; cbn; auto; [|discriminate].
  repeat constructor; unfold vzeros; rewrite repeat_length; exact E.
Qed.

Definition two_states : list (tistate Q) := [fresh [2; 5]; fresh [1; 3; 5]]%Q.
Lemma two_together : together [] heun two_mds two_states.
Proof.
  exists 1%Q, [0; 0]%Q, [0; 0]%Q, 0%Q, [[5%Q]].
  constructor; [|constructor; [|constructor]]; (split; [apply fresh_sized; reflexivity|repeat split]).
Qed.

(** An answer of the solvers. *)
Definition ans (u : list Q) : ode_out Q * list Q := ({| stage_update := u; stage_state := u; independent_output := [] |}, []).

(** Two processes step by step. *)
Section Two.
Context {A : Type}.
Variable ord : order Q.
Variable mds : list metadata.

Inductive kind : Type := KDone | KSolve | KReduce | KJvp | KVjp | KHook (m : mode) (b : bool) (s : nat) | KDecide (b : bool).
Definition kind_of (p : prog Q A) : kind :=
  match p with
  | Done _ _ => KDone | Solve _ _ _ _ _ => KSolve | Reduce _ _ _ => KReduce
  | Jvp _ _ _ _ _ _ => KJvp | Vjp _ _ _ _ _ _ => KVjp | Hook _ m b s _ => KHook m b s | Decide _ _ b _ => KDecide b
  end.
Definition go (v : Q) (r : res (ode_out Q * list Q)) (p : prog Q A) : prog Q A :=
  match p with
  | Done _ _ => p | Solve _ _ _ _ k => k r | Reduce _ _ k => k v
  | Jvp _ _ _ _ _ k => k (Err SolverError) | Vjp _ _ _ _ _ k => k (Err SolverError) | Hook _ _ _ _ k => k | Decide _ _ _ k => k
  end.
Definition reduced (p : prog Q A) : Q := match p with Reduce _ x _ => x | _ => 0%Q end.

Lemma hook_move v r m b s p q : kind_of p = KHook m b s -> kind_of q = KHook m b s -> move ord [] mds [p; q] [go v r p; go v r q].
Proof.
  destruct p; try discriminate; destruct q; try discriminate; cbn; intros E E'; injection E as -> -> ->; injection E' as -> -> ->.
  exact (move_hook ord [] mds m b s [p; q]).
Qed.
Lemma solve_move v a a' p q : consistent [] mds [a; a'] -> kind_of p = KSolve -> kind_of q = KSolve ->
  move ord [] mds [p; q] [go v (Ok a) p; go v (Ok a') q].
Proof.
  intros K; destruct p as [|i h x k| | | | |]; try discriminate; destruct q as [|i' h' x' k'| | | | |]; try discriminate; intros _ _; cbn.
  exact (move_solve ord [] mds [(i, h, x, k); (i', h', x', k')] [a; a'] K).
Qed.
Lemma reduce_move r p q : kind_of p = KReduce -> kind_of q = KReduce ->
  let v := allreduce ord [reduced p; reduced q] in move ord [] mds [p; q] [go v r p; go v r q].
Proof.
  destruct p as [| |x k| | | |]; try discriminate; destruct q as [| |x' k'| | | |]; try discriminate; intros _ _; cbn [go reduced].
  exact (move_reduce ord [] mds [(x, k); (x', k')]).
Qed.
Lemma is_reduce p : kind_of p = KReduce -> exists x k, p = Reduce _ x k.
Proof. destruct p; try discriminate; eauto. Qed.
Lemma is_done p : kind_of p = KDone -> exists x, p = Done _ x.
Proof. destruct p; try discriminate; eauto. Qed.
Lemma is_decide b p : kind_of p = KDecide b -> exists h k, p = Decide _ h b k.
Proof. destruct p; try discriminate; cbn; intros E; injection E as ->; eauto. Qed.

(** Processes at different operations cannot go on. *)
Lemma stuck x k a ps : ~ move ord [] mds [Reduce _ x k; Done _ a : prog Q A] ps.
Proof.
  intros Mv; inversion Mv as [qs answers K E|qs e E|qs E|qs answers K E|qs e E|qs answers K E|qs e E|mo b s ks E|qs E];
    try (destruct qs as [|q0 [|q1 qs]]; discriminate).
  destruct ks as [|q0 ks]; discriminate.
Qed.
End Two.

Definition start (ord : order Q) (m : measurer Q) (md : metadata) (st : tistate Q) :=
  p_forward (mop m) ord [] md 5 0 tt st.
Definition after_hook (p : prog Q (unit * tistate Q * res unit)) := go 0%Q (Err SolverError) p.
Definition after_solve (u u' : list Q) (p : prog Q (unit * tistate Q * res unit)) :=
  go 0%Q (Ok (ans u')) (go 0%Q (Ok (ans u)) (after_hook p)).

(** Both stages are solved. *)
Lemma solved ord m mds md md' st st' u u2 u' u2' :
  mds = [md; md'] -> consistent [] mds [ans u; ans u'] -> consistent [] mds [ans u2; ans u2'] ->
  kind_of (start ord m md st) = KHook Compute true 1 -> kind_of (start ord m md' st') = KHook Compute true 1 ->
  kind_of (after_hook (start ord m md st)) = KSolve -> kind_of (after_hook (start ord m md' st')) = KSolve ->
  kind_of (go 0%Q (Ok (ans u)) (after_hook (start ord m md st))) = KSolve ->
  kind_of (go 0%Q (Ok (ans u')) (after_hook (start ord m md' st'))) = KSolve ->
  moves ord [] mds (map2 (fun md st => p_forward (mop m) ord [] md 5 0 tt st) mds [st; st'])
    [after_solve u u2 (start ord m md st); after_solve u' u2' (start ord m md' st')].
Proof.
  intros -> K1 K2 H1 H2 H3 H4 H5 H6; cbn [map2].
  eapply moves_more; [eapply moves_more; [eapply moves_more; [apply moves_none|]|]|].
  - exact (hook_move ord _ 0%Q (Err SolverError) Compute true 1 _ _ H1 H2).
  - exact (solve_move ord _ 0%Q _ _ _ _ K1 H3 H4).
  - exact (solve_move ord _ 0%Q _ _ _ _ K2 H5 H6).
Qed.

Definition md_at (r : nat) (l : list metadata) : metadata :=
  nth r l {| time_variable := None; time_integration_array_size := 0; time_independent_input_size := 0;
             time_integration_quantities := []; time_independent_quantities := [] |}.

Lemma two_may_move : exists ps, moves (Ord 1%Q) [] two_mds
  (map2 (fun md st => p_forward (mop SimpleErrorMeasurer) (Ord 1%Q) [] md 5 0 tt st) two_mds two_states) ps /\
  exists x1 k1 x2 k2, ps = [Decide _ x1 true k1; Decide _ x2 true k2].
Proof.
  eexists; split.
  - eapply moves_more.
    + refine (solved (Ord 1%Q) SimpleErrorMeasurer two_mds (md_at 0 two_mds) (md_at 1 two_mds)
        (fresh [2; 5]%Q) (fresh [1; 3; 5]%Q) [1; 1]%Q [1; 1]%Q [2; 3; 1]%Q [2; 3; 1]%Q eq_refl _ _ _ _ _ _ _ _);
        try (vm_compute; reflexivity); exists [[1%Q]]; repeat constructor.
    + refine (reduce_move (Ord 1%Q) _ (Err SolverError) _ _ _ _); vm_compute; reflexivity.
  - match goal with |- exists _ _ _ _, [?p; ?q] = _ =>
      destruct (is_decide true p) as (h & k & E); [vm_compute; reflexivity|];
      destruct (is_decide true q) as (h' & k' & E'); [vm_compute; reflexivity|] end.
    rewrite E, E'; eauto.
Qed.

(** The only quantity lives on one of two processes. *)
Definition lone : list variable := [out "xs" "x" [Some [2]; None] [2]].
Definition lone_mds : list metadata := Eval vm_compute in mds_of (metadata_of 2 lone ["x"] []).

Lemma c37_gap_refuted : exists mds sts ps, metadata_of 2 lone ["x"] [] = Ok mds /\ well_tagged lone ["x"] /\
  together [] heun mds sts /\
  moves OrdInf [] mds (map2 (fun md st => p_forward (mop SimpleErrorMeasurer) OrdInf [] md 5 0 tt st) mds sts) ps /\
  (exists x k r, ps = [Reduce _ x k; Done _ (tt, r, Err ValueError)]) /\ (forall ps', ~ move OrdInf [] mds ps ps').
Proof.
  exists lone_mds, [fresh [1; 2]%Q; fresh []], 
    [after_solve [1; 1]%Q [1; 1]%Q (start OrdInf SimpleErrorMeasurer (md_at 0 lone_mds) (fresh [1; 2]%Q));
     after_solve [] [] (start OrdInf SimpleErrorMeasurer (md_at 1 lone_mds) (fresh []))].
  assert (P : exists x k r, 
    [after_solve [1; 1]%Q [1; 1]%Q (start OrdInf SimpleErrorMeasurer (md_at 0 lone_mds) (fresh [1; 2]%Q));
     after_solve [] [] (start OrdInf SimpleErrorMeasurer (md_at 1 lone_mds) (fresh []))] =
    [Reduce _ x k; Done _ (tt, r, Err ValueError)]).
  { destruct (is_reduce (after_solve [1; 1]%Q [1; 1]%Q (start OrdInf SimpleErrorMeasurer (md_at 0 lone_mds) (fresh [1; 2]%Q))))
      as (x & k & ->); [vm_compute; reflexivity|].
    exists x, k; eexists; f_equal; f_equal; vm_compute; reflexivity. }
  split; [vm_compute; reflexivity|]; split; [apply one_tagged; reflexivity|]; split.
  - exists 1%Q, [0; 0]%Q, [0; 0]%Q, 0%Q, [].
    constructor; [|constructor; [|constructor]]; (split; [apply fresh_sized; reflexivity|repeat split]).
  - split; [|split; [exact P|]].
    + refine (solved OrdInf SimpleErrorMeasurer lone_mds (md_at 0 lone_mds) (md_at 1 lone_mds)
        (fresh [1; 2]%Q) (fresh []) _ _ _ _ eq_refl _ _ _ _ _ _ _ _);
        try (vm_compute; reflexivity); exists []; repeat constructor.
    + destruct P as (x & k & r & ->); intros ps'; apply stuck.
Qed.

(** Copies that differ from the start, measured relative to the state. *)
Definition both : list variable := [out "xs" "x" [Some [1]; Some [1]] [1]].
Definition both_mds : list metadata := Eval vm_compute in mds_of (metadata_of 2 both ["x"] []).

Lemma c37_copies_refuted : exists mds sts ps, metadata_of 2 both ["x"] [] = Ok mds /\ well_tagged both ["x"] /\
  norm_defined (Ord 1%Q) [] mds /\ Forall2 (fun md st => sized heun md (disc st)) mds sts /\
  moves (Ord 1%Q) [] mds
    (map2 (fun md st => p_forward (mop (ImprovedErrorMeasurer 1%Q 1%Q)) (Ord 1%Q) [] md 5 0 tt st) mds sts) ps /\
  exists h k h' k', ps = [Decide _ h false k; Decide _ h' true k'].
Proof.
  set (m := ImprovedErrorMeasurer 1%Q 1%Q).
  exists both_mds, [fresh [0]%Q; fresh [3]%Q]; eexists.
  split; [vm_compute; reflexivity|]; split; [apply one_tagged; reflexivity|]; split; [left; eexists; reflexivity|]; split.
  - constructor; [|constructor; [|constructor]]; apply fresh_sized; reflexivity.
  - split.
    + eapply moves_more; [eapply moves_more|].
      * refine (solved (Ord 1%Q) m both_mds (md_at 0 both_mds) (md_at 1 both_mds)
          (fresh [0]%Q) (fresh [3]%Q) [2]%Q [0]%Q [2]%Q [0]%Q eq_refl _ _ _ _ _ _ _ _);
          try (vm_compute; reflexivity); [exists [[2%Q]]|exists [[0%Q]]]; repeat constructor.
      * refine (reduce_move (Ord 1%Q) _ (Err SolverError) _ _ _ _); vm_compute; reflexivity.
      * refine (reduce_move (Ord 1%Q) _ (Err SolverError) _ _ _ _); vm_compute; reflexivity.
    + match goal with |- exists _ _ _ _, [?p; ?q] = _ =>
        destruct (is_decide false p) as (h & k & E); [vm_compute; reflexivity|];
        destruct (is_decide true q) as (h' & k' & E'); [vm_compute; reflexivity|] end.
      rewrite E, E'; eauto.
Qed.
