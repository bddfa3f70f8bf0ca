(** Changes of variables: picking states, affine maps; a change of units under
    error control. *)
From Coq Require Import String.
From Coq Require Import List Lia Bool Arith ZArith QArith Reals Lra.
From Verif Require Import Base Ext M_Tableau M_State M_ODE M_Step M_Controller M_Measure M_Integrator
  SpecRK SpecShape SpecDeriv SpecRun SpecChange L_Vec L_Generic L_Run L_Iter L_RunProps L_Change L_Change2 WitnessRun.
Import ListNotations.
Local Open Scope nat_scope.

Section Pick.
Context {T : Type} {N : Num T}.
Lemma nth_pair (f : T -> T -> T) : forall x y k, length x = length y -> k < length x -> nth k (map2 f x y) n0 = f (nth k x n0) (nth k y n0).
Proof. induction x as [|a x IH]; intros [|b y] [|k] L K; cbn in *; try lia; auto. apply IH; lia. Qed.
Lemma map2_pick (f : T -> T -> T) x y n : length x = n -> length y = n -> forall p, (forall k, In k p -> k < n) ->
  map (fun k => nth k (map2 f x y) n0) p = map2 f (map (fun k => nth k x n0) p) (map (fun k => nth k y n0) p).
Proof.
  intros Hx Hy. induction p as [|k p IH]; intros Hp; [reflexivity|]. cbn [map map2].
  rewrite nth_pair by (rewrite ?Hx, ?Hy; auto using in_eq). f_equal. apply IH. intros j Hj. apply Hp. right. exact Hj.
Qed.
Lemma picked_change n p : (forall k, In k p -> k < n) -> is_change n (length p) (picked p).
Proof.
  intros Hp. constructor; cbn.
  - unfold vzeros. clear Hp. induction p as [|k p IH]; cbn; [reflexivity|]. rewrite IH. f_equal. apply nth_repeat.
  - intros x y Hx Hy. exact (map2_pick nadd x y n Hx Hy p Hp).
  - intros x a Hx. rewrite map_map. apply map_ext_in. intros k Hk. specialize (Hp k Hk). rewrite <- Hx in Hp. clear - Hp.
    revert k Hp. induction x as [|z x IH]; intros [|k] H; cbn in *; try lia; auto. apply IH. lia.
  - intros x _. apply map_length.
  - intros x y Hx Hy. exact (map2_pick nadd x y n Hx Hy p Hp).
  - intros x y Hx Hy. exact (map2_pick nsub x y n Hx Hy p Hp).
  - intros x _. apply map_length.
  - reflexivity.
  - reflexivity.
Qed.
End Pick.

Section Affine.
Local Open Scope R_scope.
Lemma dot_sum : forall r x y, length x = length y -> dot r (vadd x y) = dot r x + dot r y.
Proof. intros r x y. apply dot_vadd_r. Qed.
Lemma dot_difference : forall r x y, length x = length y -> dot r (vsub x y) = dot r x - dot r y.
Proof.
  induction r as [|a r IH]; intros [|b x] [|c y] L; cbn in L; try discriminate; try (cbn; lra). injection L as L.
  change (a * (b - c) + dot r (vsub x y) = a * b + dot r x - (a * c + dot r y)). rewrite (IH x y L). lra.
Qed.
Lemma dot_times a : forall r x, dot r (map (fun z => z * a) x) = dot r x * a.
Proof. induction r as [|b r IH]; intros [|z x]; cbn; try lra. rewrite IH. lra. Qed.
Lemma dot_nought : forall r n, dot r (vzeros n) = 0.
Proof. intros r n. apply dot_vzeros_r. Qed.
Lemma affine_move x u : length x = length u -> forall M v, length v = length M ->
  vadd (map (fun r => dot r (vadd x u)) M) v = vadd (vadd (map (fun r => dot r x) M) v) (map (fun r => dot r u) M).
Proof.
  intros L. induction M as [|r M IH]; intros [|b v] Hv; cbn in Hv; try discriminate; [reflexivity|]. injection Hv as Hv.
  change ((dot r (vadd x u) + b) :: vadd (map (fun r => dot r (vadd x u)) M) v = (dot r x + b + dot r u) :: vadd (vadd (map (fun r => dot r x) M) v) (map (fun r => dot r u) M)).
  rewrite (IH v Hv), dot_sum by exact L. f_equal. lra.
Qed.
Lemma affine_diff x u : length x = length u -> forall M v, length v = length M ->
  map (fun r => dot r (vsub x u)) M = vsub (vadd (map (fun r => dot r x) M) v) (vadd (map (fun r => dot r u) M) v).
Proof.
  intros L. induction M as [|r M IH]; intros [|b v] Hv; cbn in Hv; try discriminate; [reflexivity|]. injection Hv as Hv.
  change (dot r (vsub x u) :: map (fun r => dot r (vsub x u)) M =
    (dot r x + b - (dot r u + b)) :: vsub (vadd (map (fun r => dot r x) M) v) (vadd (map (fun r => dot r u) M) v)).
  rewrite <- (IH v Hv), dot_difference by exact L. f_equal. lra.
Qed.
Lemma affine_change n M v tau : length v = length M -> is_change n (length M) (affine M v tau).
Proof.
  intros Hv. constructor; cbn [affine ch_state ch_slope ch_parameters ch_time].
  - clear Hv. unfold vzeros at 2. induction M as [|r M IH]; cbn [map length repeat]; [reflexivity|]. rewrite IH, dot_nought. reflexivity.
  - intros x y Hx Hy. clear Hv. unfold vadd at 2. induction M as [|r M IH]; cbn [map map2]; [reflexivity|].
    rewrite IH, dot_sum by congruence. reflexivity.
  - intros x a Hx. rewrite map_map. apply map_ext. intros r. exact (dot_times a r x).
  - intros x _. apply map_length.
  - intros x u Hx Hu. apply affine_move; congruence.
  - intros x y Hx Hy. apply affine_diff; congruence.
  - intros x _. rewrite length_vadd, map_length, Hv. lia.
  - intros t h. cbn. lra.
  - intros t s. cbn. lra.
Qed.
End Affine.

Section Main.
Context {T : Type} {N : Num T} {C : Type}.
Lemma c93_compute (op : options T C) o' ch : is_change (state_size (o_ode op)) (state_size o') ch ->
  (forall p, length p = independent_input_size (o_ode op) -> length (ch_parameters ch p) = independent_input_size o') ->
  sized_ode (o_ode op) -> sized_ode o' -> changed_ode ch (o_ode op) o' ->
  (o_adaptive op = true -> same_norms ch (o_ode op) o') -> loops op -> quiet op ->
  forall c w c' v i, inputs_sized (o_ode op) i -> reachable op c w -> reachable (change_options ch o' op) c' v -> ctl w = ctl v ->
  forall out', (exists v', compute (change_options ch o' op) (change_inputs ch i) v = (v', Ok out')) <->
  (exists w' out, compute op i w = (w', Ok out) /\ out' = change_outputs ch out).
Proof.
  intros Hc Hp H1 H2 Ho Hn HL Hq c w c' v i Hi Rw Rv Ec.
  apply (change_compute op o' ch Hc Hp Ho (proj1 H1) (proj1 H2) Hn i w v HL Hq Hi); [|apply (reachable_wf (change_options ch o' op) c' v H2 Rv)|exact Ec].
  exact (reachable_wf op c w H1 Rw).
Qed.
End Main.

(** A constant right-hand side [r], integers, tolerance 3. *)
Definition kode (r : Z) : ode Z := {|
  compute_update := fun i h a => Ok ({| stage_update := [r]; stage_state := [0%Z]; independent_output := [] |}, []);
  compute_update_derivative := fun _ _ _ _ => Err NotImplementedError;
  compute_update_adjoint_derivative := fun _ _ _ _ => Err NotImplementedError;
  compute_state_norm := fun x => Z.abs (nth 0 (stage_state x) 0%Z);
  state_size := 1; independent_input_size := 0; independent_output_size := 0; linearization_point_size := 0 |}.
Lemma kode_sized r : sized_ode (kode r).
Proof.
  split; [|split].
  - intros i h a x lp H; injection H as <- <-; cbn; auto.
  - intros lp i h a x H; discriminate.
  - intros lp i h a x H; discriminate.
Qed.
Definition ktab : tableau Z := {| t_A := [[0%Z]]; t_b := [1%Z]; t_c := [0%Z];
  t_stages := 1; t_p := Some 1; t_name := "k"%string; t_hat := Some ([0%Z], Some 1) |}.
Definition kctl (c : unit) (q : call_args Z) : unit * res (status Z) :=
  (c, Ok (if (error_measure q <=? 3)%Z then {| step_size_suggestion := delta_t q; acceptance := true |}
          else {| step_size_suggestion := (delta_t q / 2)%Z; acceptance := false |})).
Definition kop (r : Z) : options Z unit := {|
  o_bt := ktab; o_ode := kode r; o_ckpt := AllCheckpointer; o_adaptive := true; o_step := 2%Z;
  o_crit := PredefinedNumberOfSteps 1; o_inf := 0%Z; o_meas := SimpleErrorMeasurer; o_tol := 3%Z;
  o_ctl := kctl; o_callbacks := fun _ => []; retry_limit := 10; loop_limit := 10 |}.
Definition kin : inputs Z := {| time_initial := 0%Z; initial := [0%Z]; independent := [] |}.
Definition doubled : change Z := {| ch_state := map (Z.mul 2); ch_slope := map (Z.mul 2); ch_parameters := fun p => p; ch_time := fun t => t |}.
Lemma doubled_pair (f : Z -> Z -> Z) : (forall a b, 2 * f a b = f (2 * a) (2 * b))%Z -> forall x y, map (Z.mul 2) (map2 f x y) = map2 f (map (Z.mul 2) x) (map (Z.mul 2) y).
Proof. intros Hf. induction x as [|a x IH]; intros [|b y]; cbn [map map2]; try reflexivity. rewrite IH, Hf. reflexivity. Qed.
Lemma doubled_change n : is_change n n doubled.
Proof.
  constructor; cbn [doubled ch_state ch_slope ch_parameters ch_time].
  - unfold vzeros. induction n as [|n IH]; cbn [repeat map]; [reflexivity|]. rewrite IH. reflexivity.
  - intros x y _ _. apply doubled_pair. intros a b; cbn [nadd nsub ZNum]; lia.
  - intros x a _. rewrite !map_map. apply map_ext. intros z. cbn [nmul ZNum]. lia.
  - intros x H. rewrite map_length. exact H.
  - intros x y _ _. apply doubled_pair. intros a b; cbn [nadd nsub ZNum]; lia.
  - intros x y _ _. apply doubled_pair. intros a b; cbn [nadd nsub ZNum]; lia.
  - intros x H. rewrite map_length. exact H.
  - reflexivity.
  - reflexivity.
Qed.
Definition any_norms : Prop := forall (op : options Z unit) o' ch, is_change (state_size (o_ode op)) (state_size o') ch ->
  (forall p, length p = independent_input_size (o_ode op) -> length (ch_parameters ch p) = independent_input_size o') ->
  sized_ode (o_ode op) -> sized_ode o' -> changed_ode ch (o_ode op) o' -> loops op -> quiet op ->
  forall i w' out, inputs_sized (o_ode op) i -> compute op i (setup op tt) = (w', Ok out) ->
  exists v', compute (change_options ch o' op) (change_inputs ch i) (setup (change_options ch o' op) tt) = (v', Ok (change_outputs ch out)).
Lemma chosen {W A} (p : W * res A) (f : A -> bool) : match snd p with Ok o => f o | Err _ => false end = true -> exists w o, p = (w, Ok o) /\ f o = true.
Proof. destruct p as [w [o|e]]; cbn; [eauto|discriminate]. Qed.
Definition ends_at (t : Z) (r : outputs Z) : bool := Z.eqb (time_final r) t.
Lemma kop_first : exists w o, compute (kop 1) kin (setup (kop 1) tt) = (w, Ok o) /\ ends_at 2 o = true.
Proof. apply chosen. vm_compute. reflexivity. Qed.
Definition kop' : options Z unit := change_options doubled (kode 2) (kop 1).
Definition kin' : inputs Z := change_inputs doubled kin.
Lemma kop_second : exists w o, compute kop' kin' (setup kop' tt) = (w, Ok o) /\ ends_at 1 o = true.
Proof. apply chosen. vm_compute. reflexivity. Qed.
Lemma kode_changed : changed_ode doubled (kode 1) (kode 2).
Proof. intros i h a _ _ _; cbn; eexists; eexists; split; reflexivity. Qed.
Lemma kin_sized : inputs_sized (kode 1) kin.
Proof. split; reflexivity. Qed.
Lemma kop_quiet : quiet (kop 1).
Proof. intros ? ? []. Qed.
Lemma ends_once (o : outputs Z) : ends_at 2 o = true -> ends_at 1 (change_outputs doubled o) = true -> False.
Proof. unfold ends_at. cbn. intros H1 H2. apply Z.eqb_eq in H1, H2. congruence. Qed.
Lemma c93_units_refuted : ~ any_norms.
Proof.
  intros H. destruct kop_first as (w' & out & E & E1). destruct kop_second as (v & out' & F & F1).
  destruct (H (kop 1) (kode 2) doubled (doubled_change 1) (fun p Hp => Hp) (kode_sized 1) (kode_sized 2) kode_changed I kop_quiet kin w' out kin_sized E) as (v' & G).
  fold kop' kin' in G. rewrite F in G. injection G as _ G. subst out'. exact (ends_once out E1 F1).
Qed.

(** Two states: x' = t + p, y' = x, evaluated explicitly; and with the states
    exchanged, and x alone. *)
Section Two.
Context {T : Type} {N : Num T}.
Definition at_stage (i : ode_in T) (h : T) (k : nat) : T := nadd (nth k (step_input i) n0) (nmul h (nth k (stage_input i) n0)).
Definition two_ode (size : nat) (f : T -> T -> (nat -> T) -> list T) : ode T := {|
  compute_update := fun i h a => Ok ({| stage_update := f (time i) (nth 0 (independent_input i) n0) (at_stage i h);
     stage_state := vzeros size; independent_output := [] |}, []);
  compute_update_derivative := fun _ _ _ _ => Err NotImplementedError;
  compute_update_adjoint_derivative := fun _ _ _ _ => Err NotImplementedError;
  compute_state_norm := fun r => vsum (stage_state r);
  state_size := size; independent_input_size := 1; independent_output_size := 0; linearization_point_size := 0 |}.
Definition xy : ode T := two_ode 2 (fun t p s => [nadd t p; s 0]).
Definition yx : ode T := two_ode 2 (fun t p s => [s 1; nadd t p]).
Definition xo : ode T := two_ode 1 (fun t p s => [nadd t p]).
Lemma two_sized size f : (forall t p s, length (f t p s) = size) -> sized_ode (two_ode size f).
Proof.
  intros Hf. split; [|split].
  - intros i h a x lp H; injection H as <- <-; cbn; auto using glen_vzeros.
  - intros lp i h a x H; discriminate.
  - intros lp i h a x H; discriminate.
Qed.
Lemma xy_yx : changed_ode (picked [1; 0]) xy yx.
Proof. intros i h a _ _ _. cbn. eexists; eexists. split; reflexivity. Qed.
Lemma xy_xo : changed_ode (picked [0]) xy xo.
Proof. intros i h a _ _ _. cbn. eexists; eexists. split; reflexivity. Qed.
End Two.

Section Named.
Context {T : Type} {N : Num T} {C : Type}.
Lemma c93_reordering (op : options T C) (o' : ode T) (p : list nat) :
  (forall k, In k p -> k < state_size (o_ode op)) -> state_size o' = length p ->
  independent_input_size o' = independent_input_size (o_ode op) ->
  sized_ode (o_ode op) -> sized_ode o' -> changed_ode (picked p) (o_ode op) o' ->
  (o_adaptive op = true -> same_norms (picked p) (o_ode op) o') -> loops op -> quiet op ->
  forall c i w' out, inputs_sized (o_ode op) i -> compute op i (setup op c) = (w', Ok out) ->
  exists v' out', compute (change_options (picked p) o' op)
      {| time_initial := time_initial i; initial := map (fun k => nth k (initial i) n0) p; independent := independent i |}
      (setup (change_options (picked p) o' op) c) = (v', Ok out') /\
    time_final out' = time_final out /\ final out' = map (fun k => nth k (final out) n0) p.
Proof.
  intros Hp Hn Hi H1 H2 Ho Hm HL Hq c i w' out Si E.
  destruct (proj2 (c93_compute op o' (picked p) ltac:(rewrite Hn; apply picked_change; exact Hp) ltac:(intros q Hl; cbn; congruence) H1 H2 Ho Hm HL Hq
    c (setup op c) c (setup (change_options (picked p) o' op) c) i Si (reachable_setup _ c) (reachable_setup _ c) eq_refl (change_outputs (picked p) out))
    (ex_intro _ w' (ex_intro _ out (conj E eq_refl)))) as (v' & F).
  exists v', (change_outputs (picked p) out). split; [exact F|]. split; reflexivity.
Qed.
End Named.
Lemma c93_affine C (op : options R C) (o' : ode R) (M : list (list R)) (v : list R) (tau : R) :
  length v = length M -> state_size o' = length M -> independent_input_size o' = independent_input_size (o_ode op) ->
  sized_ode (o_ode op) -> sized_ode o' -> changed_ode (affine M v tau) (o_ode op) o' ->
  (o_adaptive op = true -> same_norms (affine M v tau) (o_ode op) o') -> loops op -> quiet op ->
  forall c i w' out, inputs_sized (o_ode op) i -> compute op i (setup op c) = (w', Ok out) ->
  exists v' out', compute (change_options (affine M v tau) o' op)
      {| time_initial := (time_initial i + tau)%R; initial := vadd (map (fun r => dot r (initial i)) M) v; independent := independent i |}
      (setup (change_options (affine M v tau) o' op) c) = (v', Ok out') /\
    time_final out' = (time_final out + tau)%R /\ final out' = vadd (map (fun r => dot r (final out)) M) v.
Proof.
  intros Hv Hn Hi H1 H2 Ho Hm HL Hq c i w' out Si E.
  destruct (proj2 (c93_compute op o' (affine M v tau) ltac:(rewrite Hn; apply affine_change; exact Hv) ltac:(intros q Hl; cbn; congruence) H1 H2 Ho Hm HL Hq
    c (setup op c) c (setup (change_options (affine M v tau) o' op) c) i Si (reachable_setup _ c) (reachable_setup _ c) eq_refl (change_outputs (affine M v tau) out))
    (ex_intro _ w' (ex_intro _ out (conj E eq_refl)))) as (v' & F).
  exists v', (change_outputs (affine M v tau) out). split; [exact F|]. split; reflexivity.
Qed.
