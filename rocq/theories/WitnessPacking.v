(** A concrete stage problem: the ODE x' = lam (x + t + p) with two entries in
    x and one independent parameter p.  Output variables are the sources of
    time, step input, accumulated stages and parameter, and the stage update
    k = lam (old + h acc + t + p) / (1 - h lam a).  The residuals are minus the
    sources, and the defect of the update. *)
From Coq Require Import String.
From Coq Require Import List Bool Arith Reals Lia Lra QArith.
From Verif Require Import Base Ext M_ODE M_Metadata M_Components SpecMetadata SpecRK SpecDeriv SpecComponents
  M_Packing SpecPacking L_Vec L_Components L_Packing L_Packing3 L_Packing6.
Import ListNotations.
Local Open Scope string_scope.
Local Open Scope R_scope.
Local Open Scope list_scope.

Definition pair_dec {A B} (da : forall x y : A, {x = y} + {x <> y}) (db : forall x y : B, {x = y} + {x <> y})
  (p q : A * B) : {p = q} + {p <> q}.
Proof. decide equality. Defined.

Section Demo.
Context {T : Type} {N : Num T}.
Variable lam : T.

Definition demo_vec (t o1 o2 a1 a2 p u1 u2 : T) : vec T :=
  [("ivc.t", [t]); ("ivc.old", [o1; o2]); ("ivc.acc", [a1; a2]); ("ivc.p", [p]); ("comp.upd", [u1; u2])].
Definition same_names (l l' : list string) : bool := if list_eq_dec string_dec l l' then true else false.
Definition same_layouts (l l' : list (string * nat)) : bool :=
  if list_eq_dec (fun p q => pair_dec string_dec Nat.eq_dec p q) l l' then true else false.
Definition on_demo {A} (v : vec T) (k : T -> T -> T -> T -> T -> T -> T -> T -> res A) : res A :=
  match v with
  | [(n1, [t]); (n2, [o1; o2]); (n3, [a1; a2]); (n4, [p]); (n5, [u1; u2])] =>
    if same_names [n1; n2; n3; n4; n5] ["ivc.t"; "ivc.old"; "ivc.acc"; "ivc.p"; "comp.upd"]
    then k t o1 o2 a1 a2 p u1 u2 else Err ValueError
  | _ => Err ValueError
  end.
Definition demo_layout : list (string * nat) :=
  [("ivc.t", 1%nat); ("ivc.old", 2%nat); ("ivc.acc", 2%nat); ("ivc.p", 1%nat); ("comp.upd", 2%nat)].
Definition is_demo (v : vec T) : bool := same_layouts (layout v) demo_layout.
Definition demo_in (t o1 o2 a1 a2 p : T) : vec T :=
  [("comp.t", [t]); ("comp.old", [o1; o2]); ("comp.acc", [a1; a2]); ("comp.p", [p])].
Definition demo_in_layout : list (string * nat) :=
  [("comp.t", 1%nat); ("comp.old", 2%nat); ("comp.acc", 2%nat); ("comp.p", 1%nat)].
Definition gain (h a : T) : T := ndiv lam (nsub n1 (nmul (nmul h lam) a)).

Definition demo_nonlinear (h a : T) (i o : vec T) : res (vec T * vec T) :=
  on_demo o (fun t o1 o2 a1 a2 p _ _ =>
    let k x y := nmul (gain h a) (nadd (nadd x (nmul h y)) (nadd t p)) in
    if same_layouts (layout i) demo_in_layout
    then Ok (demo_in t o1 o2 a1 a2 p, demo_vec t o1 o2 a1 a2 p (k o1 a1) (k o2 a2)) else Err ValueError).
Definition demo_fwd (h a : T) (i o x r : vec T) : res (vec T * vec T) :=
  if is_demo x then on_demo r (fun t o1 o2 a1 a2 p u1 u2 =>
    let k x y := nmul (gain h a) (nadd (nadd x (nmul h y)) (nadd t p)) in
    let m := nopp n1 in
    Ok (demo_vec (nmul m t) (nmul m o1) (nmul m o2) (nmul m a1) (nmul m a2) (nmul m p)
          (nsub (nmul m (k o1 a1)) u1) (nsub (nmul m (k o2 a2)) u2), r)) else Err ValueError.
Definition demo_rev (h a : T) (i o w y : vec T) : res (vec T * vec T) :=
  if is_demo y then on_demo w (fun t o1 o2 a1 a2 p u1 u2 =>
    let m := nopp n1 in
    let g u := nmul m (nmul (gain h a) u) in
    Ok (w, demo_vec (nsub (nadd (g u1) (g u2)) t) (nsub (g u1) o1) (nsub (g u2) o2)
          (nsub (nmul h (g u1)) a1) (nsub (nmul h (g u2)) a2) (nsub (nadd (g u1) (g u2)) p) (nmul m u1) (nmul m u2))) else Err ValueError.

Definition demo_source (n : string) : res string :=
  if String.eqb n "comp.t" then Ok "ivc.t" else if String.eqb n "comp.old" then Ok "ivc.old"
  else if String.eqb n "comp.acc" then Ok "ivc.acc" else if String.eqb n "comp.p" then Ok "ivc.p" else Err KeyError.
(** The accumulated stages fed by the same source as the old value. *)
Definition shared_source (n : string) : res string :=
  if String.eqb n "comp.acc" then Ok "ivc.old" else demo_source n.
Definition demo (src : string -> res string) : problem T :=
  {| p_source := src; p_nonlinear := demo_nonlinear; p_linear_fwd := demo_fwd; p_linear_rev := demo_rev |}.

Definition demo_state (x : T) : om_state T :=
  {| om_in := demo_in x x x x x x; om_out := demo_vec x x x x x x x x;
     om_dout := demo_vec x x x x x x x x; om_dres := demo_vec x x x x x x x x |}.

Definition demo_variables : list variable := 
  let v n o tags sh := {| v_name := n; v_output := o; v_tags := tags; v_parts := [Some sh]; v_global_shape := sh |} in
  [v "comp.t" false ["time_variable"] [1%nat];
   v "comp.old" false ["x"; "step_input_var"] [2%nat];
   v "comp.acc" false ["x"; "accumulated_stage_var"] [2%nat];
   v "comp.p" false ["p"; "time_independent_input_var"] [1%nat];
   v "comp.upd" true ["x"; "stage_output_var"] [2%nat]].
Definition demo_size (n : string) : nat := if String.eqb n "comp.p" then 1%nat else 2%nat.

Lemma on_demo_inv {A} v (k : T -> T -> T -> T -> T -> T -> T -> T -> res A) r : on_demo v k = Ok r ->
  exists t o1 o2 a1 a2 p u1 u2, v = demo_vec t o1 o2 a1 a2 p u1 u2 /\ k t o1 o2 a1 a2 p u1 u2 = Ok r.
Proof.
  unfold on_demo, same_names. intros H.
  repeat match type of H with
  | match ?l with [] => _ | _ :: _ => _ end = _ => destruct l as [|? ?]; try discriminate
  | (let (_, _) := ?p in _) = _ => destruct p
  | match ?x with _ => _ end = _ => is_var x; destruct x; try discriminate
  | context [list_eq_dec string_dec ?l ?l'] => destruct (list_eq_dec string_dec l l') as [E|]; [|discriminate]
  end.
  injection E as -> -> -> -> ->. repeat eexists. exact H.
Qed.
Lemma is_demo_layout v : is_demo v = true -> layout v = demo_layout.
Proof. unfold is_demo, same_layouts. destruct (list_eq_dec _ _ _); [auto|discriminate]. Qed.
Lemma demo_keeps src : keeps_layout (demo src).
Proof.
  split; [|split]; cbn [demo p_nonlinear p_linear_fwd p_linear_rev].
  - intros h a i o i' o' H. apply on_demo_inv in H as (t & o1 & o2 & a1 & a2 & p & u1 & u2 & -> & H).
    destruct (same_layouts _ _) eqn:D; [|discriminate]. unfold same_layouts in D.
    destruct (list_eq_dec _ _ _) as [E|]; [|discriminate]. injection H as <- <-. rewrite E. split; reflexivity.
  - unfold demo_fwd, demo_rev. intros h a i o x r x' r' H. destruct (is_demo _) eqn:D; [|discriminate]. apply is_demo_layout in D.
    apply on_demo_inv in H as (t & o1 & o2 & a1 & a2 & p & u1 & u2 & -> & H). injection H as <- <-. rewrite D. split; reflexivity.
  - unfold demo_fwd, demo_rev. intros h a i o x r x' r' H. destruct (is_demo _) eqn:D; [|discriminate]. apply is_demo_layout in D.
    apply on_demo_inv in H as (t & o1 & o2 & a1 & a2 & p & u1 & u2 & -> & H). injection H as <- <-. rewrite D. split; reflexivity.
Qed.
Lemma demo_formed x : well_formed (demo_state x).
Proof. split; reflexivity. Qed.
End Demo.

Definition demo_md : metadata := Eval vm_compute in
  match metadata_of 1 demo_variables ["x"] ["p"] with Ok (md :: _) => md
  | _ => {| time_variable := None; time_integration_array_size := 0; time_integration_quantities := [];
            time_independent_input_size := 0; time_independent_quantities := [] |} end.
Lemma demo_metadata : metadata_of 1 demo_variables ["x"] ["p"] = Ok [demo_md].
Proof. reflexivity. Qed.

Lemma demo_transposed lam src : solves_transposed (demo lam src).
Proof.
  intros h a i o g r x r' w g' w' y L1 L2 L3 L4 F B. cbn [demo p_linear_fwd p_linear_rev] in *. unfold demo_fwd, demo_rev in *.
  destruct (is_demo g); [|discriminate]. destruct (is_demo g'); [|discriminate].
  apply on_demo_inv in F as (t & o1 & o2 & a1 & a2 & p & u1 & u2 & -> & F). injection F as <- <-.
  apply on_demo_inv in B as (t' & o1' & o2' & a1' & a2' & p' & u1' & u2' & -> & B). injection B as <- <-.
  set (G := gain lam h a). clearbody G. cbn. ring.
Qed.
Lemma demo_linear lam src : solves_linear (demo lam src).
Proof.
  intros h a i o g r1 x1 r1' r2 x2 r2' al be L1 L2 F B. cbn [demo p_linear_fwd] in *. unfold demo_fwd in *.
  destruct (is_demo g); [|discriminate].
  apply on_demo_inv in F as (t & o1 & o2 & a1 & a2 & p & u1 & u2 & -> & F). injection F as <- <-.
  apply on_demo_inv in B as (t' & o1' & o2' & a1' & a2' & p' & u1' & u2' & -> & B). injection B as <- <-.
  eexists. cbn. f_equal. f_equal.
  unfold demo_vec, vlin, vadd, vscale; cbn.
  repeat match goal with |- _ :: _ = _ :: _ => f_equal | |- (_, _) = (_, _) => f_equal end; try reflexivity; unfold Rdiv; ring.
Qed.
Lemma demo_guess_free lam src : guess_free (T := R) (demo lam src).
Proof.
  split; cbn [demo p_linear_fwd p_linear_rev]; unfold demo_fwd, demo_rev, is_demo.
  - intros h a i o g g' r L. rewrite L. destruct (same_layouts _ _); [|reflexivity].
    destruct (on_demo r _) as [[x r1]|]; reflexivity.
  - intros h a i o w g g' L. rewrite L. destruct (same_layouts _ _); [|reflexivity].
    destruct (on_demo w _) as [[x r1]|]; reflexivity.
Qed.
Lemma demo_start_free lam src : start_free (T := R) ["ivc.t"; "ivc.old"; "ivc.acc"; "ivc.p"] (demo lam src).
Proof.
  intros h a i o i' o' Li Lo A. cbn [demo p_nonlinear]. unfold demo_nonlinear. rewrite Li.
  destruct (same_layouts (layout o) demo_layout) eqn:D.
  - unfold same_layouts in D. destruct (list_eq_dec _ _ _) as [E|]; [|discriminate]. clear D.
    assert (P : forall v : vec R, layout v = demo_layout -> exists t o1 o2 a1 a2 p u1 u2, v = demo_vec t o1 o2 a1 a2 p u1 u2).
    { clear. unfold layout, demo_layout. intros v H.
      destruct v as [|[n1 x1] [|[n2 x2] [|[n3 x3] [|[n4 x4] [|[n5 x5] [|]]]]]]; try discriminate.
      cbn [map fst snd] in H. injection H as -> H1 -> H2 -> H3 -> H4 -> H5.
      destruct x1 as [|? [|]]; try discriminate. destruct x2 as [|? [|? [|]]]; try discriminate.
      destruct x3 as [|? [|? [|]]]; try discriminate. destruct x4 as [|? [|]]; try discriminate.
      destruct x5 as [|? [|? [|]]]; try discriminate. repeat eexists. }
    destruct (P o E) as (t & o1 & o2 & a1 & a2 & p & u1 & u2 & ->).
    rewrite Lo in E. destruct (P o' E) as (t' & o1' & o2' & a1' & a2' & p' & u1' & u2' & ->).
    assert (A1 := A "ivc.t" ltac:(cbn; auto)). assert (A2 := A "ivc.old" ltac:(cbn; auto)).
    assert (A3 := A "ivc.acc" ltac:(cbn; auto)). assert (A4 := A "ivc.p" ltac:(cbn; auto)).
    cbn in A1, A2, A3, A4. injection A1 as ->. injection A2 as -> ->. injection A3 as -> ->. injection A4 as ->.
    reflexivity.
  - assert (Q : forall v : vec R, layout v = layout o -> forall A (k : R -> R -> R -> R -> R -> R -> R -> R -> res A),
      on_demo v k = Err ValueError).
    { intros v Lv B k.
      destruct (on_demo v (fun _ _ _ _ _ _ _ _ => Ok tt)) eqn:E.
      - apply on_demo_inv in E as (t & o1 & o2 & a1 & a2 & p & u1 & u2 & -> & E). exfalso.
        rewrite <- Lv in D. vm_compute in D. discriminate.
      - clear - E. unfold on_demo in *.
        repeat match goal with
        | |- match ?l with [] => _ | _ :: _ => _ end = _ => destruct l as [|? ?]; try reflexivity
        | |- (let (_, _) := ?p in _) = _ => destruct p
        | |- context [same_names ?l ?l'] => destruct (same_names l l'); [discriminate|reflexivity]
        end. }
    rewrite !Q by auto. reflexivity.
Qed.

Lemma demo_look_other n i (t o1 o2 a1 a2 p u1 u2 : R) :
  n <> "ivc.t" -> n <> "ivc.old" -> n <> "ivc.acc" -> n <> "ivc.p" -> n <> "comp.upd" ->
  look n i (demo_vec t o1 o2 a1 a2 p u1 u2) = 0.
Proof.
  intros A B C D E. unfold look, demo_vec. cbn [get].
  apply String.eqb_neq in A, B, C, D, E. now rewrite A, B, C, D, E.
Qed.
Lemma demo_differentiable lam src : problem_differentiable ["ivc.t"; "ivc.old"; "ivc.acc"; "ivc.p"] (demo lam src).
Proof.
  intros del h a i V r i1 o1 g x r' Hd L Lg C Z U F. cbn [demo p_linear_fwd p_nonlinear] in *. unfold demo_fwd in F.
  destruct (is_demo g); [|discriminate].
  apply on_demo_inv in F as (rt & ro1 & ro2 & ra1 & ra2 & rp & ru1 & ru2 & -> & F). injection F as <- <-.
  set (G := gain lam h a) in *.
  pose (K := fun m e => G * (look "ivc.old" m (V e) + h * look "ivc.acc" m (V e) + (look "ivc.t" 0 (V e) + look "ivc.p" 0 (V e)))).
  assert (U' : forall e, Rabs e < del ->
    (forall m, look "ivc.t" m (o1 e) = look "ivc.t" m (V e)) /\ (forall m, look "ivc.old" m (o1 e) = look "ivc.old" m (V e)) /\
    (forall m, look "ivc.acc" m (o1 e) = look "ivc.acc" m (V e)) /\ (forall m, look "ivc.p" m (o1 e) = look "ivc.p" m (V e)) /\
    (forall m, look "comp.upd" m (o1 e) = match m with 0%nat => K 0%nat e | 1%nat => K 1%nat e | _ => 0 end) /\
    (forall n m, n <> "ivc.t" -> n <> "ivc.old" -> n <> "ivc.acc" -> n <> "ivc.p" -> n <> "comp.upd" -> look n m (o1 e) = 0)).
  { intros e He. specialize (U e He). unfold demo_nonlinear in U. unfold K.
    apply on_demo_inv in U as (t & b1 & b2 & c1 & c2 & p & u1 & u2 & E & U). destruct (same_layouts _ _); [|discriminate].
    injection U as _ <-. rewrite E. repeat split; try reflexivity.
    - intros [|[|m]]; cbn; try reflexivity. destruct m; reflexivity.
    - intros. apply demo_look_other; assumption. }
  assert (Cn : forall n m, derivable_pt_lim (fun e => look n m (V e)) 0
      (- look n m (demo_vec rt ro1 ro2 ra1 ra2 rp ru1 ru2))).
  { intros n m. specialize (C n m). rewrite look_neg in C. exact C. }
  assert (Zu1 : ru1 = 0) by (apply (Z "comp.upd" 0%nat); cbn; intuition discriminate).
  assert (Zu2 : ru2 = 0) by (apply (Z "comp.upd" 1%nat); cbn; intuition discriminate).
  assert (KC : forall m, derivable_pt_lim (K m) 0
    (G * (- look "ivc.old" m (demo_vec rt ro1 ro2 ra1 ra2 rp ru1 ru2) + h * - look "ivc.acc" m (demo_vec rt ro1 ro2 ra1 ra2 rp ru1 ru2)
      + (- rt + - rp)))).
  { intros m. unfold K. apply (derivable_pt_lim_scal (fun e => _) G).
    apply (derivable_pt_lim_plus (fun e => look "ivc.old" m (V e) + h * look "ivc.acc" m (V e))
             (fun e => look "ivc.t" 0 (V e) + look "ivc.p" 0 (V e))).
    - apply (derivable_pt_lim_plus (fun e => look "ivc.old" m (V e)) (fun e => h * look "ivc.acc" m (V e))); [apply Cn|].
      apply (derivable_pt_lim_scal (fun e => look "ivc.acc" m (V e)) h). apply Cn.
    - apply (derivable_pt_lim_plus (fun e => look "ivc.t" 0 (V e)) (fun e => look "ivc.p" 0 (V e))); apply Cn. }
  intros n m.
  destruct (string_dec n "ivc.t") as [->|N1].
  { apply (derivable_near del (fun e => look "ivc.t" m (V e)) _ _ Hd); [intros e He; symmetry; apply U', He|].
    replace (look _ _ _) with (- look "ivc.t" m (demo_vec rt ro1 ro2 ra1 ra2 rp ru1 ru2)); [apply Cn|].
    destruct m as [|m]; cbn; [ring|destruct m; ring]. }
  destruct (string_dec n "ivc.old") as [->|N2].
  { apply (derivable_near del (fun e => look "ivc.old" m (V e)) _ _ Hd); [intros e He; symmetry; apply U', He|].
    replace (look _ _ _) with (- look "ivc.old" m (demo_vec rt ro1 ro2 ra1 ra2 rp ru1 ru2)); [apply Cn|].
    destruct m as [|[|m]]; cbn; [ring|ring|destruct m; ring]. }
  destruct (string_dec n "ivc.acc") as [->|N3].
  { apply (derivable_near del (fun e => look "ivc.acc" m (V e)) _ _ Hd); [intros e He; symmetry; apply U', He|].
    replace (look _ _ _) with (- look "ivc.acc" m (demo_vec rt ro1 ro2 ra1 ra2 rp ru1 ru2)); [apply Cn|].
    destruct m as [|[|m]]; cbn; [ring|ring|destruct m; ring]. }
  destruct (string_dec n "ivc.p") as [->|N4].
  { apply (derivable_near del (fun e => look "ivc.p" m (V e)) _ _ Hd); [intros e He; symmetry; apply U', He|].
    replace (look _ _ _) with (- look "ivc.p" m (demo_vec rt ro1 ro2 ra1 ra2 rp ru1 ru2)); [apply Cn|].
    destruct m as [|m]; cbn; [ring|destruct m; ring]. }
  destruct (string_dec n "comp.upd") as [->|N5].
  { destruct m as [|[|m]].
    - apply (derivable_near del (K 0%nat) _ _ Hd); [intros e He; destruct (U' e He) as (_ & _ & _ & _ & E & _); now rewrite E|].
      replace (look _ _ _) with (G * (- ro1 + h * - ra1 + (- rt + - rp))); [apply (KC 0%nat)|]. rewrite Zu1. unfold G, gain. cbn. unfold Rdiv. ring.
    - apply (derivable_near del (K 1%nat) _ _ Hd); [intros e He; destruct (U' e He) as (_ & _ & _ & _ & E & _); now rewrite E|].
      replace (look _ _ _) with (G * (- ro2 + h * - ra2 + (- rt + - rp))); [apply (KC 1%nat)|]. rewrite Zu2. unfold G, gain. cbn. unfold Rdiv. ring.
    - apply (derivable_near del (fun e => 0) _ _ Hd); [intros e He; destruct (U' e He) as (_ & _ & _ & _ & E & _); now rewrite E|].
      replace (look _ _ _) with 0; [apply derivable_pt_lim_const|]. cbn. destruct m; reflexivity. }
  apply (derivable_near del (fun e => 0) _ _ Hd).
  - intros e He. destruct (U' e He) as (_ & _ & _ & _ & _ & E). now rewrite E.
  - rewrite demo_look_other by assumption. apply derivable_pt_lim_const.
Qed.

Lemma demo_distinct lam : distinct_sources (demo (T := R) lam demo_source) demo_md.
Proof. unfold distinct_sources. vm_compute. repeat (constructor; [cbn; intuition discriminate|]). constructor. Qed.
Lemma demo_outputs : distinct_outputs demo_md.
Proof. unfold distinct_outputs. vm_compute. repeat (constructor; [cbn; intuition discriminate|]). constructor. Qed.
Lemma demo_scalar lam x : scalar_time (demo (T := R) lam demo_source) demo_md (demo_state x).
Proof. intros tv s y Et Es G. injection Et as <-. injection Es as <-. cbn in G. injection G as <-. reflexivity. Qed.
Lemma demo_sources lam : source_names (demo (T := R) lam demo_source) demo_md = ["ivc.t"; "ivc.old"; "ivc.acc"; "ivc.p"].
Proof. reflexivity. Qed.

(** *** Refutations *)
Lemma c39_shared : exists pb md st, metadata_of 1 demo_variables ["x"] ["p"] = Ok [md] /\
    keeps_layout pb /\ solves_transposed pb /\ well_formed st /\ distinct_outputs md /\ scalar_time pb md st /\
    ~ ode_transposed (openmdao_ode pb md st (fun _ => 0)).
Proof.
  exists (demo 1 shared_source), demo_md, (demo_state 1). split; [reflexivity|]. split; [apply demo_keeps|].
  split; [apply demo_transposed|]. split; [apply demo_formed|]. split; [apply demo_outputs|].
  split; [intros tv s y Et Es G; injection Et as <-; injection Es as <-; cbn in G; injection G as <-; reflexivity|].
  intros H.
  specialize (H (repeat 0 14) 0 0
    {| M_ODE.step_input := [1; 0]; stage_input := [0; 0]; independent_input := [0]; time := 0 |} _
    {| stage_update := [1; 0]; stage_state := [0; 0]; independent_output := [] |} _
    ltac:(repeat split) ltac:(repeat split) eq_refl eq_refl).
  unfold dot_in, dot_out in H. cbn in H. revert H. unfold Rdiv. replace (1 - 0 * 1 * 0) with 1 by ring. rewrite Rinv_1. intros H. lra.
Qed.

(** A problem whose source of the time has two entries, one for each entry of
    the update. *)
Definition negated (p : string * list R) : string * list R := (fst p, map Ropp (snd p)).
Definition wide_fwd (h a : R) (i o x r : vec R) : res (vec R * vec R) :=
  match r with
  | [(n1, [t1; t2]); b; c; d; (n5, [u1; u2])] =>
    if same_layouts (layout x) (layout r)
    then Ok ([(n1, [- t1; - t2]); negated b; negated c; negated d; (n5, [- t1 - u1; - t2 - u2])], r) else Err ValueError
  | _ => Err ValueError
  end.
Definition wide_rev (h a : R) (i o w y : vec R) : res (vec R * vec R) :=
  match w with
  | [(n1, [t1; t2]); b; c; d; (n5, [u1; u2])] =>
    if same_layouts (layout y) (layout w)
    then Ok (w, [(n1, [- u1 - t1; - u2 - t2]); negated b; negated c; negated d; (n5, [- u1; - u2])]) else Err ValueError
  | _ => Err ValueError
  end.
Definition wide : problem R :=
  {| p_source := demo_source; p_nonlinear := fun _ _ i o => Ok (i, o); p_linear_fwd := wide_fwd; p_linear_rev := wide_rev |}.
Definition wide_vec : vec R :=
  [("ivc.t", [1; 1]); ("ivc.old", [1; 1]); ("ivc.acc", [1; 1]); ("ivc.p", [1]); ("comp.upd", [1; 1])].
Definition wide_state : om_state R :=
  {| om_in := demo_in 1 1 1 1 1 1; om_out := wide_vec; om_dout := wide_vec; om_dres := wide_vec |}.

Lemma negated_layout p : (fst (negated p), length (snd (negated p))) = (fst p, length (snd p)).
Proof. unfold negated; cbn. now rewrite map_length. Qed.
Lemma dot_opp_r (u : list R) : forall w, dot u (map Ropp w) = - dot u w.
Proof. induction u as [|a u IH]; intros [|b w]; cbn; try ring. rewrite IH. ring. Qed.
Lemma dot_opp_l (u : list R) : forall w, dot (map Ropp u) w = - dot u w.
Proof. induction u as [|a u IH]; intros [|b w]; cbn; try ring. rewrite IH. ring. Qed.
Lemma wide_fwd_inv h a i o x r x' r' : wide_fwd h a i o x r = Ok (x', r') ->
  exists n1 t1 t2 b c d n5 u1 u2, r = [(n1, [t1; t2]); b; c; d; (n5, [u1; u2])] /\ layout x = layout r /\ r' = r /\
    x' = [(n1, [- t1; - t2]); negated b; negated c; negated d; (n5, [- t1 - u1; - t2 - u2])].
Proof.
  unfold wide_fwd. intros H.
  repeat match type of H with
  | match ?l with [] => _ | _ :: _ => _ end = _ => destruct l as [|? ?]; try discriminate
  | (let (_, _) := ?p in _) = _ => destruct p
  | context [same_layouts ?l ?l'] => destruct (same_layouts l l') eqn:D; [|discriminate]
  end.
  injection H as <- <-. unfold same_layouts in D. destruct (list_eq_dec _ _ _) as [E|]; [|discriminate].
  repeat eexists. exact E.
Qed.
Lemma wide_rev_inv h a i o w y w' y' : wide_rev h a i o w y = Ok (w', y') ->
  exists n1 t1 t2 b c d n5 u1 u2, w = [(n1, [t1; t2]); b; c; d; (n5, [u1; u2])] /\ layout y = layout w /\ w' = w /\
    y' = [(n1, [- u1 - t1; - u2 - t2]); negated b; negated c; negated d; (n5, [- u1; - u2])].
Proof.
  unfold wide_rev. intros H.
  repeat match type of H with
  | match ?l with [] => _ | _ :: _ => _ end = _ => destruct l as [|? ?]; try discriminate
  | (let (_, _) := ?p in _) = _ => destruct p
  | context [same_layouts ?l ?l'] => destruct (same_layouts l l') eqn:D; [|discriminate]
  end.
  injection H as <- <-. unfold same_layouts in D. destruct (list_eq_dec _ _ _) as [E|]; [|discriminate].
  repeat eexists. exact E.
Qed.
Lemma wide_keeps : keeps_layout wide.
Proof.
  split; [|split]; cbn [wide p_nonlinear p_linear_fwd p_linear_rev].
  - intros h a i o i' o' H. injection H as <- <-. auto.
  - intros h a i o x r x' r' H. apply wide_fwd_inv in H as (n1 & t1 & t2 & b & c & d & n5 & u1 & u2 & -> & L & -> & ->).
    rewrite L. unfold layout; cbn [map]. rewrite !negated_layout. split; reflexivity.
  - intros h a i o x r x' r' H. apply wide_rev_inv in H as (n1 & t1 & t2 & b & c & d & n5 & u1 & u2 & -> & L & -> & ->).
    rewrite L. unfold layout; cbn [map]. rewrite !negated_layout. split; reflexivity.
Qed.
Lemma wide_transposed : solves_transposed wide.
Proof.
  intros h a i o g r x r' w g' w' y L1 L2 L3 L4 F B. cbn [wide p_linear_fwd p_linear_rev] in *.
  apply wide_fwd_inv in F as (n1 & t1 & t2 & b & c & d & n5 & u1 & u2 & -> & _ & _ & ->).
  apply wide_rev_inv in B as (n1' & t1' & t2' & b' & c' & d' & n5' & u1' & u2' & -> & _ & _ & ->).
  destruct b, c, d, b', c', d'. unfold vinner, negated; cbn [inner fst snd]. rewrite !dot_opp_r, !dot_opp_l. cbn [dot]. ring.
Qed.
Lemma c39_vector_time : exists pb md st, metadata_of 1 demo_variables ["x"] ["p"] = Ok [md] /\
    keeps_layout pb /\ solves_transposed pb /\ well_formed st /\ distinct_sources pb md /\ distinct_outputs md /\
    ~ ode_transposed (openmdao_ode pb md st (fun _ => 0)).
Proof.
  exists wide, demo_md, wide_state. split; [reflexivity|]. split; [apply wide_keeps|].
  split; [apply wide_transposed|]. split; [split; reflexivity|]. split; [apply (demo_distinct 1)|].
  split; [apply demo_outputs|]. intros H.
  specialize (H (repeat 0 15) 0 0
    {| M_ODE.step_input := [0; 0]; stage_input := [0; 0]; independent_input := [0]; time := 1 |} _
    {| stage_update := [0; 1]; stage_state := [0; 0]; independent_output := [] |} _
    ltac:(repeat split) ltac:(repeat split) eq_refl eq_refl).
  unfold dot_in, dot_out in H. cbn in H. lra.
Qed.

Lemma c53_nan : exists (pb : problem (ext Q)) md st st' lp d h a r r' norm,
    metadata_of 1 demo_variables ["x"] ["p"] = Ok [md] /\ keeps_layout pb /\ well_formed st /\
    distinct_sources pb md /\ scalar_time pb md st /\ history pb md st st' /\
    compute_update_derivative (openmdao_ode pb md st norm) lp d h a = Ok r /\
    compute_update_derivative (openmdao_ode pb md st' norm) lp d h a = Ok r' /\
    stage_update r = [Fin 2%Q; Fin 0%Q] /\ stage_update r' = [NaN; Fin 0%Q].
Proof.
  pose (z := Fin 0%Q : ext Q).
  exists (demo (Fin 2%Q) demo_source), demo_md, (demo_state z).
  eexists.
  exists (repeat z 14), {| M_ODE.step_input := [Fin 1%Q; z]; stage_input := [z; z]; independent_input := [z]; time := z |}, z, z.
  eexists _, _, (fun _ => z). split; [reflexivity|]. split; [apply demo_keeps|]. split; [apply demo_formed|].
  split; [unfold distinct_sources; vm_compute; repeat (constructor; [cbn; intuition discriminate|]); constructor|].
  split; [intros tv s y Et Es G; injection Et as <-; injection Es as <-; cbn in G; injection G as <-; reflexivity|].
  split.
  - refine (then_adjoint _ _ _ _ _ (repeat z 14)
      {| stage_update := [NaN; z]; stage_state := [z; z]; independent_output := [] |} z z _ (no_calls _ _ _) _).
    vm_compute. reflexivity.
  - split; [vm_compute; reflexivity|]. split; [vm_compute; reflexivity|]. split; vm_compute; reflexivity.
Qed.
