(** Lemmas about the shipped ODE components with scalar variables (C42-C44). *)
From Coq Require Import String.
From Coq Require Import List Reals Lia Lra.
From Verif Require Import Base Ext SpecRK M_Components SpecComponents L_Components.
Import ListNotations.
Local Open Scope string_scope.
Local Open Scope R_scope.
Local Open Scope list_scope.

Lemma get_slook n v : mem n v = true -> get n v = Ok (slook n v).
Proof. intros M. destruct (mem_get _ _ M) as [x G]. unfold slook. now rewrite G. Qed.
Lemma slook_get n v x : get n v = Ok x -> slook n v = x.
Proof. unfold slook. now intros ->. Qed.
Lemma slook_absent n v : mem n v = false -> slook n v = 0.
Proof. intros M. unfold slook. destruct (get n v) eqn:G; [|reflexivity]. apply get_mem in G. congruence. Qed.

Lemma supdate_ok g n x (v : omvec R) : mem n v = true ->
  exists v', update (fun y x => Ok (g y x)) n x v = Ok v' /\ slook n v' = g (slook n v) x /\
    (forall k, k <> n -> slook k v' = slook k v) /\ names v' = names v.
Proof.
  intros M. destruct (get_update_ok (fun y x => Ok (g y x)) n x v _ _ (get_slook n v M) eq_refl) as (v' & U & G).
  exists v'. rewrite U. repeat split.
  - exact (slook_get _ _ _ G).
  - intros k Hk. unfold slook. now rewrite (proj2 (get_update _ _ _ _ _ U) k Hk).
  - exact (update_names _ _ _ _ _ U).
Qed.
Lemma supdate_inv g n x (v v' : omvec R) : update (fun y x => Ok (g y x)) n x v = Ok v' ->
  slook n v' = g (slook n v) x /\ (forall k, k <> n -> slook k v' = slook k v) /\ names v' = names v.
Proof.
  intros U. destruct (get_update _ _ _ _ _ U) as [(y & z & A & B & C) O]. injection B as <-. repeat split.
  - now rewrite (slook_get _ _ _ C), (slook_get _ _ _ A).
  - intros k Hk. unfold slook. now rewrite O.
  - exact (update_names _ _ _ _ _ U).
Qed.

(** The accumulating operations on scalars. *)
Definition ssign (fg : R -> R -> res R) (s : R) : Prop := forall y x, fg y x = Ok (y + s * x).
Lemma ssign_add : ssign (fun y x => Ok (y + x)) 1.
Proof. intros y x. f_equal; ring. Qed.
Lemma ssign_sub : ssign (fun y x => Ok (y - x)) (-1).
Proof. intros y x. f_equal; ring. Qed.
Definition sscale (f : R -> R) (c : R) : Prop := forall x, f x = c * x.
Lemma ssign_accumulates fg s : ssign fg s -> accumulates (fun _ => O) Rmult s fg.
Proof. intros S y x z F. rewrite S in F. injection F as <-. repeat split; ring. Qed.
Lemma update_eq fg s n x (v : omvec R) : ssign fg s -> update fg n x v = update (fun y x => Ok (y + s * x)) n x v.
Proof. intros S. induction v as [|[m y] v IH]; cbn [update]; [reflexivity|]. rewrite S, IH. reflexivity. Qed.
Lemma names_shape (v w : omvec R) : names v = names w -> shape (fun _ => O) v = shape (fun _ => O) w.
Proof.
  unfold names, shape. revert w; induction v as [|[m x] v IH]; intros [|[k y] w] H; try discriminate; [reflexivity|].
  cbn [map fst snd] in *. injection H as <- H. now rewrite (IH w H).
Qed.
Lemma stransfer_look fg s f c n src m dst dst' : ssign fg s -> sscale f c ->
  transfer (update fg) f n src m dst = Ok dst' ->
  slook m dst' = slook m dst + s * c * slook n src /\ (forall k, k <> m -> slook k dst' = slook k dst) /\ names dst' = names dst.
Proof.
  intros S Sc. unfold transfer. destruct (mem n src) eqn:M.
  - rewrite (get_slook _ _ M); cbn [bind]. rewrite (update_eq fg s _ _ _ S). intros U.
    destruct (supdate_inv _ _ _ _ _ U) as (A & B & C). rewrite A, Sc. repeat split; auto. ring.
  - intros [= <-]. rewrite (slook_absent _ _ M). repeat split. ring.
Qed.
Lemma spair fg s f c n m din win dout wout : ssign fg s -> sscale f c ->
  names win = names din -> names wout = names dout -> mem m dout = true ->
  exists dout' win',
    transfer (update fg) f n din m dout = Ok dout' /\ into (update fg) f m wout n win = Ok win' /\
    names dout' = names dout /\ names win' = names win /\
    sinner wout dout' - sinner wout dout = sinner win' din - sinner win din.
Proof.
  intros S Sc N1 N2 M.
  assert (M' : mem m wout = true) by (rewrite (names_mem wout dout _ N2); exact M).
  assert (exists d, transfer (update fg) f n din m dout = Ok d) as [d T].
  { unfold transfer. destruct (mem n din) eqn:Mn; [|eauto]. rewrite (get_slook _ _ Mn); cbn [bind].
    rewrite (update_eq fg s _ _ _ S). destruct (supdate_ok (fun y x => y + s * x) m (f (slook n din)) dout M) as (v & U & _). eauto. }
  assert (exists w, into (update fg) f m wout n win = Ok w) as [w I].
  { unfold into. destruct (mem n win) eqn:Mn; [|eauto]. rewrite (get_slook _ _ M'); cbn [bind].
    rewrite (update_eq fg s _ _ _ S). destruct (supdate_ok (fun y x => y + s * x) n (f (slook m wout)) win Mn) as (v & U & _). eauto. }
  exists d, w. repeat split; try assumption.
  - exact (proj2 (proj2 (stransfer_look fg s f c n din m dout d S Sc T))).
  - unfold into in I. destruct (mem n win); [|injection I as <-; reflexivity].
    destruct (get m wout); cbn [bind] in I; [|discriminate]. exact (update_names _ _ _ _ _ I).
  - refine (proj1 (pair_transposed (fun _ => O) Rmult s fg f n m din win dout wout d w (ssign_accumulates fg s S) _ _ _ _ T I)).
    + reflexivity.
    + intros u x _. rewrite !Sc. ring.
    + now apply names_shape.
    + now apply names_shape.
Qed.

Lemma quadratic_derivative f A B C : (forall s, f s = A + s * B + s ^ 2 * C) -> derivable_pt_lim f 0 B.
Proof.
  intros F eps He. assert (Hp : 0 < eps / (Rabs C + 1)).
  { apply Rdiv_lt_0_compat; [exact He|]. generalize (Rabs_pos C); lra. }
  exists (mkposreal _ Hp). intros h Hn Hh. cbn [pos] in Hh. rewrite !F.
  replace ((A + (0 + h) * B + (0 + h) ^ 2 * C - (A + 0 * B + 0 ^ 2 * C)) / h - B) with (h * C) by (field; exact Hn).
  rewrite Rabs_mult. apply Rle_lt_trans with (Rabs h * (Rabs C + 1)).
  - apply Rmult_le_compat_l; [apply Rabs_pos|lra].
  - apply Rlt_le_trans with (eps / (Rabs C + 1) * (Rabs C + 1)).
    + apply Rmult_lt_compat_r; [generalize (Rabs_pos C); lra|exact Hh].
    + right. field. generalize (Rabs_pos C); lra.
Qed.

(** ** SimpleLinearODE *)
Lemma simple_look ex inp out o : simple_compute ex inp out = Ok o ->
  mem "y_old" inp = true /\ mem "y_accumulated_stages" inp = true /\
  slook "y_stage" o = - (slook "y_old" inp + x_step_size ex * slook "y_accumulated_stages" inp)
                        / (1 + x_step_size ex * x_stage_factor ex) /\
  (forall k, k <> "y_stage" -> slook k o = slook k out) /\ names o = names out.
Proof.
  unfold simple_compute. destruct (get "y_old" inp) as [old|] eqn:G1; cbn [bind]; [|discriminate].
  destruct (get "y_accumulated_stages" inp) as [acc|] eqn:G2; cbn [bind]; [|discriminate]. intros U.
  destruct (supdate_inv (fun _ x => x) _ _ _ _ U) as (A & B & C).
  rewrite (slook_get _ _ _ G1), (slook_get _ _ _ G2). repeat split; eauto using get_mem.
Qed.
Lemma c42_simple_solves ex inp out :
  mem "y_old" inp = true -> mem "y_accumulated_stages" inp = true -> mem "y_stage" out = true ->
  1 + x_step_size ex * x_stage_factor ex <> 0 ->
  exists o, simple_compute ex inp out = Ok o /\
    slook "y_stage" o = - (slook "y_old" inp + x_step_size ex *
       (slook "y_accumulated_stages" inp + x_stage_factor ex * slook "y_stage" o)).
Proof.
  intros M1 M2 M3 D. unfold simple_compute. rewrite (get_slook _ _ M1), (get_slook _ _ M2); cbn [bind].
  destruct (supdate_ok (fun _ x => x) "y_stage" (- (slook "y_old" inp + x_step_size ex * slook "y_accumulated_stages" inp)
                        / (1 + x_step_size ex * x_stage_factor ex)) out M3) as (o & U & L & _).
  exists o; split; [exact U|]. rewrite L. field. exact D.
Qed.
Lemma c42_simple_derivative ex inp d inp' out o o' dd dd' : smoved 1 inp d inp' ->
  simple_compute ex inp out = Ok o -> simple_compute ex inp' out = Ok o' -> simple_fwd ex d dd = Ok dd' ->
  forall n, slook n dd' - slook n dd = slook n o' - slook n o.
Proof.
  intros [_ Mv] C C' F n. destruct (simple_look _ _ _ _ C) as (_ & _ & L & K & _).
  destruct (simple_look _ _ _ _ C') as (_ & _ & L' & K' & _). unfold simple_fwd in F.
  destruct (get "y_old" d) as [x1|] eqn:G1; cbn [bind] in F; [|discriminate].
  destruct (sisub "y_stage" _ dd) as [d1|] eqn:U1; cbn [bind] in F; [|discriminate].
  destruct (get "y_accumulated_stages" d) as [x2|] eqn:G2; cbn [bind] in F; [|discriminate].
  destruct (supdate_inv Rminus _ _ _ _ U1) as (A1 & B1 & _).
  destruct (supdate_inv Rminus _ _ _ _ F) as (A2 & B2 & _).
  destruct (String.eqb_spec n "y_stage") as [->|Dn].
  - rewrite A2, A1, L, L', !Mv, (slook_get _ _ _ G1), (slook_get _ _ _ G2). unfold Rdiv. ring.
  - rewrite B2, B1, K, K' by exact Dn. ring.
Qed.
Lemma c42_simple_transposed ex din win dout wout :
  mem "y_old" din = true -> mem "y_accumulated_stages" din = true -> mem "y_stage" dout = true ->
  names win = names din -> names wout = names dout ->
  exists dout' win',
    simple_fwd ex din dout = Ok dout' /\ simple_rev ex win wout = Ok win' /\
    sinner wout dout' - sinner wout dout = sinner win' din - sinner win din.
Proof.
  intros M1 M2 M3 N1 N2. set (h := x_step_size ex). set (fc := / (1 + h * x_stage_factor ex)).
  destruct (spair _ _ (fun x => fc * x) fc "y_old" "y_stage" din win dout wout ssign_sub (fun x => eq_refl) N1 N2 M3)
    as (d1 & w1 & T1 & I1 & Nd1 & Nw1 & E1).
  assert (M4 : mem "y_stage" d1 = true) by (rewrite (names_mem d1 dout) by exact Nd1; exact M3).
  destruct (spair _ _ (fun x => h * fc * x) (h * fc) "y_accumulated_stages" "y_stage" din w1 d1 wout ssign_sub (fun x => eq_refl)
    ltac:(congruence) ltac:(congruence) M4) as (d2 & w2 & T2 & I2 & Nd2 & Nw2 & E2).
  exists d2, w2. unfold simple_fwd, simple_rev. fold h. fold fc.
  assert (Mw : mem "y_stage" wout = true) by (rewrite (names_mem wout dout) by exact N2; exact M3).
  unfold transfer in T1, T2. unfold into in I1, I2. rewrite M1, (get_slook _ _ M1) in T1. rewrite M2, (get_slook _ _ M2) in T2.
  rewrite (names_mem win din _ N1), M1, (get_slook _ _ Mw) in I1.
  rewrite (names_mem w1 din) in I2 by congruence. rewrite M2, (get_slook _ _ Mw) in I2. cbn [bind] in *.
  rewrite (get_slook _ _ M1), (get_slook _ _ M2), (get_slook _ _ Mw). cbn [bind]. unfold sisub.
  rewrite T1, I1; cbn [bind]. rewrite T2, I2. repeat split. lra.
Qed.
Lemma c42_simple_partial_view ex : exists din dout,
  simple_fwd ex din dout = Err KeyError /\ simple_rev ex din dout = Err KeyError /\
  names din = ["y_old"] /\ names dout = ["y_stage"].
Proof. exists [("y_old", 1)], [("y_stage", 1)]. repeat split. Qed.

(** ** ProtheroRobinson *)
Lemma phi_derivative t : derivable_pt_lim phi t (d_phi t).
Proof.
  unfold phi, d_phi. replace (cos (t + PI / 4)) with (cos (t + PI / 4) * (1 + 0)) by ring.
  apply (derivable_pt_lim_comp (fun s => s + PI / 4) sin).
  - apply (derivable_pt_lim_plus (fun s => s) (fun _ => PI / 4)); [apply derivable_pt_lim_id|apply derivable_pt_lim_const].
  - apply derivable_pt_lim_sin.
Qed.
Lemma c42_prothero_solves lambda ex inp out :
  mem "time" inp = true -> mem "x" inp = true -> mem "acc_stages" inp = true -> mem "x_stage" out = true ->
  1 - lambda * x_step_size ex * x_stage_factor ex <> 0 ->
  exists o p, prothero_compute lambda ex inp out = Ok o /\
    derivable_pt_lim (fun t => sin (t + PI / 4)) (slook "time" inp) p /\
    slook "x_stage" o = lambda * (slook "x" inp + x_step_size ex * (slook "acc_stages" inp + x_stage_factor ex * slook "x_stage" o)
       - sin (slook "time" inp + PI / 4)) + p.
Proof.
  intros M1 M2 M3 M4 D. unfold prothero_compute.
  rewrite (get_slook _ _ M1), (get_slook _ _ M2), (get_slook _ _ M3); cbn [bind].
  match goal with |- context [sput "x_stage" ?v out] => destruct (supdate_ok (fun _ x => x) "x_stage" v out M4) as (o & U & L & _) end.
  exists o, (d_phi (slook "time" inp)). split; [exact U|]. split; [apply phi_derivative|].
  rewrite L. fold (phi (slook "time" inp)). field. exact D.
Qed.
Lemma c42_prothero_derivative_refuted : exists lambda ex inp d inp' out o o' dd dd',
  1 - lambda * x_step_size ex * x_stage_factor ex <> 0 /\ smoved 1 inp d inp' /\
  prothero_compute lambda ex inp out = Ok o /\ prothero_compute lambda ex inp' out = Ok o' /\
  prothero_fwd d dd = Ok dd' /\ names dd = ["x_stage"] /\
  slook "x_stage" dd' - slook "x_stage" dd <> slook "x_stage" o' - slook "x_stage" o.
Proof.
  exists (-1), {| x_step_size := 0; x_stage_factor := 0 |}.
  exists [("time", 0); ("x", 0); ("acc_stages", 0)], [("time", 0); ("x", 1); ("acc_stages", 0)], [("time", 0); ("x", 1); ("acc_stages", 0)].
  exists [("x_stage", 0)]. do 2 eexists. exists [("x_stage", 0)]. eexists.
  cbn [x_step_size x_stage_factor]. split; [lra|]. split.
  { split; [reflexivity|]. intros n. unfold slook; cbn [get].
    destruct (String.eqb n "time"); [ring|]. destruct (String.eqb n "x"); [ring|]. destruct (String.eqb n "acc_stages"); ring. }
  do 4 (split; [reflexivity|]).
  unfold slook; cbn [get String.eqb Ascii.eqb Bool.eqb x_step_size x_stage_factor].
  replace (1 - -1 * 0 * 0) with 1 by ring. unfold Rdiv. rewrite Rinv_1. lra.
Qed.

(** ** Kaps *)
Lemma two_names (a b : string) (v : omvec R) : names v = [a; b] -> exists x y, v = [(a, x); (b, y)].
Proof.
  unfold names. destruct v as [|[n x] [|[m y] [|? ?]]]; cbn [map fst]; try discriminate. intros [= -> ->]. eauto.
Qed.

Lemma kaps1_residuals eps ex inp out r r' : kaps1_apply_nonlinear eps ex inp out r = Ok r' ->
  slook "y_1" r' = slook "y_1_old" inp + x_step_size ex * slook "y_1_accumulated_stages" inp
     + x_step_size ex * x_stage_factor ex * slook "y_1_stage" out - slook "y_1" out /\
  slook "y_1_stage" r' = - (1 + 2 * eps) * slook "y_1" out + slook "y_2" inp ^ 2 - eps * slook "y_1_stage" out /\
  (forall n, n <> "y_1" -> n <> "y_1_stage" -> slook n r' = slook n r) /\ names r' = names r.
Proof.
  unfold kaps1_apply_nonlinear.
  destruct (get "y_1_old" inp) as [old|] eqn:G1; cbn [bind]; [|discriminate].
  destruct (get "y_1_accumulated_stages" inp) as [acc|] eqn:G2; cbn [bind]; [|discriminate].
  destruct (get "y_1_stage" out) as [k|] eqn:G3; cbn [bind]; [|discriminate].
  destruct (get "y_1" out) as [y|] eqn:G4; cbn [bind]; [|discriminate].
  destruct (sput "y_1" _ r) as [r1|] eqn:U1; cbn [bind]; [|discriminate].
  destruct (get "y_2" inp) as [y2|] eqn:G5; cbn [bind]; [|discriminate]. intros U2.
  destruct (supdate_inv (fun _ x => x) _ _ _ _ U1) as (A1 & B1 & N1).
  destruct (supdate_inv (fun _ x => x) _ _ _ _ U2) as (A2 & B2 & N2).
  rewrite (slook_get _ _ _ G1), (slook_get _ _ _ G2), (slook_get _ _ _ G3), (slook_get _ _ _ G4), (slook_get _ _ _ G5).
  repeat split.
  - rewrite B2 by discriminate. exact A1.
  - exact A2.
  - intros n D1 D2. rewrite B2, B1 by assumption. reflexivity.
  - congruence.
Qed.
Lemma kaps2_residuals ex inp out r r' : kaps2_apply_nonlinear ex inp out r = Ok r' ->
  slook "y_2" r' = slook "y_2_old" inp + x_step_size ex * slook "y_2_accumulated_stages" inp
     + x_step_size ex * x_stage_factor ex * slook "y_2_stage" out - slook "y_2" out /\
  slook "y_2_stage" r' = slook "y_1" inp - slook "y_2" out - slook "y_2" out ^ 2 - slook "y_2_stage" out /\
  (forall n, n <> "y_2" -> n <> "y_2_stage" -> slook n r' = slook n r) /\ names r' = names r.
Proof.
  unfold kaps2_apply_nonlinear.
  destruct (get "y_2_old" inp) as [old|] eqn:G1; cbn [bind]; [|discriminate].
  destruct (get "y_2_accumulated_stages" inp) as [acc|] eqn:G2; cbn [bind]; [|discriminate].
  destruct (get "y_2_stage" out) as [k|] eqn:G3; cbn [bind]; [|discriminate].
  destruct (get "y_2" out) as [y|] eqn:G4; cbn [bind]; [|discriminate].
  destruct (sput "y_2" _ r) as [r1|] eqn:U1; cbn [bind]; [|discriminate].
  destruct (get "y_1" inp) as [y1|] eqn:G5; cbn [bind]; [|discriminate]. intros U2.
  destruct (supdate_inv (fun _ x => x) _ _ _ _ U1) as (A1 & B1 & N1).
  destruct (supdate_inv (fun _ x => x) _ _ _ _ U2) as (A2 & B2 & N2).
  rewrite (slook_get _ _ _ G1), (slook_get _ _ _ G2), (slook_get _ _ _ G3), (slook_get _ _ _ G4), (slook_get _ _ _ G5).
  repeat split.
  - rewrite B2 by discriminate. exact A1.
  - exact A2.
  - intros n D1 D2. rewrite B2, B1 by assumption. reflexivity.
  - congruence.
Qed.

Lemma three_names (a b c : string) (v : omvec R) : names v = [a; b; c] -> exists x y z, v = [(a, x); (b, y); (c, z)].
Proof.
  unfold names. destruct v as [|[n x] [|[m y] [|[k z] [|? ?]]]]; cbn [map fst]; try discriminate. intros [= -> -> ->]. eauto.
Qed.
Ltac concrete := repeat match goal with
  | H : kaps1_vectors _ _ |- _ => destruct H
  | H : kaps2_vectors _ _ |- _ => destruct H
  | H : names ?v = outs1 |- _ => destruct (two_names _ _ _ H) as (? & ? & ->); clear H
  | H : names ?v = outs2 |- _ => destruct (two_names _ _ _ H) as (? & ? & ->); clear H
  | H : names ?v = [_; _; _] |- _ => destruct (three_names _ _ _ _ H) as (? & ? & ? & ->); clear H
  end.
Ltac run := cbn [get mem existsb fst snd orb update sput siadd sisub transfer into bind String.eqb Ascii.eqb Bool.eqb
   x_step_size x_stage_factor].

Lemma lin1_run eps ex inp out y k : kaps1_vectors inp out ->
  lin1 eps ex inp [("y_1", y); ("y_1_stage", k)] =
  Ok [("y_1", 0 + x_step_size ex * x_stage_factor ex * k - y); ("y_1_stage", 0 - eps * k - (1 + 2 * eps) * y)].
Proof. intros V. concrete. reflexivity. Qed.
Lemma lin2_run ex inp out y k : kaps2_vectors inp out ->
  lin2 ex out [("y_2", y); ("y_2_stage", k)] =
  Ok [("y_2", 0 + x_step_size ex * x_stage_factor ex * k - y); ("y_2_stage", 0 - (1 + 2 * slook "y_2" out) * y - k)].
Proof. intros V. concrete. reflexivity. Qed.
Lemma nonsingular1 eps ex inp out : kaps1_vectors inp out -> nonsingular outs1 (lin1 eps ex inp) ->
  eps + (1 + 2 * eps) * x_step_size ex * x_stage_factor ex <> 0.
Proof.
  intros V N D. specialize (N [("y_1", x_step_size ex * x_stage_factor ex); ("y_1_stage", 1)] _ eq_refl (lin1_run _ _ _ _ _ _ V)).
  assert (Z : slook "y_1_stage" [("y_1", x_step_size ex * x_stage_factor ex); ("y_1_stage", 1)] = 0).
  { apply N. intros n. unfold slook; cbn [get]. destruct (String.eqb n "y_1"); [ring|].
    destruct (String.eqb n "y_1_stage"); [|reflexivity].
    transitivity (- (eps + (1 + 2 * eps) * x_step_size ex * x_stage_factor ex)); [ring|rewrite D; ring]. }
  unfold slook in Z; cbn in Z. lra.
Qed.
Lemma nonsingular2 ex inp out : kaps2_vectors inp out -> nonsingular outs2 (lin2 ex out) ->
  1 + (1 + 2 * slook "y_2" out) * x_step_size ex * x_stage_factor ex <> 0.
Proof.
  intros V N D. specialize (N [("y_2", x_step_size ex * x_stage_factor ex); ("y_2_stage", 1)] _ eq_refl (lin2_run _ _ _ _ _ V)).
  assert (Z : slook "y_2_stage" [("y_2", x_step_size ex * x_stage_factor ex); ("y_2_stage", 1)] = 0).
  { apply N. intros n. unfold slook; cbn [get]. destruct (String.eqb n "y_2"); [ring|].
    destruct (String.eqb n "y_2_stage"); [|reflexivity].
    transitivity (- (1 + (1 + 2 * slook "y_2" out) * x_step_size ex * x_stage_factor ex)); [unfold slook; ring|rewrite D; ring]. }
  unfold slook in Z; cbn in Z. lra.
Qed.

Lemma c43_kaps1_solves eps ex inp out r : kaps1_vectors inp out -> names r = outs1 ->
  nonsingular outs1 (lin1 eps ex inp) ->
  exists o r', kaps1_solve_nonlinear eps ex inp out = Ok o /\ kaps1_apply_nonlinear eps ex inp o r = Ok r' /\
    names r' = outs1 /\ all_zero r'.
Proof.
  intros V Nr N. assert (D := nonsingular1 _ _ _ _ V N). concrete. do 2 eexists.
  split; [reflexivity|]. split; [reflexivity|]. split; [reflexivity|].
  intros n. unfold slook; cbn [get].
  destruct (String.eqb n "y_1"); [ring|]. destruct (String.eqb n "y_1_stage"); [|reflexivity].
  cbn [x_step_size x_stage_factor]. field. intros E; apply D; rewrite <- E; ring.
Qed.
Lemma neqb_R (a b : R) : neqb a b = true <-> a = b.
Proof. cbn. unfold Reqb. destruct (Req_EM_T a b); split; auto; discriminate. Qed.
Lemma kaps2_root h a old acc y1 y k : h * a <> 0 ->
  y = old + h * (acc + a * k) -> k = y1 - y - y ^ 2 -> 0 <= kaps2_radicand h a old acc y1.
Proof.
  intros D Y K. unfold kaps2_radicand.
  assert (E : h * a * y ^ 2 + (1 + h * a) * y - (old + h * acc + h * a * y1) = 0).
  { transitivity (y - (old + h * (acc + a * (y1 - y - y ^ 2)))); [ring|]. rewrite <- K. lra. }
  replace (4 * a ^ 2 * h ^ 2 * y1 + a ^ 2 * h ^ 2 + 4 * a * h ^ 2 * acc + 4 * a * h * old + 2 * a * h + 1)
    with ((2 * (h * a) * y + (1 + h * a)) ^ 2
          - 4 * (h * a) * (h * a * y ^ 2 + (1 + h * a) * y - (old + h * acc + h * a * y1))) by ring.
  rewrite E, Rmult_0_r, Rminus_0_r. apply pow2_ge_0.
Qed.
Lemma c43_kaps2_solves ex inp out r : kaps2_vectors inp out -> names r = outs2 ->
  x_step_size ex <> 0 ->
  (exists y k, y = slook "y_2_old" inp + x_step_size ex * (slook "y_2_accumulated_stages" inp + x_stage_factor ex * k) /\
               k = slook "y_1" inp - y - y ^ 2) ->
  exists o r', kaps2_solve_nonlinear ex inp out = Ok o /\ kaps2_apply_nonlinear ex inp o r = Ok r' /\
    names r' = outs2 /\ all_zero r'.
Proof.
  intros V Nr H (y & k & Y & K). concrete. unfold slook in Y, K; cbn [get String.eqb Ascii.eqb Bool.eqb] in Y, K.
  destruct ex as [h a]; cbn [x_step_size x_stage_factor] in *.
  unfold kaps2_solve_nonlinear; run. destruct (neqb a 0) eqn:A; cbn [negb]; run.
  - apply neqb_R in A. subst a. do 2 eexists.
    split; [reflexivity|]. split; [reflexivity|]. split; [reflexivity|].
    intros n. unfold slook; cbn [get]. cbn [x_step_size x_stage_factor]. destruct (String.eqb n "y_2"); [ring|]. destruct (String.eqb n "y_2_stage"); [ring|reflexivity].
  - assert (Ha : a <> 0) by (intros E; apply neqb_R in E; cbn in A, E; congruence).
    assert (R := kaps2_root h a _ _ _ y k (Rmult_integral_contrapositive_currified _ _ H Ha) Y K).
    do 2 eexists. split; [reflexivity|]. split; [reflexivity|]. split; [reflexivity|].
    assert (Q := pow2_sqrt _ R). set (s := sqrt _) in *. clearbody s. unfold kaps2_radicand in Q.
    intros n. unfold slook; cbn [get]. cbn [x_step_size x_stage_factor]. destruct (String.eqb n "y_2"); [ring|]. destruct (String.eqb n "y_2_stage"); [|reflexivity].
    cbn [x_step_size x_stage_factor].
    match goal with |- ?e = 0 => replace e with ((4 * a ^ 2 * h ^ 2 * x5 + a ^ 2 * h ^ 2 + 4 * a * h ^ 2 * x4 + 4 * a * h * x3 + 2 * a * h + 1 - s ^ 2) / (4 * a ^ 2 * h ^ 2)) by (field; auto) end.
    rewrite Q. field. auto.
Qed.

Lemma two_eq (a b : string) (x y x' y' : R) : x = x' -> y = y' -> [(a, x); (b, y)] = [(a, x'); (b, y')].
Proof. intros -> ->; reflexivity. Qed.
Lemma c43_kaps1_linear_fwd eps ex inp out d rhs : kaps1_vectors inp out ->
  names d = outs1 -> names rhs = outs1 -> nonsingular outs1 (lin1 eps ex inp) ->
  exists d', kaps1_solve_fwd eps ex d rhs = Ok d' /\ names d' = outs1 /\ lin1 eps ex inp d' = Ok rhs.
Proof.
  intros V Nd Nr N. assert (D := nonsingular1 _ _ _ _ V N). concrete. eexists.
  split; [reflexivity|]. split; [reflexivity|]. unfold lin1, kaps1_apply_fwd. run.
  apply f_equal, two_eq; field; exact D.
Qed.
Lemma c43_kaps1_linear_rev eps ex inp out rhs r : kaps1_vectors inp out ->
  names rhs = outs1 -> names r = outs1 -> nonsingular outs1 (lin1 eps ex inp) ->
  exists r', kaps1_solve_rev eps ex rhs r = Ok r' /\ names r' = outs1 /\
    kaps1_apply_rev eps ex inp [] [("y_1", 0); ("y_1_stage", 0)] r' = Ok ([], rhs).
Proof.
  intros V Nd Nr N. assert (D := nonsingular1 _ _ _ _ V N). concrete. eexists.
  split; [reflexivity|]. split; [reflexivity|]. unfold kaps1_apply_rev. run.
  apply f_equal, f_equal, two_eq; field; exact D.
Qed.
Lemma c43_kaps2_linear_fwd ex inp out d rhs : kaps2_vectors inp out ->
  names d = outs2 -> names rhs = outs2 -> nonsingular outs2 (lin2 ex out) ->
  exists d', kaps2_solve_fwd ex (slook "y_2" out) d rhs = Ok d' /\ names d' = outs2 /\ lin2 ex out d' = Ok rhs.
Proof.
  intros V Nd Nr N. assert (D := nonsingular2 _ _ _ V N). concrete. eexists.
  split; [reflexivity|]. split; [reflexivity|]. unfold lin2, kaps2_apply_fwd. run.
  unfold slook in *; cbn [get String.eqb Ascii.eqb Bool.eqb] in *.
  apply f_equal, two_eq; field; intros E; apply D; rewrite <- E; ring.
Qed.

(** The backward solve of the second component divides by something else:
    it is right exactly where the two quotients agree. *)
Lemma c43_kaps2_linear_rev ex inp out rhs r : kaps2_vectors inp out ->
  names rhs = outs2 -> names r = outs2 -> nonsingular outs2 (lin2 ex out) ->
  1 + (1 + 2 * slook "y_2" out) * (x_step_size ex * x_stage_factor ex)
    = 1 + 2 * slook "y_2" out * (x_step_size ex * x_stage_factor ex) ^ 2 ->
  exists r', kaps2_solve_rev ex (slook "y_2" out) rhs r = Ok r' /\ names r' = outs2 /\
    kaps2_apply_rev ex out [] [("y_2", 0); ("y_2_stage", 0)] r' = Ok ([], rhs).
Proof.
  intros V Nd Nr N Eq. assert (D := nonsingular2 _ _ _ V N). concrete. eexists.
  split; [reflexivity|]. split; [reflexivity|]. unfold kaps2_apply_rev. run.
  unfold slook in *; cbn [get String.eqb Ascii.eqb Bool.eqb] in *.
  assert (D2 : 2 * x_stage_factor ex * x_step_size ex * x3 * x_stage_factor ex * x_step_size ex + 1
     = 1 + (1 + 2 * x3) * x_step_size ex * x_stage_factor ex).
  { transitivity (1 + 2 * x3 * (x_step_size ex * x_stage_factor ex) ^ 2); [ring|rewrite <- Eq; ring]. }
  rewrite D2. apply f_equal, f_equal, two_eq; field; exact D.
Qed.
Lemma c43_kaps2_linear_rev_refuted : exists ex inp out rhs r r' d,
  kaps2_vectors inp out /\ names rhs = outs2 /\ names r = outs2 /\ nonsingular outs2 (lin2 ex out) /\
  kaps2_solve_rev ex (slook "y_2" out) rhs r = Ok r' /\
  kaps2_apply_rev ex out [] [("y_2", 0); ("y_2_stage", 0)] r' = Ok ([], d) /\ d <> rhs.
Proof.
  exists {| x_step_size := 1; x_stage_factor := 1 |}, [("y_2_old", 0); ("y_2_accumulated_stages", 0); ("y_1", 0)],
    [("y_2", 0); ("y_2_stage", 0)], [("y_2", 1); ("y_2_stage", 0)], [("y_2", 0); ("y_2_stage", 0)].
  do 2 eexists. split; [split; reflexivity|]. split; [reflexivity|]. split; [reflexivity|]. split.
  { intros d r Nd Lr Z. concrete. unfold lin2, kaps2_apply_fwd in Lr.
    cbn [mem existsb fst orb transfer get bind update siadd sisub String.eqb Ascii.eqb Bool.eqb x_step_size x_stage_factor] in Lr.
    injection Lr as <-. assert (Z1 := Z "y_2"). assert (Z2 := Z "y_2_stage").
    unfold slook in Z1, Z2. cbn [get String.eqb Ascii.eqb Bool.eqb] in Z1, Z2.
    intros n. unfold slook; cbn [get]. destruct (String.eqb n "y_2"); [lra|]. destruct (String.eqb n "y_2_stage"); [lra|reflexivity]. }
  split; [reflexivity|]. split; [reflexivity|]. unfold slook; cbn [get String.eqb Ascii.eqb Bool.eqb x_step_size x_stage_factor].
  intros H. injection H as H1 H2.
  match type of H1 with context [?a / ?b] => replace b with 1 in H1 by ring end. unfold Rdiv in H1. rewrite Rinv_1 in H1. lra.
Qed.

Lemma kaps1_fwd_look eps ex inp din dout r r' y2 : get "y_2" inp = Ok y2 ->
  kaps1_apply_fwd eps ex inp din dout r = Ok r' ->
  (mem "y_1" r = true -> slook "y_1" r' = slook "y_1" r + slook "y_1_old" din
     + x_step_size ex * slook "y_1_accumulated_stages" din
     + x_step_size ex * x_stage_factor ex * slook "y_1_stage" dout - slook "y_1" dout) /\
  (mem "y_1_stage" r = true -> slook "y_1_stage" r' = slook "y_1_stage" r + 2 * y2 * slook "y_2" din
     - eps * slook "y_1_stage" dout - (1 + 2 * eps) * slook "y_1" dout) /\
  (forall n, n <> "y_1" -> n <> "y_1_stage" -> slook n r' = slook n r).
Proof.
  intros G. unfold kaps1_apply_fwd.
  assert (Sx : sscale (fun x => x) 1) by (intros x; ring).
  destruct (if mem "y_1" r then _ else _) as [r1|] eqn:E1; cbn [bind]; [|discriminate].
  assert (A1 : (mem "y_1" r = true -> slook "y_1" r1 = slook "y_1" r + slook "y_1_old" din
     + x_step_size ex * slook "y_1_accumulated_stages" din
     + x_step_size ex * x_stage_factor ex * slook "y_1_stage" dout - slook "y_1" dout) /\
     (forall n, n <> "y_1" -> slook n r1 = slook n r) /\ names r1 = names r).
  { destruct (mem "y_1" r); [|injection E1 as <-; repeat split; discriminate].
    destruct (transfer siadd (fun x => x) "y_1_old" din "y_1" r) as [a1|] eqn:T1; cbn [bind] in E1; [|discriminate].
    destruct (transfer siadd _ "y_1_accumulated_stages" din "y_1" a1) as [a2|] eqn:T2; cbn [bind] in E1; [|discriminate].
    destruct (transfer siadd _ "y_1_stage" dout "y_1" a2) as [a3|] eqn:T3; cbn [bind] in E1; [|discriminate].
    destruct (stransfer_look _ _ _ _ _ _ _ _ _ ssign_add Sx T1) as (L1 & K1 & N1).
    destruct (stransfer_look _ _ _ _ _ _ _ _ _ ssign_add (fun x => eq_refl) T2) as (L2 & K2 & N2).
    destruct (stransfer_look _ _ _ _ _ _ _ _ _ ssign_add (fun x => eq_refl) T3) as (L3 & K3 & N3).
    destruct (stransfer_look _ _ _ _ _ _ _ _ _ ssign_sub Sx E1) as (L4 & K4 & N4).
    repeat split.
    - intros _. rewrite L4, L3, L2, L1. ring.
    - intros n D. rewrite K4, K3, K2, K1 by exact D. reflexivity.
    - congruence. }
  destruct A1 as (A1 & B1 & C1). rewrite (names_mem r1 r _ C1). rewrite G; cbn [bind].
  destruct (mem "y_1_stage" r) eqn:M2.
  - destruct (transfer siadd _ "y_2" din "y_1_stage" r1) as [a1|] eqn:T1; cbn [bind]; [|discriminate].
    destruct (transfer sisub _ "y_1_stage" dout "y_1_stage" a1) as [a2|] eqn:T2; cbn [bind]; [|discriminate]. intros T3.
    destruct (stransfer_look _ _ _ _ _ _ _ _ _ ssign_add (fun x => eq_refl) T1) as (L1 & K1 & N1).
    destruct (stransfer_look _ _ _ _ _ _ _ _ _ ssign_sub (fun x => eq_refl) T2) as (L2 & K2 & N2).
    destruct (stransfer_look _ _ _ _ _ _ _ _ _ ssign_sub (fun x => eq_refl) T3) as (L3 & K3 & N3).
    repeat split.
    + intros M. rewrite K3, K2, K1 by discriminate. auto.
    + intros _. rewrite L3, L2, L1, B1 by discriminate. ring.
    + intros n D1 D2. rewrite K3, K2, K1, B1 by assumption. reflexivity.
  - intros [= <-]. repeat split; auto; discriminate.
Qed.
Lemma kaps2_fwd_look ex out din dout r r' y2 : get "y_2" out = Ok y2 ->
  kaps2_apply_fwd ex out din dout r = Ok r' ->
  (mem "y_2" r = true -> slook "y_2" r' = slook "y_2" r + slook "y_2_old" din
     + x_step_size ex * slook "y_2_accumulated_stages" din
     + x_step_size ex * x_stage_factor ex * slook "y_2_stage" dout - slook "y_2" dout) /\
  (mem "y_2_stage" r = true -> slook "y_2_stage" r' = slook "y_2_stage" r + slook "y_1" din
     - (1 + 2 * y2) * slook "y_2" dout - slook "y_2_stage" dout) /\
  (forall n, n <> "y_2" -> n <> "y_2_stage" -> slook n r' = slook n r).
Proof.
  intros G. unfold kaps2_apply_fwd.
  assert (Sx : sscale (fun x => x) 1) by (intros x; ring).
  destruct (if mem "y_2" r then _ else _) as [r1|] eqn:E1; cbn [bind]; [|discriminate].
  assert (A1 : (mem "y_2" r = true -> slook "y_2" r1 = slook "y_2" r + slook "y_2_old" din
     + x_step_size ex * slook "y_2_accumulated_stages" din
     + x_step_size ex * x_stage_factor ex * slook "y_2_stage" dout - slook "y_2" dout) /\
     (forall n, n <> "y_2" -> slook n r1 = slook n r) /\ names r1 = names r).
  { destruct (mem "y_2" r); [|injection E1 as <-; repeat split; discriminate].
    destruct (transfer siadd (fun x => x) "y_2_old" din "y_2" r) as [a1|] eqn:T1; cbn [bind] in E1; [|discriminate].
    destruct (transfer siadd _ "y_2_accumulated_stages" din "y_2" a1) as [a2|] eqn:T2; cbn [bind] in E1; [|discriminate].
    destruct (transfer siadd _ "y_2_stage" dout "y_2" a2) as [a3|] eqn:T3; cbn [bind] in E1; [|discriminate].
    destruct (stransfer_look _ _ _ _ _ _ _ _ _ ssign_add Sx T1) as (L1 & K1 & N1).
    destruct (stransfer_look _ _ _ _ _ _ _ _ _ ssign_add (fun x => eq_refl) T2) as (L2 & K2 & N2).
    destruct (stransfer_look _ _ _ _ _ _ _ _ _ ssign_add (fun x => eq_refl) T3) as (L3 & K3 & N3).
    destruct (stransfer_look _ _ _ _ _ _ _ _ _ ssign_sub Sx E1) as (L4 & K4 & N4).
    repeat split.
    - intros _. rewrite L4, L3, L2, L1. ring.
    - intros n D. rewrite K4, K3, K2, K1 by exact D. reflexivity.
    - congruence. }
  destruct A1 as (A1 & B1 & C1). rewrite (names_mem r1 r _ C1). rewrite G; cbn [bind].
  destruct (mem "y_2_stage" r) eqn:M2.
  - destruct (transfer siadd _ "y_1" din "y_2_stage" r1) as [a1|] eqn:T1; cbn [bind]; [|discriminate].
    destruct (transfer sisub _ "y_2" dout "y_2_stage" a1) as [a2|] eqn:T2; cbn [bind]; [|discriminate]. intros T3.
    destruct (stransfer_look _ _ _ _ _ _ _ _ _ ssign_add Sx T1) as (L1 & K1 & N1).
    destruct (stransfer_look _ _ _ _ _ _ _ _ _ ssign_sub (fun x => eq_refl) T2) as (L2 & K2 & N2).
    destruct (stransfer_look _ _ _ _ _ _ _ _ _ ssign_sub Sx T3) as (L3 & K3 & N3).
    repeat split.
    + intros M. rewrite K3, K2, K1 by discriminate. auto.
    + intros _. rewrite L3, L2, L1, B1 by discriminate. ring.
    + intros n D1 D2. rewrite K3, K2, K1, B1 by assumption. reflexivity.
  - intros [= <-]. repeat split; auto; discriminate.
Qed.
Lemma c43_kaps1_derivative eps ex inp out din dout r dr dr' (inps outs rs : R -> omvec R) :
  mem "y_2" inp = true ->
  (forall s, smoved s inp din (inps s)) -> (forall s, smoved s out dout (outs s)) ->
  (forall s, kaps1_apply_nonlinear eps ex (inps s) (outs s) r = Ok (rs s)) ->
  kaps1_apply_fwd eps ex inp din dout dr = Ok dr' ->
  forall n, mem n dr = true -> derivable_pt_lim (fun s => slook n (rs s)) 0 (slook n dr' - slook n dr).
Proof.
  intros M Mi Mo A F n Hn. destruct (kaps1_fwd_look _ _ _ _ _ _ _ _ (get_slook _ _ M) F) as (F1 & F2 & F3).
  destruct (String.eqb_spec n "y_1") as [->|D1]; [|destruct (String.eqb_spec n "y_1_stage") as [->|D2]].
  - rewrite F1 by exact Hn.
    apply quadratic_derivative with (A := slook "y_1_old" inp + x_step_size ex * slook "y_1_accumulated_stages" inp
     + x_step_size ex * x_stage_factor ex * slook "y_1_stage" out - slook "y_1" out) (C := 0).
    intros s. rewrite (proj1 (kaps1_residuals _ _ _ _ _ _ (A s))).
    rewrite !(proj2 (Mi s)), !(proj2 (Mo s)). ring.
  - rewrite F2 by exact Hn.
    apply quadratic_derivative with (A := - (1 + 2 * eps) * slook "y_1" out + slook "y_2" inp ^ 2 - eps * slook "y_1_stage" out)
      (C := slook "y_2" din ^ 2).
    intros s. rewrite (proj1 (proj2 (kaps1_residuals _ _ _ _ _ _ (A s)))).
    rewrite !(proj2 (Mi s)), !(proj2 (Mo s)). ring.
  - rewrite F3 by assumption. apply quadratic_derivative with (A := slook n r) (C := 0).
    replace (slook n dr - slook n dr) with 0 by ring.
    intros s. rewrite (proj1 (proj2 (proj2 (kaps1_residuals _ _ _ _ _ _ (A s)))) n D1 D2). ring.
Qed.
Lemma c43_kaps2_derivative ex inp out din dout r dr dr' (inps outs rs : R -> omvec R) :
  mem "y_2" out = true ->
  (forall s, smoved s inp din (inps s)) -> (forall s, smoved s out dout (outs s)) ->
  (forall s, kaps2_apply_nonlinear ex (inps s) (outs s) r = Ok (rs s)) ->
  kaps2_apply_fwd ex out din dout dr = Ok dr' ->
  forall n, mem n dr = true -> derivable_pt_lim (fun s => slook n (rs s)) 0 (slook n dr' - slook n dr).
Proof.
  intros M Mi Mo A F n Hn. destruct (kaps2_fwd_look _ _ _ _ _ _ _ (get_slook _ _ M) F) as (F1 & F2 & F3).
  destruct (String.eqb_spec n "y_2") as [->|D1]; [|destruct (String.eqb_spec n "y_2_stage") as [->|D2]].
  - rewrite F1 by exact Hn.
    apply quadratic_derivative with (A := slook "y_2_old" inp + x_step_size ex * slook "y_2_accumulated_stages" inp
     + x_step_size ex * x_stage_factor ex * slook "y_2_stage" out - slook "y_2" out) (C := 0).
    intros s. rewrite (proj1 (kaps2_residuals _ _ _ _ _ (A s))).
    rewrite !(proj2 (Mi s)), !(proj2 (Mo s)). ring.
  - rewrite F2 by exact Hn.
    apply quadratic_derivative with (A := slook "y_1" inp - slook "y_2" out - slook "y_2" out ^ 2 - slook "y_2_stage" out)
      (C := - slook "y_2" dout ^ 2).
    intros s. rewrite (proj1 (proj2 (kaps2_residuals _ _ _ _ _ (A s)))).
    rewrite !(proj2 (Mi s)), !(proj2 (Mo s)). ring.
  - rewrite F3 by assumption. apply quadratic_derivative with (A := slook n r) (C := 0).
    replace (slook n dr - slook n dr) with 0 by ring.
    intros s. rewrite (proj1 (proj2 (proj2 (kaps2_residuals _ _ _ _ _ (A s)))) n D1 D2). ring.
Qed.

Lemma c43_kaps1_transposed eps ex inp din win dout wout dr wr : mem "y_2" inp = true ->
  names win = names din -> names wout = names dout -> names wr = names dr ->
  exists dr' win' wout', kaps1_apply_fwd eps ex inp din dout dr = Ok dr' /\
    kaps1_apply_rev eps ex inp win wout wr = Ok (win', wout') /\
    sinner wr dr' - sinner wr dr
    = (sinner win' din - sinner win din) + (sinner wout' dout - sinner wout dout).
Proof.
  intros M Ni No Nr. unfold kaps1_apply_fwd, kaps1_apply_rev. set (h := x_step_size ex). set (a := x_stage_factor ex).
  assert (Sx : sscale (fun x => x) 1) by (intros x; ring).
  rewrite (get_slook _ _ M). set (y2 := slook "y_2" inp).
  rewrite (names_mem wr dr "y_1" Nr), (names_mem wr dr "y_1_stage" Nr).
  assert (P : exists d i o,
    (if mem "y_1" dr then
      let* d := transfer siadd (fun x => x) "y_1_old" din "y_1" dr in
      let* d := transfer siadd (fun x => h * x) "y_1_accumulated_stages" din "y_1" d in
      let* d := transfer siadd (fun x => h * a * x) "y_1_stage" dout "y_1" d in
      transfer sisub (fun x => x) "y_1" dout "y_1" d
    else Ok dr) = Ok d /\
    (if mem "y_1" dr then
      let* i := into siadd (fun x => x) "y_1" wr "y_1_old" win in
      let* i := into siadd (fun x => h * x) "y_1" wr "y_1_accumulated_stages" i in
      let* o := into siadd (fun x => h * a * x) "y_1" wr "y_1_stage" wout in
      let* o := into sisub (fun x => x) "y_1" wr "y_1" o in
      Ok (i, o)
    else Ok (win, wout)) = Ok (i, o) /\
    names d = names dr /\ names i = names win /\ names o = names wout /\
    sinner wr d - sinner wr dr = (sinner i din - sinner win din) + (sinner o dout - sinner wout dout)).
  { destruct (mem "y_1" dr) eqn:M1; [|exists dr, win, wout; repeat split; ring].
    destruct (spair _ _ (fun x => x) 1 "y_1_old" "y_1" din win dr wr ssign_add Sx Ni Nr M1) as (d1 & w1 & T1 & I1 & Nd1 & Nw1 & E1).
    rewrite <- (names_mem d1 dr _ Nd1) in M1.
    destruct (spair _ _ (fun x => h * x) (h) "y_1_accumulated_stages" "y_1" din w1 d1 wr ssign_add (fun x => eq_refl) ltac:(congruence) ltac:(congruence) M1)
      as (d2 & w2 & T2 & I2 & Nd2 & Nw2 & E2).
    rewrite <- (names_mem d2 d1 _ Nd2) in M1.
    destruct (spair _ _ (fun x => h * a * x) (h * a) "y_1_stage" "y_1" dout wout d2 wr ssign_add (fun x => eq_refl) ltac:(congruence) ltac:(congruence) M1)
      as (d3 & o1 & T3 & I3 & Nd3 & No3 & E3).
    rewrite <- (names_mem d3 d2 _ Nd3) in M1.
    destruct (spair _ _ (fun x => x) 1 "y_1" "y_1" dout o1 d3 wr ssign_sub Sx ltac:(congruence) ltac:(congruence) M1)
      as (d4 & o2 & T4 & I4 & Nd4 & No4 & E4).
    exists d4, w2, o2. unfold siadd, sisub. rewrite T1, I1; cbn [bind]. rewrite T2, I2; cbn [bind]. rewrite T3, I3; cbn [bind].
    rewrite T4, I4; cbn [bind]. repeat split; try congruence. lra. }
  destruct P as (d & i & o & -> & -> & Nd & Ni' & No' & E). cbn [bind fst snd].
  rewrite (names_mem d dr "y_1_stage" Nd).
  destruct (mem "y_1_stage" dr) eqn:M1; [|exists d, i, o; repeat split; lra].
  rewrite <- (names_mem d dr _ Nd) in M1.
  destruct (spair _ _ (fun x => 2 * y2 * x) (2 * y2) "y_2" "y_1_stage" din i d wr ssign_add (fun x => eq_refl) ltac:(congruence) ltac:(congruence) M1)
    as (d1 & w1 & T1 & I1 & Nd1 & Nw1 & E1).
  rewrite <- (names_mem d1 d _ Nd1) in M1.
  destruct (spair _ _ (fun x => eps * x) (eps) "y_1_stage" "y_1_stage" dout o d1 wr ssign_sub (fun x => eq_refl) ltac:(congruence) ltac:(congruence) M1)
    as (d2 & o1 & T2 & I2 & Nd2 & No2 & E2).
  rewrite <- (names_mem d2 d1 _ Nd2) in M1.
  destruct (spair _ _ (fun x => (1 + 2 * eps) * x) ((1 + 2 * eps)) "y_1" "y_1_stage" dout o1 d2 wr ssign_sub (fun x => eq_refl) ltac:(congruence) ltac:(congruence) M1)
    as (d3 & o2 & T3 & I3 & Nd3 & No3 & E3).
  exists d3, w1, o2. unfold siadd, sisub. rewrite T1, I1; cbn [bind]. rewrite T2, I2; cbn [bind]. rewrite T3, I3; cbn [bind].
  repeat split. lra.
Qed.
Lemma c43_kaps2_transposed ex out din win dout wout dr wr : mem "y_2" out = true ->
  names win = names din -> names wout = names dout -> names wr = names dr ->
  exists dr' win' wout', kaps2_apply_fwd ex out din dout dr = Ok dr' /\
    kaps2_apply_rev ex out win wout wr = Ok (win', wout') /\
    sinner wr dr' - sinner wr dr
    = (sinner win' din - sinner win din) + (sinner wout' dout - sinner wout dout).
Proof.
  intros M Ni No Nr. unfold kaps2_apply_fwd, kaps2_apply_rev. set (h := x_step_size ex). set (a := x_stage_factor ex).
  assert (Sx : sscale (fun x => x) 1) by (intros x; ring).
  rewrite (get_slook _ _ M). set (y2 := slook "y_2" out).
  rewrite (names_mem wr dr "y_2" Nr), (names_mem wr dr "y_2_stage" Nr).
  assert (P : exists d i o,
    (if mem "y_2" dr then
      let* d := transfer siadd (fun x => x) "y_2_old" din "y_2" dr in
      let* d := transfer siadd (fun x => h * x) "y_2_accumulated_stages" din "y_2" d in
      let* d := transfer siadd (fun x => h * a * x) "y_2_stage" dout "y_2" d in
      transfer sisub (fun x => x) "y_2" dout "y_2" d
    else Ok dr) = Ok d /\
    (if mem "y_2" dr then
      let* i := into siadd (fun x => x) "y_2" wr "y_2_old" win in
      let* i := into siadd (fun x => h * x) "y_2" wr "y_2_accumulated_stages" i in
      let* o := into siadd (fun x => h * a * x) "y_2" wr "y_2_stage" wout in
      let* o := into sisub (fun x => x) "y_2" wr "y_2" o in
      Ok (i, o)
    else Ok (win, wout)) = Ok (i, o) /\
    names d = names dr /\ names i = names win /\ names o = names wout /\
    sinner wr d - sinner wr dr = (sinner i din - sinner win din) + (sinner o dout - sinner wout dout)).
  { destruct (mem "y_2" dr) eqn:M1; [|exists dr, win, wout; repeat split; ring].
    destruct (spair _ _ (fun x => x) 1 "y_2_old" "y_2" din win dr wr ssign_add Sx Ni Nr M1) as (d1 & w1 & T1 & I1 & Nd1 & Nw1 & E1).
    rewrite <- (names_mem d1 dr _ Nd1) in M1.
    destruct (spair _ _ (fun x => h * x) (h) "y_2_accumulated_stages" "y_2" din w1 d1 wr ssign_add (fun x => eq_refl) ltac:(congruence) ltac:(congruence) M1)
      as (d2 & w2 & T2 & I2 & Nd2 & Nw2 & E2).
    rewrite <- (names_mem d2 d1 _ Nd2) in M1.
    destruct (spair _ _ (fun x => h * a * x) (h * a) "y_2_stage" "y_2" dout wout d2 wr ssign_add (fun x => eq_refl) ltac:(congruence) ltac:(congruence) M1)
      as (d3 & o1 & T3 & I3 & Nd3 & No3 & E3).
    rewrite <- (names_mem d3 d2 _ Nd3) in M1.
    destruct (spair _ _ (fun x => x) 1 "y_2" "y_2" dout o1 d3 wr ssign_sub Sx ltac:(congruence) ltac:(congruence) M1)
      as (d4 & o2 & T4 & I4 & Nd4 & No4 & E4).
    exists d4, w2, o2. unfold siadd, sisub. rewrite T1, I1; cbn [bind]. rewrite T2, I2; cbn [bind]. rewrite T3, I3; cbn [bind].
    rewrite T4, I4; cbn [bind]. repeat split; try congruence. lra. }
  destruct P as (d & i & o & -> & -> & Nd & Ni' & No' & E). cbn [bind fst snd].
  rewrite (names_mem d dr "y_2_stage" Nd).
  destruct (mem "y_2_stage" dr) eqn:M1; [|exists d, i, o; repeat split; lra].
  rewrite <- (names_mem d dr _ Nd) in M1.
  destruct (spair _ _ (fun x => x) 1 "y_1" "y_2_stage" din i d wr ssign_add Sx ltac:(congruence) ltac:(congruence) M1)
    as (d1 & w1 & T1 & I1 & Nd1 & Nw1 & E1).
  rewrite <- (names_mem d1 d _ Nd1) in M1.
  destruct (spair _ _ (fun x => (1 + 2 * y2) * x) ((1 + 2 * y2)) "y_2" "y_2_stage" dout o d1 wr ssign_sub (fun x => eq_refl) ltac:(congruence) ltac:(congruence) M1)
    as (d2 & o1 & T2 & I2 & Nd2 & No2 & E2).
  rewrite <- (names_mem d2 d1 _ Nd2) in M1.
  destruct (spair _ _ (fun x => x) 1 "y_2_stage" "y_2_stage" dout o1 d2 wr ssign_sub Sx ltac:(congruence) ltac:(congruence) M1)
    as (d3 & o2 & T3 & I3 & Nd3 & No3 & E3).
  exists d3, w1, o2. unfold siadd, sisub. rewrite T1, I1; cbn [bind]. rewrite T2, I2; cbn [bind]. rewrite T3, I3; cbn [bind].
  repeat split. lra.
Qed.

(** ** The reference solutions *)
Lemma exp_lin_derivative c t : derivable_pt_lim (fun s => exp (c * s)) t (c * exp (c * t)).
Proof.
  replace (c * exp (c * t)) with (exp (c * t) * (c * 1)) by ring.
  apply (derivable_pt_lim_comp (fun s => c * s) exp).
  - apply (derivable_pt_lim_scal (fun s => s)). apply derivable_pt_lim_id.
  - apply derivable_pt_lim_exp.
Qed.
Lemma deriv_ext f g t l : (forall s, f s = g s) -> derivable_pt_lim g t l -> derivable_pt_lim f t l.
Proof. intros E D eps He. destruct (D eps He) as [d Hd]. exists d. intros h Hn Hh. rewrite !E. auto. Qed.
Lemma c44_simple y0 t0 :
  simple_solution t0 y0 t0 = y0 /\
  forall t, exists k,
    simple_compute at_once [("y_old", simple_solution t y0 t0); ("y_accumulated_stages", 0)] [("y_stage", 0)] = Ok [("y_stage", k)] /\
    derivable_pt_lim (fun s => simple_solution s y0 t0) t k.
Proof.
  unfold simple_solution. split.
  - field. apply Rgt_not_eq, exp_pos.
  - intros t. eexists; split; [reflexivity|]. cbn [at_once x_step_size x_stage_factor].
    apply deriv_ext with (g := fun s => y0 / exp (- t0) * exp (-1 * s)).
    { intros s. do 2 f_equal. ring. }
    replace (_ / (1 + 0 * 0)) with (y0 / exp (- t0) * (-1 * exp (-1 * t))).
    + apply (derivable_pt_lim_scal (fun s => exp (-1 * s))). apply exp_lin_derivative.
    + replace (-1 * t) with (- t) by ring. field. apply Rgt_not_eq, exp_pos.
Qed.
Lemma c44_prothero lambda t0 :
  prothero_solution t0 (phi t0) t0 = phi t0 /\
  forall t, exists k,
    prothero_compute lambda at_once [("time", t); ("x", prothero_solution t (phi t0) t0); ("acc_stages", 0)] [("x_stage", 0)] = Ok [("x_stage", k)] /\
    derivable_pt_lim (fun s => prothero_solution s (phi t0) t0) t k.
Proof.
  assert (E : forall s, prothero_solution s (phi t0) t0 = phi s).
  { intros s. unfold prothero_solution, Rdiv. ring. }
  split; [apply E|]. intros t. eexists; split; [reflexivity|].
  apply deriv_ext with (g := phi); [exact E|]. rewrite E. cbn [at_once x_step_size x_stage_factor].
  replace (_ / (1 - lambda * 0 * 0)) with (d_phi t); [apply phi_derivative|]. field.
Qed.
Lemma c44_prothero_default lambda : prothero_initial = phi 0 /\
  forall t, exists k,
    prothero_compute lambda at_once [("time", t); ("x", prothero_solution t prothero_initial 0); ("acc_stages", 0)] [("x_stage", 0)] = Ok [("x_stage", k)] /\
    derivable_pt_lim (fun s => prothero_solution s prothero_initial 0) t k.
Proof.
  assert (E : prothero_initial = phi 0) by (unfold prothero_initial, phi; f_equal; ring).
  split; [exact E|]. rewrite E. apply c44_prothero.
Qed.
Lemma c44_prothero_refuted : exists lambda x0 t0 t k k',
  prothero_compute lambda at_once [("time", t); ("x", prothero_solution t x0 t0); ("acc_stages", 0)] [("x_stage", 0)] = Ok [("x_stage", k)] /\
  derivable_pt_lim (fun s => prothero_solution s x0 t0) t k' /\ k <> k'.
Proof.
  exists (-1), (phi 0 + 1), 0, 0. eexists. exists (d_phi 0 + 1 / exp 0 * exp 0).
  split; [reflexivity|]. split.
  - apply deriv_ext with (g := fun s => phi s + 1 / exp 0 * exp s).
    { intros s. unfold prothero_solution. f_equal. f_equal. f_equal. ring. }
    apply (derivable_pt_lim_plus phi (fun s => 1 / exp 0 * exp s)); [apply phi_derivative|].
    apply (derivable_pt_lim_scal exp). apply derivable_pt_lim_exp.
  - cbn [at_once x_step_size x_stage_factor]. unfold prothero_solution. rewrite exp_0.
    replace (1 - -1 * 0 * 0) with 1 by ring. unfold Rdiv. rewrite Rinv_1. lra.
Qed.
Lemma c44_kaps eps :
  kaps_solution 0 kaps_initial 0 = kaps_initial /\
  forall t, exists k r1 r2,
    derivable_pt_lim (fun s => fst (kaps_solution s kaps_initial 0)) t (fst k) /\
    derivable_pt_lim (fun s => snd (kaps_solution s kaps_initial 0)) t (snd k) /\
    kaps_residuals eps (kaps_solution t kaps_initial 0) k = Ok (r1, r2) /\ all_zero r1 /\ all_zero r2.
Proof.
  assert (E1 : forall s, fst (kaps_solution s kaps_initial 0) = exp (-2 * s)).
  { intros s. unfold kaps_solution, kaps_initial; cbn [fst]. ring. }
  assert (E2 : forall s, snd (kaps_solution s kaps_initial 0) = exp (-1 * s)).
  { intros s. unfold kaps_solution, kaps_initial; cbn [snd]. replace (-1 * s) with (- s) by ring. ring. }
  assert (Q : forall t, exp (-2 * t) = exp (-1 * t) ^ 2).
  { intros s. replace (-2 * s) with (-1 * s + -1 * s) by ring. rewrite exp_plus. ring. }
  split.
  - rewrite (surjective_pairing (kaps_solution 0 kaps_initial 0)), E1, E2, !Rmult_0_r, exp_0. reflexivity.
  - intros t. exists (-2 * exp (-2 * t), -1 * exp (-1 * t)). do 2 eexists. cbn [fst snd].
    split; [apply deriv_ext with (2 := exp_lin_derivative (-2) t); exact E1|].
    split; [apply deriv_ext with (2 := exp_lin_derivative (-1) t); exact E2|].
    split; [reflexivity|]. rewrite !E1, !E2, Q.
    split; intros n; unfold slook; cbn [get at_once x_step_size x_stage_factor];
      repeat match goal with |- context [String.eqb ?a ?b] => destruct (String.eqb a b) end; cbn [fst snd]; ring.
Qed.
Lemma c44_kaps_initial_refuted : exists y0, kaps_solution 0 y0 0 <> y0.
Proof.
  exists (1, 2). unfold kaps_solution. rewrite !Rmult_0_r, Ropp_0, exp_0. intros H.
  injection H as H _ || injection H as H. lra.
Qed.
Lemma c44_kaps_time_refuted : exists t0, kaps_solution t0 kaps_initial t0 <> kaps_initial.
Proof.
  exists 1. unfold kaps_solution, kaps_initial. intros H. injection H as H1 H2.
  assert (P : exp (-2 * 1) < exp 0) by (apply exp_increasing; lra). rewrite exp_0 in P. lra.
Qed.
