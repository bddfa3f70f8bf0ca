(** Rounding errors of the sums of a step. *)
From Coq Require Import List Reals Lia Lra Psatz Bool Arith.
From Verif Require Import Base Ext M_Tableau M_State M_ODE M_Step SpecRK SpecShape SpecConvergence SpecLocal SpecFloating
  L_Vec L_Step L_Generic L_StepT.
Import ListNotations.
Open Scope R_scope.

(** *** Sums of products, entry by entry *)
Section Entries.
Context {T : Type} {N : Num T}.
Fixpoint tsum (j : nat) (x w : nat -> T) : T :=
  match j with O => n0 | S j' => nadd (tsum j' x w) (nmul (x j') (w j')) end.
Lemma tsum_ext j x w x' w' : (forall i, (i < j)%nat -> x i = x' i /\ w i = w' i) -> tsum j x w = tsum j x' w'.
Proof.
  induction j as [|j IH]; intros H; cbn [tsum]; [reflexivity|].
  destruct (H j ltac:(lia)) as [-> ->]; rewrite IH by (intros; apply H; lia); reflexivity.
Qed.
Lemma combine_snoc {A B} (l : list A) : forall (l' : list B) x y, length l = length l' -> combine (l ++ [x]) (l' ++ [y]) = combine l l' ++ [(x, y)].
Proof. induction l as [|z l IH]; intros [|z' l'] x y H; cbn in *; try discriminate; [reflexivity|]; rewrite IH by lia; reflexivity. Qed.
Lemma einsum_entry n m (Hm : (m < n)%nat) : forall (field : list (list T)) (w : list T), length field = length w ->
  Forall (fun r => length r = n) field ->
  nth m (einsum_ij_i n field w) n0 = tsum (length field) (fun j => nth m (nth j field []) n0) (fun j => nth j w n0).
Proof.
  intros field; induction field as [|r field IH] using rev_ind; intros w Hl Hf.
  - destruct w; [|discriminate]; cbn; unfold vzeros; apply nth_repeat.
  - destruct w as [|x w _] using rev_ind; [rewrite app_length in Hl; cbn in Hl; lia|].
    rewrite !app_length in Hl; cbn in Hl; apply Forall_app in Hf; destruct Hf as [Hf Hr]; apply Forall_inv in Hr.
    unfold einsum_ij_i; rewrite combine_snoc by lia; rewrite fold_left_app; cbn [fold_left fst snd].
    fold (einsum_ij_i n field w); unfold vadd.
    pose proof (glen_einsum n field w Hf) as Le.
    rewrite (nth_map2 nadd _ _ m n0 n0 n0) by (rewrite ?map_length; lia).
    rewrite app_length, Nat.add_1_r; cbn [tsum]; f_equal.
    + rewrite IH by (auto; lia); apply tsum_ext; intros i Hi.
      rewrite !app_nth1 by lia; auto.
    + rewrite !app_nth2, Nat.sub_diag by lia; replace (length field - length w)%nat with 0%nat by lia; cbn [nth].
      rewrite (nth_indep _ n0 (nmul n0 x)) by (rewrite map_length; lia).
      rewrite (map_nth (fun z => nmul z x)); reflexivity.
Qed.
Lemma stages_entry (bt : tableau T) n i m field : tableau_wf bt -> (i < t_stages bt)%nat -> (m < n)%nat ->
  length field = t_stages bt -> Forall (fun r => length r = n) field ->
  length (accumulate_stages bt i field) = n /\
  nth m (accumulate_stages bt i field) n0 = tsum i (fun j => nth m (nth j field []) n0) (fun j => entry (t_A bt) i j).
Proof.
  intros Hbt Hi Hm Hl Hf.
  assert (Hn : length (nth 0 field []) = n) by (apply (Forall_nth_lt (fun r => length r = n)); auto; lia).
  unfold accumulate_stages; rewrite Hn; destruct i as [|i].
  { split; [apply glen_vzeros|]; cbn; unfold vzeros; apply nth_repeat. }
  assert (Hrow : length (nth (S i) (t_A bt) []) = t_stages bt).
  { apply (Forall_nth_lt (fun r => length r = t_stages bt)); [apply Hbt|]; rewrite (tw_A _ Hbt); exact Hi. }
  assert (Hf' : Forall (fun r => length r = n) (firstn (S i) field)) by (apply Forall_firstn; exact Hf).
  split; [apply glen_einsum, Hf'|].
  rewrite einsum_entry by (auto; rewrite !length_firstn_le by lia; reflexivity).
  rewrite length_firstn_le by lia; apply tsum_ext; intros j Hj; rewrite !nth_firstn_lt by exact Hj; split; reflexivity.
Qed.
Lemma step_entry (bt : tableau T) n m y field h : tableau_wf bt -> (m < n)%nat -> length y = n ->
  length field = t_stages bt -> Forall (fun r => length r = n) field ->
  nth m (accumulate_step bt y field h) n0
  = nadd (nth m y n0) (tsum (t_stages bt) (fun j => nth m (nth j field []) n0) (fun j => nmul h (nth j (t_b bt) n0))).
Proof.
  intros Hbt Hm Hy Hl Hf; unfold accumulate_step, vadd; rewrite Hy.
  rewrite (nth_map2 nadd _ _ m n0 n0 n0) by (rewrite ?glen_einsum by exact Hf; lia); f_equal.
  rewrite einsum_entry by (auto; rewrite glen_vscale, (tw_b _ Hbt); exact Hl).
  rewrite Hl; apply tsum_ext; intros j Hj; split; [reflexivity|].
  unfold vscale; rewrite (nth_indep _ n0 (nmul h n0)) by (rewrite map_length, (tw_b _ Hbt); exact Hj).
  apply map_nth.
Qed.
End Entries.

(** *** Their errors *)
Fixpoint growth (P : R) (j : nat) : R :=
  match j with O => 0 | S j' => 2 * growth P j' + (3 + INR (3 + j') * P) end.
Lemma growth_pos P j : 0 <= P -> 0 <= growth P j.
Proof.
  intros H; induction j as [|j IH]; cbn [growth]; [lra|].
  assert (0 <= INR (3 + j) * P) by (apply Rmult_le_pos; [apply pos_INR|exact H]); lra.
Qed.
Lemma growth_mono P i j : 0 <= P -> (i <= j)%nat -> growth P i <= growth P j.
Proof.
  intros H Hij; induction Hij as [|j Hij IH]; [lra|]; cbn [growth].
  pose proof (growth_pos P j H).
  assert (0 <= INR (3 + j) * P) by (apply Rmult_le_pos; [apply pos_INR|exact H]); lra.
Qed.

Lemma abs_near x y d : Rabs (x - y) <= d -> Rabs x <= Rabs y + d.
Proof. intros H; pose proof (Rabs_triang (x - y) y) as V; replace (x - y + y) with x in V by ring; lra. Qed.
Lemma abs_mul_le x y a b : Rabs x <= a -> Rabs y <= b -> Rabs (x * y) <= a * b.
Proof. intros; rewrite Rabs_mult; apply Rmult_le_compat; auto using Rabs_pos. Qed.

Section Errors.
Context {T : Type} {N : Num T}.
Variables (value : T -> R) (regular : T -> Prop) (u big : R).
Hypothesis Hr : rounded N value regular u big.
Hypothesis Hu : 0 <= u <= 1.

Lemma add_near x y A : regular x -> regular y -> Rabs (value x + value y) <= A -> A <= big ->
  regular (nadd x y) /\ Rabs (value (nadd x y) - (value x + value y)) <= u * (1 + A).
Proof.
  intros Hx Hy HA HB; destruct (rd_add _ _ _ _ _ Hr x y Hx Hy ltac:(lra)) as [H1 H2]; split; [exact H1|].
  eapply Rle_trans; [exact H2|]; apply Rmult_le_compat_l; lra.
Qed.
Lemma mul_near x y A : regular x -> regular y -> Rabs (value x * value y) <= A -> A <= big ->
  regular (nmul x y) /\ Rabs (value (nmul x y) - value x * value y) <= u * (1 + A).
Proof.
  intros Hx Hy HA HB; destruct (rd_mul _ _ _ _ _ Hr x y Hx Hy ltac:(lra)) as [H1 H2]; split; [exact H1|].
  eapply Rle_trans; [exact H2|]; apply Rmult_le_compat_l; lra.
Qed.

Lemma tsum_near M W x w j : 0 <= M -> 0 <= W ->
  (forall i, (i < j)%nat -> regular (x i) /\ Rabs (value (x i)) <= M) ->
  (forall i, (i < j)%nat -> regular (w i) /\ Rabs (value (w i)) <= W) ->
  growth (M * W) j <= big ->
  regular (tsum j x w) /\
  Rabs (value (tsum j x w) - rsum j (fun i => value (w i) * value (x i))) <= u * growth (M * W) j /\
  Rabs (rsum j (fun i => value (w i) * value (x i))) <= INR j * (M * W).
Proof.
  intros HM HW; set (P := M * W).
  assert (HP : 0 <= P) by (apply Rmult_le_pos; assumption).
  induction j as [|j IH]; intros Hx Hw HB.
  - cbn [tsum rsum growth]; destruct (rd_zero _ _ _ _ _ Hr) as [Z1 Z2]; rewrite Z2.
    split; [exact Z1|]; rewrite Rminus_0_r, !Rabs_R0; cbn; lra.
  - cbn [tsum rsum].
    destruct IH as (I1 & I2 & I3); [intros; apply Hx; lia|intros; apply Hw; lia| |].
    { eapply Rle_trans; [apply (growth_mono P j (S j) HP); lia|exact HB]. }
    destruct (Hx j ltac:(lia)) as [X1 X2]; destruct (Hw j ltac:(lia)) as [W1 W2].
    set (s := tsum j x w) in *; set (r := rsum j (fun i => value (w i) * value (x i))) in *.
    pose proof (growth_pos P j HP) as G0; cbn [growth] in HB |- *; set (g := growth P j) in *.
    assert (J : INR (3 + j) * P = 3 * P + INR j * P) by (rewrite plus_INR; cbn [INR]; ring).
    assert (J0 : 0 <= INR j * P) by (apply Rmult_le_pos; [apply pos_INR|exact HP]).
    assert (Pxw : Rabs (value (x j) * value (w j)) <= P) by (apply abs_mul_le; assumption).
    destruct (mul_near (x j) (w j) P X1 W1 Pxw ltac:(lra)) as [M1 M2].
    set (q := nmul (x j) (w j)) in *.
    pose proof (abs_near _ _ _ M2) as Q1; pose proof (abs_near _ _ _ I2) as Q2.
    assert (U1 : u * (1 + P) <= 1 * (1 + P)) by (apply Rmult_le_compat_r; lra).
    assert (U2 : u * g <= 1 * g) by (apply Rmult_le_compat_r; lra).
    assert (Hs : Rabs (value s + value q) <= INR j * P + g + P + (1 + P)).
    { eapply Rle_trans; [apply Rabs_triang|]; lra. }
    destruct (add_near s q _ I1 M1 Hs ltac:(lra)) as [A1 A2].
    split; [exact A1|]; split.
    + replace (value (nadd s q) - (r + value (w j) * value (x j)))
        with ((value (nadd s q) - (value s + value q)) + ((value s - r) + (value q - value (x j) * value (w j)))) by ring.
      eapply Rle_trans; [apply Rabs_triang|].
      pose proof (Rabs_triang (value s - r) (value q - value (x j) * value (w j))).
      replace (u * (2 * g + (3 + INR (3 + j) * P))) with
        (u * (1 + (INR j * P + g + P + (1 + P))) + (u * g + u * (1 + P))) by (rewrite J; ring).
      lra.
    + rewrite S_INR, Rmult_plus_distr_r, Rmult_1_l; eapply Rle_trans; [apply Rabs_triang|].
      rewrite (Rmult_comm (value (w j))); lra.
Qed.

(** The whole step. *)
Definition step_error (s : nat) (M Wb Yb : R) : R :=
  let P := M * (1 + 2 * Wb) in 2 * growth P s + INR s * P + INR s * (M * (1 + Wb)) + 2 + 2 * Wb + Yb.
Lemma step_near s M Wb Yb y h x b : 0 <= M -> 0 <= Wb -> 0 <= Yb -> regular h -> 0 < value h <= 1 ->
  regular y -> Rabs (value y) <= Yb ->
  (forall i, (i < s)%nat -> regular (x i) /\ Rabs (value (x i)) <= M) ->
  (forall i, (i < s)%nat -> regular (b i) /\ Rabs (value (b i)) <= Wb) ->
  step_error s M Wb Yb <= big ->
  let z := nadd y (tsum s x (fun j => nmul h (b j))) in
  regular z /\
  Rabs (value z - (value y + value h * rsum s (fun i => value (b i) * value (x i)))) <= u * step_error s M Wb Yb.
Proof.
  intros HM HW HY Rh Hh Ry By Hx Hb HB z.
  unfold step_error in *; set (P := M * (1 + 2 * Wb)) in *.
  assert (HP : 0 <= P) by (apply Rmult_le_pos; lra).
  assert (HPS : 0 <= INR s * P) by (apply Rmult_le_pos; [apply pos_INR|exact HP]).
  assert (HMS : 0 <= INR s * (M * (1 + Wb))) by (apply Rmult_le_pos; [apply pos_INR|apply Rmult_le_pos; lra]).
  pose proof (growth_pos P s HP) as HG.
  assert (Hw : forall i, (i < s)%nat -> regular (nmul h (b i)) /\ Rabs (value (nmul h (b i)) - value h * value (b i)) <= u * (1 + Wb)).
  { intros i Hi; destruct (Hb i Hi) as [B1 B2]; apply mul_near; auto; [|lra].
    replace Wb with (1 * Wb) by ring; apply abs_mul_le; [rewrite Rabs_pos_eq; lra|exact B2]. }
  assert (UW : u * (1 + Wb) <= 1 * (1 + Wb)) by (apply Rmult_le_compat_r; lra).
  assert (Hw' : forall i, (i < s)%nat -> regular (nmul h (b i)) /\ Rabs (value (nmul h (b i))) <= 1 + 2 * Wb).
  { intros i Hi; destruct (Hw i Hi) as [B1 B2]; split; [exact B1|]; apply abs_near in B2.
    assert (Rabs (value h * value (b i)) <= 1 * Wb) by (apply abs_mul_le; [rewrite Rabs_pos_eq; lra|apply Hb, Hi]); lra. }
  destruct (tsum_near M (1 + 2 * Wb) x (fun j => nmul h (b j)) s HM ltac:(lra) Hx Hw' ltac:(fold P; lra)) as (S1 & S2 & S3).
  fold P in S2, S3; cbv beta in S2, S3.
  set (q := tsum s x (fun j => nmul h (b j))) in *.
  set (r := rsum s (fun i => value (nmul h (b i)) * value (x i))) in *.
  assert (UG : u * growth P s <= 1 * growth P s) by (apply Rmult_le_compat_r; lra).
  pose proof (abs_near _ _ _ S2) as S4.
  destruct (add_near y q (Yb + INR s * P + growth P s) Ry S1) as [A1 A2]; [|lra|].
  { eapply Rle_trans; [apply Rabs_triang|]; lra. }
  fold z in A1, A2; split; [exact A1|].
  assert (D : Rabs (r - value h * rsum s (fun i => value (b i) * value (x i))) <= u * (INR s * (M * (1 + Wb)))).
  { unfold r; rewrite <- L_Vec.rsum_scal; clear -Hw Hx Hu HM HW.
    induction s as [|s IH]; cbn [rsum]; [rewrite Rminus_eq_0, Rabs_R0; cbn; lra|].
    replace (u * (INR (S s) * (M * (1 + Wb)))) with (u * (INR s * (M * (1 + Wb))) + u * (1 + Wb) * M) by (rewrite S_INR; ring).
    match goal with |- Rabs (?a + ?b - (?c + ?d)) <= _ => replace (a + b - (c + d)) with ((a - c) + (b - d)) by ring end.
    eapply Rle_trans; [apply Rabs_triang|]; apply Rplus_le_compat; [apply IH; intros; [apply Hx|apply Hw]; lia|].
    replace (value (nmul h (b s)) * value (x s) - value h * (value (b s) * value (x s)))
      with ((value (nmul h (b s)) - value h * value (b s)) * value (x s)) by ring.
    apply abs_mul_le; [apply Hw; lia|apply Hx; lia]. }
  replace (value z - (value y + value h * rsum s (fun i => value (b i) * value (x i))))
    with ((value z - (value y + value q)) + ((value q - r) + (r - value h * rsum s (fun i => value (b i) * value (x i))))) by ring.
  eapply Rle_trans; [apply Rabs_triang|].
  pose proof (Rabs_triang (value q - r) (r - value h * rsum s (fun i => value (b i) * value (x i)))).
  replace (u * (2 * growth P s + INR s * P + INR s * (M * (1 + Wb)) + 2 + 2 * Wb + Yb)) with
    (u * (1 + (Yb + INR s * P + growth P s)) + (u * growth P s + u * (INR s * (M * (1 + Wb)))) + u * (1 + 2 * Wb)) by ring.
  assert (0 <= u * (1 + 2 * Wb)) by (apply Rmult_le_pos; lra); lra.
Qed.

(** Stage times and the final time. *)
Definition time_error (Tb Cb : R) : R := 4 + Tb + 3 * Cb.
Lemma time_near t h c Tb Cb : 0 <= Tb -> 0 <= Cb -> regular t -> regular h -> regular c -> 0 < value h <= 1 ->
  Rabs (value t) <= Tb -> Rabs (value c) <= Cb -> time_error Tb Cb <= big ->
  regular (nadd t (nmul h c)) /\ Rabs (value (nadd t (nmul h c)) - (value t + value c * value h)) <= u * time_error Tb Cb.
Proof.
  unfold time_error; intros HT HC Rt Rh Rc Hh Bt Bc HB.
  assert (Hm : Rabs (value h * value c) <= Cb).
  { replace Cb with (1 * Cb) by ring; apply abs_mul_le; [rewrite Rabs_pos_eq; lra|exact Bc]. }
  destruct (mul_near h c Cb Rh Rc Hm ltac:(lra)) as [M1 M2].
  pose proof (abs_near _ _ _ M2) as M3.
  assert (U : u * (1 + Cb) <= 1 * (1 + Cb)) by (apply Rmult_le_compat_r; lra).
  destruct (add_near t (nmul h c) (Tb + Cb + (1 + Cb)) Rt M1) as [A1 A2]; [|lra|].
  { eapply Rle_trans; [apply Rabs_triang|]; lra. }
  split; [exact A1|].
  replace (value (nadd t (nmul h c)) - (value t + value c * value h)) with
    ((value (nadd t (nmul h c)) - (value t + value (nmul h c))) + (value (nmul h c) - value h * value c)) by ring.
  eapply Rle_trans; [apply Rabs_triang|].
  replace (u * (4 + Tb + 3 * Cb)) with (u * (1 + (Tb + Cb + (1 + Cb))) + u * (1 + Cb) + u * 1) by ring; lra.
Qed.
Lemma end_near t h Tb : 0 <= Tb -> regular t -> regular h -> 0 < value h <= 1 -> Rabs (value t) <= Tb -> 4 + Tb <= big ->
  regular (nadd t h) /\ Rabs (value (nadd t h) - (value t + value h)) <= u * (4 + Tb).
Proof.
  intros HT Rt Rh Hh Bt HB; destruct (add_near t h (Tb + 1) Rt Rh) as [A1 A2]; [|lra|].
  { eapply Rle_trans; [apply Rabs_triang|]; rewrite (Rabs_pos_eq (value h)); lra. }
  split; [exact A1|]; eapply Rle_trans; [exact A2|]; apply Rmult_le_compat_l; lra.
Qed.
End Errors.
