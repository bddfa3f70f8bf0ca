(** The facts about the shipped tableaux that the checks of L_StiffCheck.v give. *)
From Coq Require Import List Bool Arith Reals Lia Lra QArith Qreals ZArith.
From Verif Require Import Base Ext M_Tableau M_Tableaux M_TableauxInit SpecRK SpecShape SpecOrder SpecTree SpecStage SpecStiff L_Vec L_Step L_Fields L_OrderCheck L_Order L_Stage3 L_StiffCheck L_Stiff.
Import ListNotations.
Open Scope nat_scope.
Open Scope R_scope.
Local Open Scope list_scope.

Lemma Rabs_le_inv u v : Rabs u <= v -> - v <= u <= v.
Proof. intros H. unfold Rabs in H. destruct (Rcase_abs u); lra. Qed.

(** ** Signs and bounds in the two number representations *)
Lemma fnonneg_sound k x : frel k x -> fnonneg k = true -> 0 <= x.
Proof.
  intros <- H. unfold fnonneg in H. apply orb_true_iff in H as [H|H].
  - rewrite (feqb_toR _ _ H), toR_0. lra.
  - apply Qle_bool_iff, Qle_Rle in H. pose proof (toR_enclosed k) as E. apply Rabs_le_inv in E. lra.
Qed.
Lemma Q2R_Qabs q : Q2R (Qabs.Qabs q) = Rabs (Q2R q).
Proof.
  assert (Z : Q2R 0 = 0) by (unfold Q2R; cbn; lra).
  apply Qabs.Qabs_case; intros H; apply Qle_Rle in H; rewrite Z in H.
  - rewrite Rabs_right; [reflexivity|lra].
  - rewrite Q2R_opp, Rabs_left1; [reflexivity|lra].
Qed.
Lemma fbelow_sound k l x y e : frel k x -> frel l y -> 0 <= y -> 0 <= Q2R e -> fbelow k l e = true -> Rabs x <= Q2R e * y.
Proof.
  intros <- <- Hy He H. unfold fbelow in H. apply orb_true_iff in H as [H|H].
  - rewrite (feqb_toR _ _ H), toR_0, Rabs_R0. now apply Rmult_le_pos.
  - apply Qle_bool_iff, Qle_Rle in H. rewrite Q2R_plus, Q2R_mult, Q2R_minus, Q2R_Qabs in H.
    pose proof (toR_enclosed k) as E. pose proof (toR_enclosed l) as E2. apply Rabs_le_inv in E2.
    pose proof (Rabs_triang (toR k - Q2R (fapprox k)) (Q2R (fapprox k))) as T.
    replace (toR k - Q2R (fapprox k) + Q2R (fapprox k)) with (toR k) in T by ring.
    assert (Q2R e * (Q2R (fapprox l) - Q2R (ferr l)) <= Q2R e * toR l) by (apply Rmult_le_compat_l; lra). lra.
Qed.
Lemma bnonneg_sound k x : contains k x -> bnonneg k = true -> 0 <= x.
Proof.
  unfold contains, bnonneg. intros C H. apply Z.leb_le, IZR_le in H. apply Rabs_le_inv in C. pose proof unit_pos as U.
  apply Rmult_le_reg_r with (IZR unit); [exact U|]. lra.
Qed.
Lemma bbelow_sound k l x y e : contains k x -> contains l y -> 0 <= y -> 0 <= Q2R e -> bbelow k l e = true -> Rabs x <= Q2R e * y.
Proof.
  intros Ck Cl Hy He H. apply contains_abs in Ck. unfold contains in Cl. apply Rabs_le_inv in Cl. pose proof unit_pos as U.
  unfold bbelow in H. apply Z.leb_le, IZR_le in H. rewrite !mult_IZR, minus_IZR in H.
  assert (D : 0 < IZR (Zpos (Qden e))) by (apply IZR_lt; reflexivity). rewrite <- (Q2R_scaled e) in H.
  apply Rmult_le_reg_r with (IZR unit); [exact U|].
  apply Rmult_le_reg_r with (IZR (Zpos (Qden e))); [exact D|].
  apply Rle_trans with (IZR (Z.abs (fst k) + snd k) * IZR (Zpos (Qden e))); [apply Rmult_le_compat_r; lra|].
  eapply Rle_trans; [exact H|].
  replace (Q2R e * y * IZR unit * IZR (Zpos (Qden e))) with (Q2R e * IZR (Zpos (Qden e)) * (y * IZR unit)) by ring.
  apply Rmult_le_compat_l; [apply Rmult_le_pos; lra|]. lra.
Qed.

(** ** Syntactic checks *)
Lemma expr_eqb_eq : forall x y, expr_eqb x y = true -> x = y.
Proof.
  induction x; intros [] H; cbn in H; try discriminate; repeat rewrite andb_true_iff in H.
  - destruct H as (H1 & H2). apply Z.eqb_eq in H1. apply Pos.eqb_eq in H2. destruct q, q0. cbn in *. now subst.
  - f_equal. auto.
  - f_equal; apply IHx1 || apply IHx2; tauto.
  - f_equal; apply IHx1 || apply IHx2; tauto.
  - f_equal; apply IHx1 || apply IHx2; tauto.
  - f_equal; apply IHx1 || apply IHx2; tauto.
  - destruct H as (H1 & H2). apply Nat.eqb_eq in H2. subst. f_equal. auto.
  - f_equal. auto.
Qed.
Lemma exprs_eqb_eq : forall x y, exprs_eqb x y = true -> x = y.
Proof.
  induction x as [|a x IH]; intros [|b y] H; cbn in H; try discriminate; [reflexivity|].
  apply andb_true_iff in H as (H1 & H2). f_equal; auto using expr_eqb_eq.
Qed.
Lemma zero_literal_sound x : zero_literal x = true -> evalR x = 0.
Proof. destruct x; cbn; try discriminate. intros H. apply Z.eqb_eq in H. unfold Q2R. rewrite H. lra. Qed.

Section Shipped.
Variable x : shipped.
Notation s := (length (s_b x)).
Notation a := (mat_of (s_A x)).
Notation b := (vec_of (s_b x)).
Notation c := (vec_of (s_c x)).
Hypothesis LA : length (s_A x) = s.
Hypothesis LR : forall i, (i < s)%nat -> length (nth i (s_A x) []) = s.
Hypothesis Lc : length (s_c x) = s.
Hypothesis Hs : (0 < s)%nat.
Hypothesis Hup : forall i j, (i < j < s)%nat -> a i j = 0.

Lemma accurate_sound : accurate x = true -> forall j, (j < s)%nat -> a (s - 1)%nat j = b j.
Proof.
  intros H j Hj. apply exprs_eqb_eq in H. rewrite mat_of_row.
  assert (E : forall (l : list (list expr)), l <> [] -> last l [] = nth (length l - 1) l []).
  { clear. intros l. destruct l as [|y l] using rev_ind; [congruence|]. intros _. rewrite last_last, app_nth2; rewrite app_length; cbn; [|lia].
    replace (length l + 1 - 1 - length l)%nat with 0%nat by lia. reflexivity. }
  f_equal. transitivity (last (s_A x) []); [|exact H]. rewrite <- LA. symmetry. apply E.
  intros G. rewrite G in LA. cbn in LA. lia.
Qed.
Lemma still_length : length (still x) = s.
Proof. unfold still. rewrite map_length, combine_length, LA, Lc. lia. Qed.
Lemma still_sound i : (i < s)%nat -> nth i (still x) true = true -> (forall j, (j < s)%nat -> a i j = 0) /\ c i = 0.
Proof.
  intros Hi H. unfold still in H.
  set (f := fun rc : list expr * expr => forallb zero_literal (fst rc) && zero_literal (snd rc)) in H.
  rewrite (nth_indep _ true (f ([], Lit 0))) in H by (rewrite map_length, combine_length; lia).
  rewrite (map_nth f) in H. rewrite combine_nth in H by lia. unfold f in H. cbn [fst snd] in H. apply andb_true_iff in H as (H1 & H2).
  rewrite forallb_forall in H1. split.
  - intros j Hj. rewrite mat_of_row. unfold vec_of, vnth. rewrite (nth_indep _ _ (evalR (Lit 0))) by (rewrite map_length, LR; lia).
    rewrite map_nth. apply zero_literal_sound, H1, nth_In. rewrite LR; lia.
  - unfold vec_of, vnth. rewrite (nth_indep _ _ (evalR (Lit 0))) by (rewrite map_length, Lc; lia). rewrite map_nth. apply zero_literal_sound, H2.
Qed.

Lemma ball_sound run : check_ball run x = true -> exists A B C, run A B C = true /\ length A = s /\
  (forall i, (i < s)%nat -> reps b0 contains s (nth i A []) (a i)) /\ reps b0 contains s B b /\ reps b0 contains s C c.
Proof.
  unfold check_ball, evaluated. intros H.
  destruct (omap (omap evalB) (s_A x)) as [A'|] eqn:EA; [|discriminate].
  destruct (omap evalB (s_b x)) as [b'|] eqn:Eb; [|discriminate].
  destruct (omap evalB (s_c x)) as [c'|] eqn:Ec; [|discriminate].
  apply (omap_vec evalB b0 contains evalB_sound) in Eb; apply (omap_vec evalB b0 contains evalB_sound) in Ec.
  rewrite Lc in Ec. destruct (omap_mat _ _ _ EA) as [L G].
  exists A', b', c'. split; [exact H|]. split; [congruence|]. split; [|split; assumption].
  intros i Hi; specialize (G i ltac:(lia)); apply (omap_vec evalB b0 contains evalB_sound) in G; rewrite (LR i Hi) in G.
  destruct G as [G1 G2]; split; [exact G1|]; intros j Hj; rewrite mat_of_row; apply G2, Hj.
Qed.
Lemma evalF_frel : forall y k, evalF y = Some k -> frel k (evalR y).
Proof. intros y k G. symmetry. apply evalF_sound, G. Qed.
Lemma matrix_frel A' : omap (omap evalF) (s_A x) = Some A' -> length (rescale_mat A') = s /\
  forall i, (i < s)%nat -> reps f0 frel s (nth i (rescale_mat A') []) (a i).
Proof.
  intros EA. destruct (omap_mat _ _ _ EA) as [L G]. split; [unfold rescale_mat; rewrite map_length; congruence|].
  intros i Hi. unfold rescale_mat. cbv zeta. change (@nil fld) with (map (frescale (common (concat A'))) []); rewrite map_nth.
  apply reps_map; [intros; apply frescale_sound|].
  specialize (G i ltac:(lia)); apply (omap_vec evalF f0 frel evalF_frel) in G; rewrite (LR i Hi) in G.
  destruct G as [G1 G2]; split; [exact G1|]; intros j Hj; rewrite mat_of_row; apply G2, Hj.
Qed.
Lemma vector_frel l v : omap evalF l = Some v -> length l = s -> reps f0 frel s (rescale_vec v) (vec_of l).
Proof.
  intros E L. apply (omap_vec evalF f0 frel evalF_frel) in E. rewrite L in E. apply reps_map; [intros; apply frescale_sound|exact E].
Qed.
Lemma exact_sound' run : check_exact run x = true -> exists A B C, run A B C = true /\ length A = s /\
  (forall i, (i < s)%nat -> reps f0 frel s (nth i A []) (a i)) /\ reps f0 frel s B b /\ reps f0 frel s C c.
Proof.
  unfold check_exact, evaluated. intros H.
  destruct (omap (omap evalF) (s_A x)) as [A'|] eqn:EA; [|discriminate].
  destruct (omap evalF (s_b x)) as [b'|] eqn:Eb; [|discriminate].
  destruct (omap evalF (s_c x)) as [c'|] eqn:Ec; [|discriminate].
  exists (rescale_mat A'), (rescale_vec b'), (rescale_vec c'). split; [exact H|].
  destruct (matrix_frel A' EA) as (L & G). split; [exact L|]. split; [exact G|].
  split; apply vector_frel; auto.
Qed.

Lemma f_add k l u v : frel k u -> frel l v -> frel (fadd k l) (u + v).
Proof. intros <- <-. apply toR_add. Qed.
Lemma f_mul k l u v : frel k u -> frel l v -> frel (fmul k l) (u * v).
Proof. intros <- <-. apply toR_mul. Qed.
Lemma f_opp k u : frel k u -> frel (fopp k) (- u).
Proof. intros <-. apply toR_opp. Qed.
Lemma b_zero : contains b0 0.
Proof. now apply contains_0. Qed.

Lemma exact_residuals_sound q e k : nth k (exact_residuals x q e) false = true ->
  forall i, (i < s)%nat -> stage_residual s a c k i = 0.
Proof.
  unfold exact_residuals. destruct (negb _); [destruct k; discriminate|].
  destruct (omap (omap evalF) (s_A x)) as [A'|] eqn:EA; [|destruct k; discriminate].
  destruct (omap evalF (s_c x)) as [c'|] eqn:Ec; [|destruct k; discriminate].
  set (f := fun k => _). intros H i Hi.
  destruct (Nat.lt_ge_cases k q) as [Hk|Hk]; [|rewrite nth_overflow in H by (rewrite map_length, seq_length; lia); discriminate].
  rewrite (nth_indep _ false (f 0%nat)) in H by (rewrite map_length, seq_length; lia).
  rewrite map_nth, seq_nth in H by lia. cbn [Nat.add] in H. unfold f in H.
  rewrite forallb_forall in H.
  destruct (matrix_frel A' EA) as (L & G).
  pose proof (kresidual_sound f0 f1 fadd fmul fopp fofQ frel toR_0 toR_1 f_add f_mul f_opp toR_ofQ s _ _ _ _ L G (vector_frel _ _ Ec Lc) Hs k i Hi) as R1.
  rewrite <- R1. rewrite <- toR_0. apply feqb_toR, H, nth_In.
  unfold kresidual. rewrite map_length, combine_length, L. destruct (vector_frel _ _ Ec Lc) as (-> & _). lia.
Qed.

Section At.
Variables (h rho : R).
Hypothesis Hh : 0 < h.
Hypothesis Hr : amplification s a b (- h) rho.
Lemma damped_sound : damped x = true -> -1 < rho < 1.
Proof.
  unfold damped. intros H.
  destruct (check_ball _ x) eqn:E.
  - apply ball_sound in E as (A & B & C & E & HA & Ha & HB & HC).
    exact (damping_sound b0 bone badd bmul bopp bnonneg bbelow contains b_zero b1_sound badd_sound bmul_sound bopp_sound
      bnonneg_sound bbelow_sound h ltac:(lra) s A B a b HA Ha HB Hup Hs (accurate x) accurate_sound rho Hr Hh E).
  - apply exact_sound' in H as (A & B & C & H & HA & Ha & HB & HC).
    exact (damping_sound f0 f1 fadd fmul fopp fnonneg fbelow frel toR_0 toR_1 f_add f_mul f_opp
      fnonneg_sound fbelow_sound h ltac:(lra) s A B a b HA Ha HB Hup Hs (accurate x) accurate_sound rho Hr Hh H).
Qed.
Lemma vanishes_sound : vanishes x = true -> h * Rabs rho <= 100.
Proof.
  unfold vanishes. intros H. assert (E100 : Q2R 100 = 100) by (unfold Q2R; cbn; lra). rewrite <- E100.
  assert (P : 0 <= Q2R 100) by (rewrite E100; lra).
  destruct (check_ball _ x) eqn:E.
  - apply ball_sound in E as (A & B & C & E & HA & Ha & HB & HC).
    exact (vanishing_sound b0 bone badd bmul bopp bnonneg bbelow contains b_zero b1_sound badd_sound bmul_sound bopp_sound
      bnonneg_sound bbelow_sound h ltac:(lra) s A B a b HA Ha HB Hup Hs (accurate x) accurate_sound rho Hr _ P E).
  - apply exact_sound' in H as (A & B & C & H & HA & Ha & HB & HC).
    exact (vanishing_sound f0 f1 fadd fmul fopp fnonneg fbelow frel toR_0 toR_1 f_add f_mul f_opp
      fnonneg_sound fbelow_sound h ltac:(lra) s A B a b HA Ha HB Hup Hs (accurate x) accurate_sound rho Hr _ P H).
Qed.
End At.

Lemma damped_diagonal : damped x = true -> forall i, (i < s)%nat -> 0 <= a i i.
Proof.
  unfold damped. intros H. destruct (check_ball _ x) eqn:E.
  - apply ball_sound in E as (A & B & C & E & HA & Ha & HB & HC). unfold damping_check in E. destruct (stability _ _ _ _ _ _ _ _).
    cbv zeta in E. repeat rewrite andb_true_iff in E. destruct E as ((((E & _) & _) & _) & _).
    exact (diagonal_sound b0 bnonneg contains bnonneg_sound s A a HA Ha Hs E).
  - apply exact_sound' in H as (A & B & C & H & HA & Ha & HB & HC). unfold damping_check in H. destruct (stability _ _ _ _ _ _ _ _).
    cbv zeta in H. repeat rewrite andb_true_iff in H. destruct H as ((((H & _) & _) & _) & _).
    exact (diagonal_sound f0 fnonneg frel fnonneg_sound s A a HA Ha Hs H).
Qed.

Lemma stiffly_sound q e h rho w : 0 <= Q2R e -> 0 <= h -> amplification s a b (- h) rho -> dual s a b (- h) w -> stiffly x q e = true ->
  0 <= 1 - Rabs rho /\
  (forall i, (i < s)%nat -> ((forall j, (j < s)%nat -> a i j = 0) /\ c i = 0) \/ Rabs (h * w i) <= 5 * (1 - Rabs rho)) /\
  (forall k, (k < q)%nat -> Rabs (h * rsum s (fun i => w i * stage_residual s a c k i)) <= Q2R e * (1 - Rabs rho)).
Proof.
  intros He Hh Hr Hw H. unfold stiffly in H. cbv zeta in H.
  assert (G : 0 <= 1 - Rabs rho /\
    (forall i, (i < s)%nat -> nth i (still x) true = false -> Rabs (h * w i) <= 5 * (1 - Rabs rho)) /\
    (forall k, (k < q)%nat -> Rabs (h * rsum s (fun i => w i * stage_residual s a c k i)) <= Q2R e * (1 - Rabs rho))).
  { destruct (check_ball _ x) eqn:E.
    - apply ball_sound in E as (A & B & C & E & HA & Ha & HB & HC).
      exact (stiff_sound b0 bone badd bmul bopp blit bnonneg bbelow contains b_zero b1_sound badd_sound bmul_sound bopp_sound lit_sound
        bnonneg_sound bbelow_sound h Hh s A B C a b c HA Ha HB HC Hup Hs (accurate x) accurate_sound rho Hr
        (still x) (exact_residuals x q e) q e He still_length (exact_residuals_sound q e) w Hw E).
    - apply exact_sound' in H as (A & B & C & H & HA & Ha & HB & HC).
      exact (stiff_sound f0 f1 fadd fmul fopp fofQ fnonneg fbelow frel toR_0 toR_1 f_add f_mul f_opp toR_ofQ
        fnonneg_sound fbelow_sound h Hh s A B C a b c HA Ha HB HC Hup Hs (accurate x) accurate_sound rho Hr
        (still x) (exact_residuals x q e) q e He still_length (exact_residuals_sound q e) w Hw H). }
  destruct G as (G1 & G2 & G3). split; [exact G1|]. split; [|exact G3].
  intros i Hi. destruct (nth i (still x) true) eqn:E; [left; now apply still_sound|right; now apply G2].
Qed.

Lemma weakly_sound q m e : 0 <= Q2R e -> weakly x q m e = true ->
  weak_stage_order s a b c q (Q2R e) /\ (m < s)%nat /\ 1 / 10000 <= Rabs (weak_residual s a b c q m).
Proof.
  intros He H. unfold weakly in H. cbv zeta in H. apply ball_sound in H as (A & B & C & H & HA & Ha & HB & HC).
  repeat rewrite andb_true_iff in H. destruct H as ((H1 & H2) & H3). apply Nat.ltb_lt in H2.
  assert (S : forall k m', contains (kweak b0 bone badd bmul bopp blit A B C k m') (weak_residual s a b c k m')).
  { intros k m'. apply (kweak_sound b0 bone badd bmul bopp blit contains b_zero b1_sound badd_sound bmul_sound bopp_sound lit_sound
      s A B C a b c HA Ha HB HC Hs k m'). }
  split; [|split; [exact H2|]].
  - intros k m' Hk Hm. rewrite forallb_forall in H1. specialize (H1 k ltac:(apply in_seq; lia)).
    destruct (nth k (exact_residuals x q e) false) eqn:Ex.
    + unfold weak_residual. rewrite (rsum_ext s _ (fun _ => 0)), rsum_zero, Rabs_R0; [exact He|]. intros i Hi.
      replace (propagated s a m' (stage_residual s a c k) i) with 0; [ring|].
      clear Hm. revert i Hi. induction m' as [|m' IH]; intros i Hi; cbn [propagated].
      * symmetry. now apply (exact_residuals_sound q e k Ex).
      * rewrite (rsum_ext s _ (fun _ => 0)), rsum_zero; [reflexivity|]. intros j Hj. rewrite <- IH by exact Hj. ring.
    + rewrite forallb_forall in H1. specialize (H1 m' ltac:(apply in_seq; lia)). eapply bsmall_sound; [apply S|exact H1].
  - replace (1 / 10000) with (Q2R missed_by) by (unfold Q2R, missed_by; cbn; lra). eapply blarge_sound; [apply S|exact H3].
Qed.
End Shipped.

(** ** The shipped tableaux *)
Section Facts.
Variables (x : shipped) (q : nat) (e : Q) (bt : tableau R) (ws : list tableau_warning).
Hypothesis Hx : In (x, (q, e)) stiff_orders.
Hypothesis Hbt : shipped_init x = Ok (bt, ws).
Notation s := (t_stages bt).
Notation a := (entry (t_A bt)).
Notation b := (fun i => vnth i (t_b bt)).
Notation c := (fun i => vnth i (t_c bt)).

Lemma stiff_shipped : exists nu eh, In (x, (nu, eh)) precision.
Proof using Hx.
  clear bt ws Hbt. assert (G : In x all_tableaux).
  { apply (in_map fst) in Hx. cbn [fst] in Hx. unfold stiff_orders in Hx. cbn [map fst] in Hx. unfold all_tableaux. cbn [In] in *. tauto. }
  rewrite <- shipped_complete in G. apply in_map_iff in G as ((y & nu & eh) & <- & G). eauto.
Qed.
Lemma stiff_eps : 0 <= Q2R e.
Proof.
  clear Hbt. assert (G : forallb (fun p => Qle_bool 0 (snd (snd p))) stiff_orders = true) by reflexivity.
  rewrite forallb_forall in G. specialize (G _ Hx). cbn [fst snd] in G. apply Qle_bool_iff, Qle_Rle in G.
  replace (Q2R 0) with 0 in G by (unfold Q2R; cbn; lra). exact G.
Qed.
Lemma stiff_shape : s = length (s_b x) /\ a = mat_of (s_A x) /\ b = vec_of (s_b x) /\ c = vec_of (s_c x) /\
  length (s_A x) = length (s_b x) /\ (forall i, (i < length (s_b x))%nat -> length (nth i (s_A x) []) = length (s_b x)) /\
  length (s_c x) = length (s_b x) /\ (0 < length (s_b x))%nat /\
  (forall i j, (i < j < length (s_b x))%nat -> mat_of (s_A x) i j = 0) /\ tableau_wf bt /\ is_implicit bt = false /\ t_p bt = Some (s_p x).
Proof.
  destruct stiff_shipped as (nu & eh & P).
  destruct (precision_sound _ _ _ P) as (t & th & HC). unfold check in HC. repeat rewrite andb_true_iff in HC. destruct HC as (((G & _) & _) & _).
  unfold check_shape in G; cbv zeta in G. repeat rewrite andb_true_iff in G; destruct G as [[[[[[Hs LA] LR] Lc] _] _] _].
  apply Nat.ltb_lt in Hs; apply Nat.eqb_eq in LA; apply Nat.eqb_eq in Lc; rewrite forallb_forall in LR.
  destruct (shipped_constructed _ _ _ P) as (bt' & E & W & Hst & I & Ep & _ & EA & Eb & Ec & _). rewrite Hbt in E. injection E as <- _.
  assert (Es : s = length (s_b x)) by (rewrite <- (tw_b _ W), Eb, map_length; reflexivity).
  split; [exact Es|]. unfold mat_of, vec_of. rewrite EA, Eb, Ec. do 3 (split; [reflexivity|]). split; [exact LA|]. split.
  { intros i Hi; apply Nat.eqb_eq, LR, nth_In; lia. }
  split; [exact Lc|]. split; [exact Hs|]. split; [|auto]. intros i j Hij. rewrite <- EA. apply (is_implicit_false_no_upper bt I). lia.
Qed.

Lemma c87_factor h rho : 0 < h -> amplification s a b (- h) rho -> -1 < rho < 1.
Proof.
  destruct stiff_shape as (Es & Ea & Eb & Ec & LA & LR & Lc & Hs & Hup & _). rewrite Es, Ea, Eb. intros Hh Hr.
  apply (damped_sound x LA LR Lc Hs Hup h rho Hh Hr). pose proof all_damped as G. rewrite forallb_forall in G. exact (G _ Hx).
Qed.
Lemma stiff_diagonal i : (i < s)%nat -> 0 <= a i i.
Proof.
  destruct stiff_shape as (Es & Ea & Eb & Ec & LA & LR & Lc & Hs & Hup & _). rewrite Es, Ea.
  apply (damped_diagonal x LA LR Lc Hs). pose proof all_damped as G. rewrite forallb_forall in G. exact (G _ Hx).
Qed.
Lemma c87_vanishing h rho : In x vanishing -> 0 < h -> amplification s a b (- h) rho -> Rabs rho <= 100 / h.
Proof.
  destruct stiff_shape as (Es & Ea & Eb & Ec & LA & LR & Lc & Hs & Hup & _). rewrite Es, Ea, Eb. intros V Hh Hr.
  pose proof all_vanish as G. rewrite forallb_forall in G.
  pose proof (vanishes_sound x LA LR Lc Hs Hup h rho Hh Hr (G _ V)) as B.
  apply Rmult_le_reg_l with h; [exact Hh|]. replace (h * (100 / h)) with 100 by (field; lra). exact B.
Qed.
Lemma c88_weak : weak_stage_order s a b c q (Q2R e) /\ exists m, (m < s)%nat /\ 1 / 10000 <= Rabs (weak_residual s a b c q m).
Proof.
  destruct stiff_shape as (Es & Ea & Eb & Ec & LA & LR & Lc & Hs & Hup & _). rewrite Es, Ea, Eb, Ec.
  pose proof all_weak as G; rewrite forallb_forall in G.
  assert (L : length stiff_orders = length missed_at) by reflexivity.
  destruct (In_nth _ _ (x, (q, e)) Hx) as (i & Hi & E). set (m := nth i missed_at 0%nat).
  assert (I : In ((x, (q, e)), m) (combine stiff_orders missed_at)).
  { rewrite <- E. unfold m. rewrite <- combine_nth by exact L. apply nth_In. rewrite combine_length. lia. }
  specialize (G _ I). cbn [fst snd] in G.
  destruct (weakly_sound x LA LR Lc Hs q m e stiff_eps G) as (W1 & W2 & W3). split; [exact W1|]. exists m. auto.
Qed.
Lemma stiff_bounds h rho w : x <> implicit_midpoint -> 0 <= h -> amplification s a b (- h) rho -> dual s a b (- h) w ->
  0 <= 1 - Rabs rho /\
  (forall i, (i < s)%nat -> ((forall j, (j < s)%nat -> a i j = 0) /\ c i = 0) \/ Rabs (h * w i) <= 5 * (1 - Rabs rho)) /\
  (forall k, (k < q)%nat -> Rabs (h * rsum s (fun i => w i * stage_residual s a c k i)) <= Q2R e * (1 - Rabs rho)).
Proof.
  destruct stiff_shape as (Es & Ea & Eb & Ec & LA & LR & Lc & Hs & Hup & _). rewrite Es, Ea, Eb.
  change (fun i => vnth i (t_c bt)) with c in Ec. intros Hm Hh Hr Hw.
  pose proof all_stiff as G; rewrite forallb_forall in G. specialize (G _ Hx). cbn [fst snd] in G.
  assert (M : Nat.eqb (length (s_b x)) 1 && Nat.eqb (s_p x) 2 = false).
  { clear - Hx Hm. repeat (destruct Hx as [Hx'|Hx']; [injection Hx' as <- _ _; first [reflexivity|contradiction]|]; clear Hx; rename Hx' into Hx). contradiction. }
  rewrite M in G. pose proof (stiffly_sound x LA LR Lc Hs Hup q e h rho w stiff_eps Hh Hr Hw G) as (G1 & G2 & G3).
  split; [exact G1|]. assert (Ec' : forall i, vnth i (t_c bt) = vec_of (s_c x) i) by (intros i; exact (f_equal (fun f => f i) Ec)).
  split.
  - intros i Hi. rewrite Ec'. exact (G2 i Hi).
  - intros k Hk. rewrite Ec. exact (G3 k Hk).
Qed.
End Facts.
