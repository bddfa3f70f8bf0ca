(** Lemmas: the statements about the result file from its parts. *)
From Coq Require Import String.
From Coq Require Import List Bool Arith Lia Permutation.
From Verif Require Import Base M_Tableau M_State M_Metadata M_Writer SpecMetadata SpecWriter L_Metadata L_Metadata2 L_Metadata3
  L_MPI3 L_Writer L_Writer2 L_Writer4 L_Writer5 L_Writer6 L_Writer7.
From Verif Require L_Writer3.
Import ListNotations.
Local Open Scope string_scope.
Local Open Scope nat_scope.
Local Open Scope list_scope.

(** *** C35 *)
Lemma place_lt sh idx k : place sh idx k -> k < prod sh.
Proof. induction 1; [cbn; lia|]; rewrite prod_cons; nia. Qed.

Lemma scale m l : list_sum (map (fun k => k * m) l) = list_sum l * m.
Proof. induction l as [|k l IH]; [reflexivity|]; cbn; unfold list_sum in IH; rewrite IH; lia. Qed.

Lemma split_ranges v as_ : split_rows v -> length as_ = length (v_parts v) ->
  (forall r a, nth_error as_ r = Some a -> describes r v a) ->
  exists n rest ks, v_global_shape v = n :: rest /\ list_sum ks = n /\ length ks = length as_ /\
    forall r a, nth_error as_ r = Some a -> exists k, nth_error ks r = Some k /\
      (nothing a -> k * prod rest = 0) /\
      (~ nothing a -> rows a /\ global_start_index a = list_sum (firstn r ks) * prod rest /\
         global_end_index a = (list_sum (firstn r ks) + k) * prod rest).
Proof.
  intros (n & rest & ks & Eg & Sk & F) La H; exists n, rest, ks.
  assert (Lk : length ks = length as_) by (rewrite La; symmetry; exact (Forall2_len _ _ _ F)).
  split; [exact Eg|]; split; [exact Sk|]; split; [exact Lk|]; intros r a Ea; destruct (H r a Ea) as [Dg D].
  destruct (nth_error ks r) as [k|] eqn:Ek.
  2:{ apply nth_error_None in Ek; assert (r < length as_) by (apply nth_error_Some; congruence); lia. }
  destruct (Forall2_nth _ _ _ F _ _ Ek) as (q & Eq & Q).
  assert (Els : local_shape r v = q) by (unfold local_shape; apply nth_error_nth; exact Eq).
  assert (Sizes : list_sum (firstn r (var_sizes v)) = list_sum (firstn r ks) * prod rest).
  { rewrite <- scale, <- firstn_map; f_equal; f_equal; unfold var_sizes; clear - F.
    induction F as [|q k l l' [->|[-> ->]] F IH]; cbn [map]; [reflexivity| |]; rewrite IH; reflexivity. }
  pose proof (sum_firstn ks r k Ek) as B.
  exists k; split; [reflexivity|]; destruct Q as [->|[-> ->]]; rewrite Els in D.
  - destruct D as (D1 & _ & _ & D); split.
    + unfold nothing; rewrite D1; intros Z; apply prod_zero in Z; rewrite prod_cons in Z; exact Z.
    + intros _.
      assert (R : global_start_index a = list_sum (firstn r ks) * prod rest /\
                  global_end_index a = (list_sum (firstn r ks) + k) * prod rest).
      { destruct D as [(D2 & D3 & D4)|(_ & D3 & D4)].
        - rewrite Eg in D2; injection D2 as D2; replace (list_sum (firstn r ks)) with 0 by lia; rewrite D3, D4, prod_cons; lia.
        - rewrite D3, D4, Sizes, prod_cons; lia. }
      split; [|exact R]; exists n, rest, (list_sum (firstn r ks)), k; rewrite Dg.
      repeat (split; [first [assumption|lia]|]); apply R.
  - destruct D as (D1 & _); split; [lia|]; intros Hn; destruct Hn; unfold nothing; rewrite D1; left; reflexivity.
Qed.

Lemma sum_cover m ks : forall k, k < list_sum ks * m -> exists r c, nth_error ks r = Some c /\
  list_sum (firstn r ks) * m <= k < (list_sum (firstn r ks) + c) * m.
Proof.
  induction ks as [|a ks IH]; intros k Hk; [cbn in Hk; lia|].
  change (list_sum (a :: ks)) with (a + list_sum ks) in Hk.
  destruct (Nat.lt_ge_cases k (a * m)) as [K|K]; [exists 0, a; split; [reflexivity|]; cbn; lia|].
  destruct (IH (k - a * m) ltac:(lia)) as (r & c & E & B); exists (S r), c; split; [exact E|].
  change (list_sum (firstn (S r) (a :: ks))) with (a + list_sum (firstn r ks)); lia.
Qed.
Lemma sum_unique m ks : forall k r c r' c', nth_error ks r = Some c -> nth_error ks r' = Some c' ->
  list_sum (firstn r ks) * m <= k < (list_sum (firstn r ks) + c) * m ->
  list_sum (firstn r' ks) * m <= k < (list_sum (firstn r' ks) + c') * m -> r = r'.
Proof.
  induction ks as [|a ks IH]; intros k [|r] c [|r'] c' E E' B B'; try discriminate; try reflexivity;
    repeat match goal with H : context[list_sum (firstn (S ?r) (a :: ks))] |- _ =>
      change (list_sum (firstn (S r) (a :: ks))) with (a + list_sum (firstn r ks)) in H end.
  - injection E as ->; cbn in B; lia.
  - injection E' as ->; cbn in B'; lia.
  - f_equal; eapply (IH (k - a * m)); [exact E|exact E'|lia|lia].
Qed.

Section Selections.
Variables (vs : list variable) (qs : list string) (is : list string) (procs : nat) (mds : list metadata).
Hypothesis WT : well_tagged vs qs.
Hypothesis Nm : named procs vs.
Hypothesis M : metadata_of procs vs qs is = Ok mds.

Lemma arrays_of v q j : In v vs -> v_output v = true -> In q qs -> has q v ->
  Forall (fun md => option_map q_name (nth_error (time_integration_quantities md) j) = Some q) mds ->
  exists as_, length as_ = length mds /\ length as_ = length (v_parts v) /\
    (forall r md, nth_error mds r = Some md -> exists qu, nth_error (time_integration_quantities md) j = Some qu /\ nth_error as_ r = Some (q_array qu)) /\
    (forall r a, nth_error as_ r = Some a -> describes r v a /\ exists md, nth_error mds r = Some md).
Proof.
  intros Iv Ov Iq Hq Fq.
  exists (flat_map (fun md => match nth_error (time_integration_quantities md) j with Some qu => [q_array qu] | None => [] end) mds).
  assert (K : forall l, Forall (fun md => option_map q_name (nth_error (time_integration_quantities md) j) = Some q) l ->
     length (flat_map (fun md => match nth_error (time_integration_quantities md) j with Some qu => [q_array qu] | None => [] end) l) = length l /\
     forall r md, nth_error l r = Some md -> exists qu, nth_error (time_integration_quantities md) j = Some qu /\ q_name qu = q /\
       nth_error (flat_map (fun md => match nth_error (time_integration_quantities md) j with Some qu => [q_array qu] | None => [] end) l) r = Some (q_array qu)).
  { clear; induction 1 as [|md l F1 F2 [IH1 IH2]]; [split; [reflexivity|intros [|r] md E; discriminate]|]; cbn [flat_map length].
    destruct (nth_error (time_integration_quantities md) j) as [qu|] eqn:E; [|discriminate]; injection F1 as F1; cbn [app length].
    split; [rewrite IH1; reflexivity|]; intros [|r] md' E'; [injection E' as <-; exists qu; auto|exact (IH2 r md' E')]. }
  destruct (K mds Fq) as [K1 K2]; split; [exact K1|]; split.
  { rewrite K1; destruct (metadata_of_spec _ _ _ _ _ M) as (all & La & _); rewrite La.
    destruct Nm as [_ Np]; rewrite Forall_forall in Np; symmetry; apply Np, Iv. }
  split; [intros r md E; destruct (K2 r md E) as (qu & E1 & _ & E2); eauto|].
  intros r a Ea.
  destruct (nth_error mds r) as [md|] eqn:E.
  2:{ apply nth_error_None in E; rewrite <- K1 in E; apply nth_error_None in E; congruence. }
  destruct (K2 r md E) as (qu & E1 & E2 & E3); rewrite E3 in Ea; injection Ea as <-; split; [|eauto].
  eapply (array_described vs qs WT); try eassumption; rewrite E2; assumption.
Qed.

Lemma c35_one v q j idx k : In v vs -> v_output v = true -> In q qs -> has q v -> split_rows v ->
  Forall (fun md => option_map q_name (nth_error (time_integration_quantities md) j) = Some q) mds ->
  place (v_global_shape v) idx k ->
  exists! r, exists md qu sel, nth_error mds r = Some md /\ nth_error (time_integration_quantities md) j = Some qu /\
    ~ nothing (q_array qu) /\ get_write_indices (q_array qu) = Ok sel /\ selected sel idx = true.
Proof.
  intros Iv Ov Iq Hq Sp Fq Pl.
  destruct (arrays_of v q j Iv Ov Iq Hq Fq) as (as_ & L1 & L2 & A1 & A2).
  destruct (split_ranges v as_ Sp L2 (fun r a E => proj1 (A2 r a E))) as (n & rest & ks & Eg & Sk & Lk & R).
  assert (Sel : forall r md qu sel, nth_error mds r = Some md -> nth_error (time_integration_quantities md) j = Some qu ->
     ~ nothing (q_array qu) -> get_write_indices (q_array qu) = Ok sel -> selected sel idx = true <->
     exists c, nth_error ks r = Some c /\ list_sum (firstn r ks) * prod rest <= k < (list_sum (firstn r ks) + c) * prod rest).
  { intros r md qu sel E1 E2 Hn Es; destruct (A1 r md E1) as (qu' & E2' & E3); rewrite E2 in E2'; injection E2' as <-.
    destruct (R r _ E3) as (c & Ec & _ & Rn); destruct (Rn Hn) as (Rw & G1 & G2).
    destruct (rows_select _ Rw Hn) as (sel' & Es' & _ & S); rewrite Es in Es'; injection Es' as <-.
    destruct (A2 r _ E3) as [[Dg _] _]; rewrite Dg in S; destruct (S idx k Pl) as [S1 _]; rewrite S1, G1, G2.
    split; [intros B; exists c; auto|intros (c' & Ec' & B)]; rewrite Ec in Ec'; injection Ec' as <-; exact B. }
  pose proof (place_lt _ _ _ Pl) as Lt; rewrite Eg, prod_cons, <- Sk in Lt.
  destruct (sum_cover _ _ _ Lt) as (r & c & Ec & B); exists r; split.
  - destruct (nth_error as_ r) as [a|] eqn:Ea.
    2:{ apply nth_error_None in Ea; assert (r < length ks) by (apply nth_error_Some; congruence); lia. }
    destruct (A2 r a Ea) as [_ [md Em]]; destruct (A1 r md Em) as (qu & E2 & E3); rewrite Ea in E3; injection E3 as ->.
    destruct (R r _ Ea) as (c' & Ec' & Z & Rn); rewrite Ec in Ec'; injection Ec' as <-.
    assert (Hn : ~ nothing (q_array qu)) by (intros H; apply Z in H; lia).
    destruct (rows_select _ (proj1 (Rn Hn)) Hn) as (sel & Es & _); exists md, qu, sel.
    repeat (split; [assumption|]); apply (Sel r md qu sel); eauto.
  - intros r' (md & qu & sel & E1 & E2 & Hn & Es & S); apply (Sel r' md qu sel E1 E2 Hn Es) in S.
    destruct S as (c' & Ec' & B'); eapply sum_unique; eassumption.
Qed.

Lemma c35_portion v q j r md qu : In v vs -> v_output v = true -> In q qs -> has q v -> split_rows v ->
  Forall (fun md => option_map q_name (nth_error (time_integration_quantities md) j) = Some q) mds ->
  nth_error mds r = Some md -> nth_error (time_integration_quantities md) j = Some qu -> ~ nothing (q_array qu) ->
  exists sel, get_write_indices (q_array qu) = Ok sel /\ sel_shape sel = shape (q_array qu) /\
    local_shape r v = Some (shape (q_array qu)) /\
    forall idx k, place (v_global_shape v) idx k -> selected sel idx = true ->
      place (shape (q_array qu)) (inside sel idx) (k - global_start_index (q_array qu)).
Proof.
  intros Iv Ov Iq Hq Sp Fq E1 E2 Hn.
  destruct (arrays_of v q j Iv Ov Iq Hq Fq) as (as_ & L1 & L2 & A1 & A2).
  destruct (split_ranges v as_ Sp L2 (fun r a E => proj1 (A2 r a E))) as (n & rest & ks & Eg & Sk & Lk & R).
  destruct (A1 r md E1) as (qu' & E2' & E3); rewrite E2 in E2'; injection E2' as <-.
  destruct (R r _ E3) as (c & Ec & _ & Rn); destruct (Rn Hn) as (Rw & _).
  destruct (rows_select _ Rw Hn) as (sel & Es & Sh & S); destruct (A2 r _ E3) as [[Dg D] _]; rewrite Dg in S.
  exists sel; split; [exact Es|]; split; [exact Sh|]; split.
  - destruct (local_shape r v) as [sh|]; [destruct D as (-> & _); reflexivity|].
    destruct D as (D & _); destruct Hn; unfold nothing; rewrite D; left; reflexivity.
  - intros idx k Pl; apply (S idx k Pl).
Qed.

(** *** The processes of a problem *)
Lemma quantities_agree names outs : quantities_are vs qs mds names outs ->
  Forall (agree names (map v_global_shape outs)) mds.
Proof.
  intros [Fn Fo]; apply Forall_forall; intros md I; pose proof (proj1 (Forall_forall _ _) Fn md I) as En; split; [exact En|].
  apply In_nth_error in I; destruct I as [r E].
  apply L_Heap.list_ext; intros j; rewrite !nth_error_map.
  assert (Lq : length (time_integration_quantities md) = length outs).
  { rewrite <- (map_length q_name), En; exact (Forall2_len _ _ _ Fo). }
  destruct (nth_error (time_integration_quantities md) j) as [qu|] eqn:Eq; cbn [option_map].
  - destruct (nth_error outs j) as [v|] eqn:Ev.
    2:{ apply nth_error_None in Ev; assert (j < length (time_integration_quantities md)) by (apply nth_error_Some; congruence); lia. }
    destruct (Forall2_nth _ _ _ Fo _ _ Ev) as (n & Ej & Iv & Ov & Iq & Hq).
    assert (n = q_name qu) by (rewrite <- En, nth_error_map, Eq in Ej; cbn in Ej; congruence); subst n.
    cbn [option_map]; f_equal.
    exact (proj1 (array_described vs qs WT procs is mds v j r md qu Nm M E Eq Iv Ov Iq Hq)).
  - apply nth_error_None in Eq; rewrite (proj2 (nth_error_None outs j)) by lia; reflexivity.
Qed.

Lemma wholes_spread {T} names outs (xs ys : list (list T)) : 0 < procs -> quantities_are vs qs mds names outs ->
  wholes mds outs xs ys -> spread_all mds xs ys.
Proof.
  intros Hp [Fn Fo] (Fx & Ly & W).
  apply (whole_spread vs qs WT procs is mds xs ys Nm M Hp).
  - symmetry; exact (Forall2_len _ _ _ Fx).
  - intros r md x E1 E2; destruct (Forall2_nth _ _ _ Fx _ _ E2) as (md' & E1' & L); rewrite E1 in E1'; injection E1' as <-; exact L.
  - eapply Forall_impl; [|exact Fn]; intros md En; cbn in En.
    rewrite <- (map_length q_name), En, Ly; exact (Forall2_len _ _ _ Fo).
  - intros j y Ey; destruct (nth_error outs j) as [v|] eqn:Ev.
    2:{ apply nth_error_None in Ev; assert (j < length ys) by (apply nth_error_Some; congruence); lia. }
    destruct (Forall2_nth _ _ _ Fo _ _ Ev) as (q & Ej & Iv & Ov & Iq & Hq).
    exists v, q; repeat (split; [assumption|]); split; [|exact (W j v y Ev Ey)].
    eapply Forall_impl; [|exact Fn]; intros md En; cbn in En; rewrite <- nth_error_map, En; exact Ej.
Qed.
End Selections.

Section Alone.
Lemma undivided_of vs qs is md names outs : well_tagged vs qs -> named 1 vs -> metadata_of 1 vs qs is = Ok [md] ->
  quantities_are vs qs [md] names outs -> Forall copied outs -> undivided md.
Proof.
  intros WT Nm M [Fn Fo] Fc; inversion Fn as [|? ? En _]; subst; unfold undivided.
  apply Forall_forall; intros qu I; cbv zeta; apply In_nth_error in I; destruct I as [j Eq].
  assert (Lq : length (time_integration_quantities md) = length outs).
  { rewrite <- (map_length q_name); exact (Forall2_len _ _ _ Fo). }
  destruct (nth_error outs j) as [v|] eqn:Ev.
  2:{ apply nth_error_None in Ev; assert (j < length (time_integration_quantities md)) by (apply nth_error_Some; congruence); lia. }
  destruct (Forall2_nth _ _ _ Fo _ _ Ev) as (n & Ej & Iv & Ov & Iq & Hq).
  rewrite nth_error_map, Eq in Ej; injection Ej as <-.
  destruct (array_described vs qs WT 1 is [md] v j 0 md qu Nm M eq_refl Eq Iv Ov Iq Hq) as [Dg D].
  rewrite Forall_forall in Fc; destruct (Fc v (nth_error_In _ _ Ev)) as (C1 & C2 & C3).
  destruct Nm as [_ Np]; rewrite Forall_forall in Np; specialize (Np v Iv).
  destruct (v_parts v) as [|p [|]] eqn:Ep; try discriminate; destruct C2 as [->|[]].
  assert (El : local_shape 0 v = Some (v_global_shape v)) by (unfold local_shape; rewrite Ep; reflexivity).
  rewrite El in D; destruct D as (D1 & D2 & D3 & [(_ & D4 & D5)|(D4 & _)]); [|congruence].
  rewrite D1; split; [congruence|]; split; [congruence|]; split; [exact D4|]; split; [exact D5|]; split; [exact D2|].
  destruct (c24_fills _ _ _ _ _ 0 md M eq_refl) as [(_ & B & _) _].
  specialize (B j (q_array qu)); rewrite nth_error_map, Eq in B; specialize (B eq_refl); lia.
Qed.
End Alone.

Lemma Forall2_imp {A B} (P Q : A -> B -> Prop) l l' : (forall a b, P a b -> Q a b) -> Forall2 P l l' -> Forall2 Q l l'.
Proof. induction 2; constructor; auto. Qed.

Section Statements.
Context {T : Type} {N : Num T}.

Lemma c34_distributed vs qs is procs mds names outs period emb (start : instant T) steps rs fs out :
  well_tagged vs qs -> named procs vs -> 0 < procs -> metadata_of procs vs qs is = Ok mds ->
  quantities_are vs qs mds names outs -> names_ok names emb -> 0 < period -> steps <> [] ->
  i_error start = (if emb then Some n0 else None) -> Forall (flagged emb) rs ->
  Forall2 (fun s r => length (fst s) = procs /\ Forall (embedded_like (i_error r)) (fst s) /\
     wholes mds outs (map (fun st => final_state (disc st)) (snd s)) (i_values r) /\
     Forall (fun st => final_time (disc st) = i_time r /\ embedded_like (i_error r) st /\
       forall e, i_error r = Some e -> nth_error (err_hist st) 0 = Some e) (snd s)) steps rs ->
  (forall s, hd_error steps = Some s ->
     wholes mds outs (map (fun st => start_state (disc st)) (snd s)) (i_values start) /\
     Forall (fun st => start_time (disc st) = i_time start) (snd s)) ->
  writes period mds 1 steps fs out ->
  out = Ok (Some (result_file names (map v_global_shape outs) period start rs)).
Proof.
  intros WT Nm Hp M Q Ok_ Hw Hn Es Fl F H0 W.
  assert (Lm : length mds = procs).
  { destruct (metadata_of_spec _ _ _ _ _ M) as (all & La & _); exact La. }
  assert (Hr : exists rs0 r0 s0 ss, steps = s0 :: ss /\ rs = r0 :: rs0).
  { inversion F; subst; [contradiction|]; eauto 8. }
  destruct Hr as (rs0 & r0 & s0 & ss & Es0 & Er0).
  eapply (c34_main period names _ emb mds Ok_); try eassumption.
  - intros ->; cbn in Lm; lia.
  - exact (quantities_agree vs qs is procs mds WT Nm M names outs Q).
  - eapply Forall2_imp; [|exact F]; intros s r (F1 & F2 & F3 & F4); split; [congruence|]; split; [exact F2|].
    split; [|exact F4]; exact (wholes_spread vs qs is procs mds WT Nm M names outs _ _ Hp Q F3).
  - intros s Hs; destruct (H0 s Hs) as [H1 H2]; split.
    + exact (wholes_spread vs qs is procs mds WT Nm M names outs _ _ Hp Q H1).
    + subst; injection Hs as ->; inversion F as [|? ? ? ? (_ & _ & _ & F4) _]; inversion Fl as [|? ? Fr _]; subst.
      apply Forall_forall; intros st I; rewrite Forall_forall in H2, F4; split; [exact (H2 st I)|].
      destruct (F4 st I) as (_ & E & _); unfold embedded_like, flagged in *; rewrite E, Es, Fr; destruct emb; reflexivity.
Qed.

Lemma c34_interrupted period names shapes emb mds (start : instant T) steps rs fs fs1 pre post o l1 l2 fs2 :
  0 < period -> names_ok names emb -> mds <> [] -> Forall (agree names shapes) mds ->
  i_error start = (if emb then Some n0 else None) -> steps <> [] ->
  Forall2 (proper_step mds) steps rs -> Forall (flagged emb) rs ->
  (forall s, hd_error steps = Some s -> at_start mds (snd s) start) ->
  writes period mds 1 steps fs (Ok fs1) ->
  Permutation o (all_after period (S (length steps)) mds post) ->
  l1 ++ l2 = all_before period (S (length steps)) mds pre ++ o -> run_ops l1 fs1 = Ok fs2 ->
  exists extra, fs2 = Some (result_file names shapes period start rs ++ extra) /\
    Forall (fun p => fst p = step_name (S (length steps))) extra.
Proof.
  intros Hp Hok Hne Hag Hs Hn F Fl H0 W P E R.
  pose proof (c34_main period names shapes emb mds Hok Hne Hag start Hs steps rs fs (Ok fs1) Hp Hn F Fl H0 W) as E1.
  injection E1 as ->; rewrite (Forall2_len _ _ _ F) in *.
  eapply (touch_ops (step_name (S (length rs))) _ l1); [apply fresh_name|eapply all_touch; try eassumption|constructor|].
  - destruct rs; [inversion F; subst; contradiction|discriminate].
  - rewrite app_nil_r; exact R.
Qed.

(** *** Reading *)
Lemma c54 names shapes period emb (start : instant T) rs m : names_ok names emb -> flagged emb start -> Forall (flagged emb) rs ->
  Forall (fun r => map (@length T) (i_values r) = map (@prod) shapes) (start :: rs) -> length names = length shapes ->
  ~ In "error_measure" names -> last_recorded period (length rs) m ->
  read_last_local_error (Some (result_file names shapes period start rs)) =
    match i_error (nth m (start :: rs) start) with Some e => Ok e | None => Err KeyError end.
Proof.
  intros Hok Fs Fl Fz Ln Hnn Hm.
  pose proof Hm as ((k & Ek) & H1 & H2).
  assert (In_ : In (nth m (start :: rs) start) (start :: rs)) by (apply nth_In; cbn; lia).
  rewrite Forall_forall in Fz; pose proof (Fz _ In_) as Sz.
  assert (Fr : flagged emb (nth m (start :: rs) start)).
  { destruct In_ as [<-|I]; [exact Fs|]; rewrite Forall_forall in Fl; auto. }
  apply read_last with (m := m); try assumption.
  - pose proof (last_in period start rs m Hm) as L; destruct m as [|m]; [exact L|].
    cbn [Nat.eqb nth] in *; rewrite Nat.sub_succ, Nat.sub_0_r in L; exact L.
  - unfold flagged in Fr; rewrite Fr; exact Hok.
  - rewrite Ln, <- (map_length (@prod) shapes), <- Sz, map_length; reflexivity.
  - symmetry; exact Sz.
Qed.

Variables (names : list string) (shapes : list (list nat)) (period : nat) (emb : bool) (start : instant T) (rs : list (instant T)).
Hypothesis Hok : names_ok names emb.
Hypothesis Fl : Forall (flagged emb) (start :: rs).
Hypothesis Fz : Forall (fun r => map (@length T) (i_values r) = map (@prod) shapes) (start :: rs).
Hypothesis Ln : length names = length shapes.
Hypothesis Hax : Forall (fun sh => sh <> []) shapes.
Variable sol1 : T -> list T -> T -> list T.
Variable soln : T -> list (list T) -> T -> list (list T).

Notation recs := (recorded_instants period start rs).

Lemma recs_in p : In p recs -> In (snd p) (start :: rs).
Proof.
  intros [<-|H]; [left; reflexivity|]; right; apply in_map_iff in H; destruct H as (k & <- & H); cbn [snd].
  apply written_in in H; apply nth_In; lia.
Qed.
Lemma recs_sound : Forall (fun p => sound names shapes (snd p)) recs.
Proof.
  apply Forall_forall; intros p H; apply recs_in in H; rewrite Forall_forall in Fz, Fl; pose proof (Fz _ H) as Sz; pose proof (Fl _ H) as F.
  split; [rewrite Ln, <- (map_length (@prod) shapes), <- Sz, map_length; reflexivity|]; split; [symmetry; exact Sz|].
  unfold flagged in F; rewrite F; exact Hok.
Qed.
Lemma recs_keys : NoDup (map fst recs).
Proof. unfold recorded_instants; cbn [map fst]; rewrite map_map; cbn [fst]; rewrite map_id; apply written_nodup. Qed.

Lemma read_all several qs : forall i, (forall q, In q qs -> In q names) -> i + length qs <= several ->
  (1 < several -> forall t xs t0, length xs = several -> length (soln t xs t0) = several) ->
  read_quantities sol1 soln several i (map (fun p => (fst p, i_time (snd p))) recs) (result_file names shapes period start rs) qs =
  Ok (map (fun jq => (snd jq, map (fun p => (fst p, map nabs (map2 nsub (compared sol1 soln several (fst jq) (i_time (snd p)) (i_time start)
                       (value_of names start (snd jq))) (value_of names (snd p) (snd jq))))) recs)) (combine (seq i (length qs)) qs),
      map (fun q => (q, map (fun p => (fst p, value_of names (snd p) q)) recs)) qs).
Proof.
  induction qs as [|q qs IH]; intros i Hq Hi Hs; [reflexivity|]; cbn [read_quantities length seq combine map fst snd].
  rewrite file_is at 1; rewrite (read_values_ok names shapes q recs (Hq q (or_introl eq_refl)) Hax recs_sound); cbn [bind].
  rewrite (errors_ok names start sol1 soln several i recs q recs_keys (or_introl eq_refl) Hs) by (cbn in Hi; lia); cbn [bind].
  rewrite IH; [reflexivity|intros; apply Hq; right; assumption|cbn in Hi; lia|exact Hs].
Qed.

Lemma c55 qs : (forall q, In q qs -> In q names) ->
  (1 < length qs -> forall t xs t0, length xs = length qs -> length (soln t xs t0) = length qs) ->
  read_hdf5_file (Some (result_file names shapes period start rs)) qs sol1 soln =
  Ok (map (fun p => (fst p, i_time (snd p))) recs,
      map (fun jq => (snd jq, map (fun p => (fst p, map nabs (map2 nsub (compared sol1 soln (length qs) (fst jq) (i_time (snd p)) (i_time start)
                       (value_of names start (snd jq))) (value_of names (snd p) (snd jq))))) recs)) (combine (seq 0 (length qs)) qs),
      map (fun q => (q, map (fun p => (fst p, value_of names (snd p) q)) recs)) qs).
Proof.
  intros Hq Hs; unfold read_hdf5_file; rewrite file_is at 1; rewrite read_times_ok; cbn [bind].
  rewrite read_all; [reflexivity|exact Hq|lia|exact Hs].
Qed.

(** One quantity. *)
Lemma c55_one q : In q names ->
  read_hdf5_file (Some (result_file names shapes period start rs)) [q] sol1 soln =
  Ok (map (fun p => (fst p, i_time (snd p))) recs,
      [(q, map (fun p => (fst p, map nabs (map2 nsub (sol1 (i_time (snd p)) (value_of names start q) (i_time start))
                                                     (value_of names (snd p) q)))) recs)],
      [(q, map (fun p => (fst p, value_of names (snd p) q)) recs)]).
Proof. intros Hq; rewrite c55; [reflexivity|intros q' [<-|[]]; exact Hq|cbn; lia]. Qed.

(** Several, with a solution whose components depend on their own initial
    values. *)
Lemma c55_own qs : (forall q, In q qs -> In q names) -> 1 < length qs ->
  (forall t xs t0, length xs = length qs -> length (soln t xs t0) = length qs) ->
  (forall t t0 xs xs' j, length xs = length qs -> length xs' = length qs -> nth j xs [] = nth j xs' [] ->
     nth j (soln t xs t0) [] = nth j (soln t xs' t0) []) ->
  read_hdf5_file (Some (result_file names shapes period start rs)) qs sol1 soln =
  Ok (map (fun p => (fst p, i_time (snd p))) recs,
      map (fun jq => (snd jq, map (fun p => (fst p, map nabs (map2 nsub
             (nth (fst jq) (soln (i_time (snd p)) (map (value_of names start) qs) (i_time start)) [])
             (value_of names (snd p) (snd jq))))) recs)) (combine (seq 0 (length qs)) qs),
      map (fun q => (q, map (fun p => (fst p, value_of names (snd p) q)) recs)) qs).
Proof.
  intros Hq H1 Hs Ho; rewrite c55 by auto; f_equal; f_equal; f_equal; apply map_ext_in; intros [j q] I; cbn [fst snd].
  f_equal; apply map_ext; intros p; f_equal; f_equal; f_equal; unfold compared.
  rewrite (proj2 (Nat.ltb_lt _ _) H1); apply Ho; [apply repeat_length|apply map_length|].
  apply In_nth_error in I; destruct I as [i E]; rewrite L_Writer3.combine_nth_error in E.
  destruct (nth_error (seq 0 (length qs)) i) as [j'|] eqn:E1; [|discriminate]; destruct (nth_error qs i) as [q'|] eqn:E2; [|discriminate].
  injection E as -> ->; assert (Hi : i < length qs) by (apply nth_error_Some; congruence).
  apply nth_error_nth with (d := 0) in E1; rewrite seq_nth in E1 by exact Hi; cbn in E1; subst j.
  rewrite (nth_error_nth (map (value_of names start) qs) i [] (x := value_of names start q)) by (rewrite nth_error_map, E2; reflexivity).
  generalize (value_of names start q); intros x; revert Hi; clear; generalize (length qs); intros n; revert i.
  induction n as [|n IH]; intros i Hi; [lia|]; destruct i; [reflexivity|]; cbn; apply IH; lia.
Qed.
End Statements.
