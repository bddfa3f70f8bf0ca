(** Lemmas: the file after a run. *)
From Coq Require Import String.
From Coq Require Import List Bool Arith Lia Permutation.
From Verif Require Import Base M_State M_Metadata M_Writer SpecMetadata SpecWriter L_Metadata L_Metadata2 L_Heap L_Heap3
  L_Writer L_Writer2 L_Writer3.
Import ListNotations.
Local Open Scope string_scope.
Local Open Scope nat_scope.
Local Open Scope list_scope.

Lemma step_name_inj i j : step_name i = step_name j -> i = j.
Proof. exact (str_inj i j). Qed.

Section Run.
Context {T : Type} {N : Num T}.
Implicit Types (f : file T) (gr : group T) (d : dataset T) (r : instant T) (st : tistate T) (xs ys : list (list T)) (sts : list (tistate T)) (old : file T).
Variables (period : nat) (names : list string) (shapes : list (list nat)) (emb : bool) (mds : list metadata).
Hypothesis Hok : names_ok names emb.
Hypothesis Hne : mds <> [].
Hypothesis Hag : Forall (agree names shapes) mds.

Notation flagged := (flagged emb).

Lemma Forall2_nth_l {A B} (P : A -> B -> Prop) l l' j a : Forall2 P l l' -> nth_error l j = Some a ->
  exists b, nth_error l' j = Some b /\ P a b.
Proof.
  intros F; revert j; induction F as [|x y l l' H F IH]; intros [|j] E; try discriminate; [|exact (IH j E)].
  injection E as <-; exists y; auto.
Qed.
Lemma Forall2_of_nth {A B} (P : A -> B -> Prop) l : forall l', length l = length l' ->
  (forall j a b, nth_error l j = Some a -> nth_error l' j = Some b -> P a b) -> Forall2 P l l'.
Proof.
  induction l as [|a l IH]; intros [|b l'] L H; try discriminate; [constructor|].
  constructor; [exact (H 0 a b eq_refl eq_refl)|]; apply IH; [cbn in L; lia|]; intros j; exact (H (S j)).
Qed.

(** *** Spread arrays *)
Lemma spread_fits xs ys md x : spread_all mds xs ys -> In (md, x) (combine mds xs) ->
  Forall2 (fits1 x) (time_integration_quantities md) ys.
Proof.
  intros (L & Lq & H) I; apply Forall2_of_nth.
  { rewrite Forall_forall in Lq; apply Lq; apply in_combine_l in I; exact I. }
  intros j qu y Eq Ey; destruct (H j y Ey) as (procs & [S1 _] & F).
  apply In_nth_error in I; destruct I as [p I]; destruct (Forall2_nth _ _ _ F p (md, x) I) as (ax & Ep & qu' & E1 & E2 & E3).
  cbn in E1, E3; rewrite Eq in E1; injection E1 as <-.
  rewrite Forall_forall in S1; specialize (S1 ax (nth_error_In _ _ Ep)); cbn in S1; rewrite E2, E3 in S1; exact S1.
Qed.
Lemma spread_cover xs ys j y k : spread_all mds xs ys -> nth_error ys j = Some y -> k < length y ->
  exists md x qu, In (md, x) (combine mds xs) /\ nth_error (time_integration_quantities md) j = Some qu /\
    ~ nothing (q_array qu) /\ global_start_index (q_array qu) <= k < global_end_index (q_array qu).
Proof.
  intros (L & Lq & H) Ey Lk; destruct (H j y Ey) as (procs & [_ S2] & F); destruct (S2 k Lk) as (ax & I & Hn & R).
  apply In_nth_error in I; destruct I as [p I]; destruct (Forall2_nth_l _ _ _ p ax F I) as ([md x] & Ep & qu & E1 & E2 & E3).
  cbn in E1; rewrite E2 in *; exists md, x, qu; split; [eapply nth_error_In; exact Ep|]; auto.
Qed.
Lemma spread_first xs ys : spread_all mds xs ys -> exists md x, In (md, x) (combine mds xs).
Proof.
  intros (L & _ & _); destruct mds as [|md l]; [contradiction|]; destruct xs as [|x xs']; [discriminate|]; exists md, x; left; reflexivity.
Qed.
Lemma spread_lengths xs ys : spread_all mds xs ys -> length names = length ys /\ map (@prod) shapes = map (@length T) ys.
Proof.
  intros S; destruct (spread_first _ _ S) as (md & x & I); pose proof (spread_fits _ _ _ _ S I) as F.
  destruct (proj1 (Forall_forall _ _) Hag md (in_combine_l _ _ _ _ I)) as [A1 A2]; subst names shapes.
  clear - F; induction F as [|qu y l l' [E _] F [IH1 IH2]]; cbn; [auto|]; split; [auto|]; f_equal; auto.
Qed.

(** *** One group, all processes *)
Section One.
Variables (r : instant T) (tf : file T) (g : string) (xs : list (list T)) (err : metadata * list T -> list (fop T)).
Hypothesis Hf : flagged r.
Hypothesis Hg : lookup g tf = Some (record_of names shapes r).
Hypothesis Hsp : spread_all mds xs (i_values r).
Hypothesis Herr : forall p, In p (combine mds xs) ->
  err p = match i_error r with Some e => [put_error g e] | None => [] end.

Let Hok' : names_ok names (match i_error r with Some _ => true | None => false end).
Proof. rewrite Hf; exact Hok. Qed.
Let Hl := proj1 (spread_lengths _ _ Hsp).
Let Hs := proj2 (spread_lengths _ _ Hsp).

Lemma err_good : Forall (good tf) (match i_error r with Some e => [put_error g e] | None => [] end).
Proof.
  pose proof (fun e => record_error names shapes r Hok' Hl Hs e) as RE.
  destruct (i_error r) as [e|]; [|constructor]; constructor; [|constructor].
  apply put_one_good; unfold get; rewrite Hg; apply RE; reflexivity.
Qed.
Lemma group_good p : In p (combine mds xs) -> Forall (good tf) (put_step (fst p) g (i_time r) (snd p) (err p)).
Proof.
  intros I; rewrite (Herr p I); destruct p as [md x].
  apply put_step_good with (names := names) (shapes := shapes); try assumption.
  - exact (proj1 (Forall_forall _ _) Hag md (in_combine_l _ _ _ _ I)).
  - exact (spread_fits _ _ _ _ Hsp I).
  - exact err_good.
Qed.
Lemma group_covered n d k : get g n tf = Some d -> k < length (d_data d) ->
  exists p o, In p (combine mds xs) /\ In o (put_step (fst p) g (i_time r) (snd p) (err p)) /\ covers tf o g n k.
Proof.
  intros G Lk; unfold get in G; rewrite Hg in G.
  destruct (record_cases _ _ _ Hok' _ _ G) as [[-> L1]|[(j & sh & y & E1 & E2 & E3 & Ed)|(-> & E & L1)]].
  - destruct (spread_first _ _ Hsp) as (md & x & I); exists (md, x).
    replace k with 0 by lia.
    destruct (put_step_time names shapes r tf g Hg md x (err (md, x))) as (o & Io & Co); eauto.
  - rewrite Ed in Lk; destruct (spread_cover _ _ j y k Hsp E3 Lk) as (md & x & qu & I & Eq & Hn & R).
    pose proof (spread_fits _ _ _ _ Hsp I) as F.
    destruct (Forall2_nth _ _ _ F _ _ E3) as (qu' & Eq' & Fy); rewrite Eq in Eq'; injection Eq' as <-.
    destruct (put_step_value names shapes r Hok' Hl Hs tf g Hg md x (err (md, x)) j qu n y k) as (o & Io & Co); try assumption.
    { exact (proj1 (Forall_forall _ _) Hag md (in_combine_l _ _ _ _ I)). }
    exists (md, x), o; auto.
  - destruct (spread_first _ _ Hsp) as (md & x & I); exists (md, x); replace k with 0 by lia.
    pose proof (fun e => record_error names shapes r Hok' Hl Hs e) as RE.
    destruct (i_error r) as [e|]; [|congruence].
    exists (put_error g e); split; [exact I|]; split.
    + rewrite (Herr _ I); right; apply in_or_app; right; left; reflexivity.
    + apply put_one_good; unfold get; rewrite Hg; apply RE; reflexivity.
Qed.
End One.

(** *** One step *)
Lemma make_steps md gs : agree names shapes md -> forall f, NoDup (map fst f ++ gs) ->
  run_ops (flat_map (make_step md emb) gs) (Some f) = Ok (Some (f ++ map (fun g => (g, blank md emb)) gs)).
Proof.
  intros [A1 A2]; induction gs as [|g gs IH]; intros f D; cbn [flat_map map]; [rewrite app_nil_r; reflexivity|].
  rewrite run_ops_app, make_step_ok.
  - cbn [bind]; rewrite IH, <- app_assoc; [reflexivity|]; rewrite map_app, <- app_assoc; exact D.
  - apply lookup_none; intros I; apply (NoDup_remove_2 _ _ _ D), in_or_app; auto.
  - rewrite A1; exact Hok.
Qed.

Variable start : instant T.
Hypothesis Hstart : i_error start = if emb then Some n0 else None.

Definition fresh (it : nat) r : list (string * instant T) :=
  (if it =? 1 then [("0", start)] else []) ++ (if it mod period =? 0 then [(step_name it, r)] else []).
Definition recorded (l : list (string * instant T)) : file T := map (fun p => (fst p, record_of names shapes (snd p))) l.

Lemma lookup_map {A B} (h : A -> B) k l : lookup k (map (fun p => (fst p, h (snd p))) l) = option_map h (lookup k l).
Proof. induction l as [|[k' x] l IH]; cbn; [reflexivity|]; destruct (String.eqb k' k); [reflexivity|exact IH]. Qed.
Lemma recorded_lookup g l : lookup g (recorded l) = option_map (record_of names shapes) (lookup g l).
Proof. apply lookup_map. Qed.
Lemma recorded_names l : map fst (recorded l) = map fst l.
Proof. unfold recorded; rewrite map_map; reflexivity. Qed.

Lemma flagged_start : flagged start.
Proof. unfold flagged; rewrite Hstart; destruct emb; reflexivity. Qed.

Definition sound_record r : Prop := flagged r /\ length names = length (i_values r) /\
  map (@prod) shapes = map (@length T) (i_values r).

Lemma sound_nodup r : sound_record r -> NoDup (map fst (record_of names shapes r)).
Proof. intros (F & L & S); apply record_nodup; [unfold flagged in F; rewrite F; exact Hok|exact L|exact S]. Qed.

Lemma towards_blank md old new : agree names shapes md -> NoDup (map fst old ++ map fst new) ->
  Forall (fun p => sound_record (snd p)) new ->
  towards (fun g _ _ => In g (map fst old)) (old ++ map (fun g => (g, blank md emb)) (map fst new)) (old ++ recorded new).
Proof.
  intros A D Fn; rewrite map_map.
  assert (Sk : skeleton (T := T) (map (fun p => (fst p, blank md emb)) new) = skeleton (recorded new)).
  { clear D; induction Fn as [|[g r] new (F & L & S) Fn IH]; [reflexivity|].
    cbn [map recorded skeleton fst snd]; f_equal; [|exact IH]; f_equal.
    unfold flagged in F; cbn [snd] in F, L, S; rewrite <- F; apply blank_skeleton; try assumption; rewrite F; exact Hok. }
  split.
  - unfold skeleton; rewrite !map_app; f_equal; exact Sk.
  - intros g n d d' G1 G2; unfold get in G1, G2; rewrite lookup_app in G1, G2.
    destruct (lookup g old) as [gr|] eqn:Lo.
    { rewrite G1 in G2; injection G2 as <-; auto. }
    split.
    2:{ intros k _ I; apply lookup_none in Lo; contradiction. }
    rewrite recorded_lookup in G2; pose proof (lookup_map (fun _ : instant T => blank (N := N) md emb) g new) as Lm; cbn beta in Lm.
    rewrite Lm in G1; destruct (lookup g new) as [r|] eqn:Ln; [|discriminate]; cbn [option_map] in G1, G2.
    apply lookup_some in Ln; rewrite Forall_forall in Fn; destruct (Fn _ Ln) as (F & L & S).
    assert (Hok' : names_ok names (match i_error r with Some _ => true | None => false end))
      by (unfold flagged in F; cbn [snd] in F; rewrite F; exact Hok).
    rewrite (blank_sized _ _ _ _ G1), (record_sized names shapes r Hok' S _ _ G2).
    unfold flagged in F; rewrite <- F in G1.
    pose proof (skeleton_lookup_in n _ _ (blank_skeleton names shapes r Hok' L S md A)) as E.
    cbn [snd] in *; rewrite G1, G2 in E; injection E as E; rewrite E; reflexivity.
Qed.

Lemma all_after_in it sts o : In o (all_after period it mds sts) <->
  exists md st, In (md, st) (combine mds sts) /\ In o (after_ops period it md st).
Proof.
  unfold all_after; rewrite in_flat_map; split.
  - intros ([md st] & I & Io); exists md, st; auto.
  - intros (md & st & I & Io); exists (md, st); auto.
Qed.
Lemma combine_map_r {A B C} (h : B -> C) (l : list A) : forall l', combine l (map h l') = map (fun p => (fst p, h (snd p))) (combine l l').
Proof. induction l as [|a l IH]; intros [|b l']; cbn; try reflexivity; rewrite IH; reflexivity. Qed.

Lemma at_end_sound sts r : at_end mds sts r -> flagged r -> sound_record r.
Proof. intros [S _] F; destruct (spread_lengths _ _ S); split; auto. Qed.
Lemma at_start_sound sts : at_start mds sts start -> sound_record start.
Proof. intros [S _]; destruct (spread_lengths _ _ S); split; [exact flagged_start|auto]. Qed.

Lemma flagged_embedded r st : flagged r -> embedded_like (i_error r) st -> embedded_state st = emb.
Proof. unfold flagged, embedded_like; intros H E; rewrite E; exact H. Qed.

Lemma end_group_ops sts r : at_end mds sts r -> flagged r -> forall md st g, In (md, st) (combine mds sts) ->
  (if embedded_state st then match err_hist st with [] => [Fail IndexError] | e :: _ => [put_error (T := T) g e] end else []) =
  match i_error r with Some e => [put_error g e] | None => [] end.
Proof.
  intros [_ F] Fl md st g I; rewrite Forall_forall in F; destruct (F st (in_combine_r _ _ _ _ I)) as (_ & E & He).
  unfold embedded_like in E; rewrite E; destruct (i_error r) as [e|]; [|reflexivity].
  specialize (He e eq_refl); destruct (err_hist st); [discriminate|]; injection He as ->; reflexivity.
Qed.

Lemma combine_exists {A B} (l : list A) (l' : list B) a b : In (a, b) (combine l l') -> In a l /\ In b l'.
Proof. intros I; split; [exact (in_combine_l _ _ _ _ I)|exact (in_combine_r _ _ _ _ I)]. Qed.

Lemma step_good it sts r tf : at_end mds sts r -> flagged r -> (it = 1 -> at_start mds sts start) ->
  (it = 1 -> lookup "0" tf = Some (record_of names shapes start)) ->
  (it mod period = 0 -> lookup (step_name it) tf = Some (record_of names shapes r)) ->
  Forall (good tf) (all_after period it mds sts) /\
  (forall g n d k, In g (map fst (fresh it r)) -> get g n tf = Some d -> k < length (d_data d) ->
     exists o, In o (all_after period it mds sts) /\ covers tf o g n k).
Proof.
  intros He Fl Hs0 L0 L1.
  assert (E1 : it mod period = 0 -> forall md st, In (md, st) (combine mds sts) ->
    put_step md (step_name it) (final_time (disc st)) (final_state (disc st))
      (if embedded_state st then match err_hist st with [] => [Fail IndexError] | e :: _ => [put_error (step_name it) e] end else [])
    = put_step md (step_name it) (i_time r) (final_state (disc st))
        (match i_error r with Some e => [put_error (step_name it) e] | None => [] end)).
  { intros _ md st I; rewrite (end_group_ops _ _ He Fl md st _ I); destruct He as [_ F].
    rewrite Forall_forall in F; destruct (F st (in_combine_r _ _ _ _ I)) as (-> & _); reflexivity. }
  assert (E0 : it = 1 -> forall md st, In (md, st) (combine mds sts) ->
    put_step md "0" (start_time (disc st)) (start_state (disc st)) (if embedded_state st then [put_error "0" n0] else [])
    = put_step md "0" (i_time start) (start_state (disc st))
        (match i_error start with Some e => [put_error "0" e] | None => [] end)).
  { intros Ei md st I; destruct (Hs0 Ei) as [_ F]; rewrite Forall_forall in F.
    destruct (F st (in_combine_r _ _ _ _ I)) as (-> & E); rewrite (flagged_embedded _ _ flagged_start E), Hstart.
    destruct emb; reflexivity. }
  split.
  - apply Forall_forall; intros o Io; apply all_after_in in Io; destruct Io as (md & st & I & Io).
    unfold after_ops in Io; destruct Io as [<-|Io]; [exact Logic.I|]; apply in_app_or in Io; destruct Io as [Io|Io].
    + destruct (Nat.eqb_spec it 1) as [Ei|]; [|contradiction]; rewrite (E0 Ei md st I) in Io.
      pose proof (group_good start tf "0" (map (fun st => start_state (disc st)) sts)
        (fun _ => match i_error start with Some e => [put_error "0" e] | None => [] end)
        flagged_start (L0 Ei) (proj1 (Hs0 Ei)) (fun _ _ => eq_refl) (md, start_state (disc st))) as G.
      cbn [fst snd] in G; rewrite Forall_forall in G; apply G; [|exact Io].
      rewrite combine_map_r; apply in_map_iff; exists (md, st); auto.
    + destruct (Nat.eqb_spec (it mod period) 0) as [Ei|]; [|contradiction]; rewrite (E1 Ei md st I) in Io.
      pose proof (group_good r tf (step_name it) (map (fun st => final_state (disc st)) sts)
        (fun _ => match i_error r with Some e => [put_error (step_name it) e] | None => [] end)
        Fl (L1 Ei) (proj1 He) (fun _ _ => eq_refl) (md, final_state (disc st))) as G.
      cbn [fst snd] in G; rewrite Forall_forall in G; apply G; [|exact Io].
      rewrite combine_map_r; apply in_map_iff; exists (md, st); auto.
  - intros g n d k Ig G Lk; unfold fresh in Ig; rewrite map_app in Ig; apply in_app_or in Ig; destruct Ig as [Ig|Ig].
    + destruct (Nat.eqb_spec it 1) as [Ei|]; [|contradiction]; destruct Ig as [<-|[]]; cbn [fst] in *.
      destruct (group_covered start tf "0" (map (fun st => start_state (disc st)) sts)
        (fun _ => match i_error start with Some e => [put_error "0" e] | None => [] end)
        flagged_start (L0 Ei) (proj1 (Hs0 Ei)) (fun _ _ => eq_refl) n d k G Lk) as ([md x] & o & Ip & Io & Co).
      rewrite combine_map_r in Ip; apply in_map_iff in Ip; destruct Ip as ([md' st] & E & I); cbn [fst snd] in *; injection E as -> <-.
      exists o; split; [|exact Co]; apply all_after_in; exists md, st; split; [exact I|]; right; apply in_or_app; left.
      rewrite Ei, Nat.eqb_refl, (E0 Ei md st I); exact Io.
    + destruct (Nat.eqb_spec (it mod period) 0) as [Ei|]; [|contradiction]; destruct Ig as [<-|[]]; cbn [fst] in *.
      destruct (group_covered r tf (step_name it) (map (fun st => final_state (disc st)) sts)
        (fun _ => match i_error r with Some e => [put_error (step_name it) e] | None => [] end)
        Fl (L1 Ei) (proj1 He) (fun _ _ => eq_refl) n d k G Lk) as ([md x] & o & Ip & Io & Co).
      rewrite combine_map_r in Ip; apply in_map_iff in Ip; destruct Ip as ([md' st] & E & I); cbn [fst snd] in *; injection E as -> <-.
      exists o; split; [|exact Co]; apply all_after_in; exists md, st; split; [exact I|]; right; apply in_or_app; right.
      rewrite Ei, Nat.eqb_refl, (E1 Ei md st I); exact Io.
Qed.

(** The file so far consists of records of earlier steps. *)
Record earlier (it : nat) old : Prop := {
  ea_names : exists ks, map fst old = map step_name ks /\ NoDup ks /\ Forall (fun k => k < it) ks;
  ea_groups : Forall (fun p => NoDup (map fst (snd p))) old
}.

Lemma fresh_names it r : 0 < period -> map fst (fresh it r) =
  map step_name ((if it =? 1 then [0] else []) ++ (if it mod period =? 0 then [it] else [])).
Proof. intros _; unfold fresh; rewrite !map_app; destruct (it =? 1), (it mod period =? 0); reflexivity. Qed.

Lemma nodup_names ks : NoDup ks -> NoDup (map step_name ks).
Proof. intros D; apply FinFun.Injective_map_NoDup; [exact step_name_inj|exact D]. Qed.

Lemma step_file it pre post r old fs : 0 < period -> 1 <= it -> earlier it old ->
  (it = 1 -> old = []) -> (it <> 1 -> fs = Some old) ->
  length pre = length mds -> Forall (fun st => embedded_state st = emb) pre ->
  at_end mds post r -> flagged r -> (it = 1 -> at_start mds post start) ->
  (exists fs1, run_ops (all_before period it mds pre) fs = Ok fs1 /\
     forall o, Permutation o (all_after period it mds post) -> run_ops o fs1 = Ok (Some (old ++ recorded (fresh it r)))) /\
  earlier (S it) (old ++ recorded (fresh it r)).
Proof.
  intros Hp Hi [(ks & En & Dk & Bk) Gr] O1 O2 Lp Ep He Fl Hs0.
  assert (Snew : Forall (fun p => sound_record (snd p)) (fresh it r)).
  { unfold fresh; apply Forall_app; split.
    - destruct (Nat.eqb_spec it 1) as [Ei|]; constructor; [|constructor]; exact (at_start_sound _ (Hs0 Ei)).
    - destruct (_ =? _); constructor; [|constructor]; exact (at_end_sound _ _ He Fl). }
  pose (news := (if it =? 1 then [0] else []) ++ (if it mod period =? 0 then [it] else [])).
  assert (Dn : NoDup (ks ++ news)).
  { unfold news; destruct (Nat.eqb_spec it 1) as [Ei|Ei].
    - rewrite (O1 Ei) in En; destruct ks; [|discriminate]; rewrite Ei.
      destruct (1 mod period =? 0); cbn [app].
      + apply NoDup_cons; [cbn; lia|]; apply NoDup_cons; [cbn; lia|]; apply NoDup_nil.
      + apply NoDup_cons; [cbn; lia|]; apply NoDup_nil.
    - cbn [app]; destruct (_ =? _); [|rewrite app_nil_r; exact Dk].
      apply NoDup_Add with (a := it) (l := ks); [|split; [exact Dk|]].
      + replace (ks ++ [it]) with (ks ++ it :: []) by reflexivity.
        pose proof (Add_app it ks []) as A; rewrite app_nil_r in A; exact A.
      + intros I; rewrite Forall_forall in Bk; specialize (Bk it I); lia. }
  assert (Df : NoDup (map fst old ++ map fst (fresh it r))).
  { rewrite En, fresh_names by exact Hp; fold news; rewrite <- map_app; apply nodup_names, Dn. }
  split.
  - destruct mds as [|md l] eqn:Em; [contradiction|]; destruct pre as [|st pre']; [discriminate|].
    rewrite <- Em in *.
    assert (A : agree names shapes md).
    { apply (proj1 (Forall_forall _ _) Hag); rewrite Em; left; reflexivity. }
    exists (Some (old ++ map (fun g => (g, blank md emb)) (map fst (fresh it r)))); split.
    + unfold all_before; rewrite Em; unfold before_ops.
      inversion Ep as [|? ? Est _]; subst; rewrite Est.
      replace ((if it =? 1 then ["0"] else []) ++ (if it mod period =? 0 then [step_name it] else []))
        with (map fst (fresh it r)).
      2:{ unfold fresh; rewrite map_app; destruct (it =? 1), (it mod period =? 0); reflexivity. }
      destruct (Nat.eqb_spec it 1) as [Ei|Ei].
      * cbn [run_ops run_op bind]; rewrite (O1 Ei) in *; exact (make_steps md _ A [] Df).
      * rewrite (O2 Ei); cbn [run_ops run_op bind]; exact (make_steps md _ A old Df).
    + intros o Po.
      assert (Look : forall p, In p (fresh it r) -> lookup (fst p) (old ++ recorded (fresh it r)) = Some (record_of names shapes (snd p))).
      { intros [g r'] I; cbn [fst snd]; rewrite lookup_app.
        assert (Ng : ~ In g (map fst old)).
        { intros I1; apply (in_map fst) in I; cbn [fst] in I; apply in_split in I; destruct I as (l1 & l2 & E).
          rewrite E in Df; rewrite app_assoc in Df; apply NoDup_remove_2 in Df; apply Df; rewrite <- !app_assoc; apply in_or_app; auto. }
        rewrite (proj2 (lookup_none _ _) Ng), recorded_lookup, (lookup_in g (fresh it r) r'); [reflexivity| |exact I].
        clear - Df; induction (map fst old) as [|x l0 IH]; [exact Df|]; inversion Df; auto. }
      destruct (step_good it post r (old ++ recorded (fresh it r)) He Fl Hs0) as [Gd Cv].
      { intros Ei; apply (Look ("0", start)); unfold fresh; rewrite Ei; left; reflexivity. }
      { intros Ei; apply (Look (step_name it, r)); unfold fresh; rewrite Ei; apply in_or_app; right; left; reflexivity. }
      destruct (put_ops (old ++ recorded (fresh it r)) o _ _ (towards_blank md old (fresh it r) A Df Snew)) as (f' & R & Tw).
      { eapply Permutation_Forall; [apply Permutation_sym; exact Po|exact Gd]. }
      refine (eq_trans R _); do 2 f_equal; apply (towards_all _ _ _ Tw).
      * rewrite map_app, recorded_names; exact Df.
      * apply Forall_app; split; [exact Gr|]; unfold recorded; apply Forall_map.
        eapply Forall_impl; [|exact Snew]; intros p; apply sound_nodup.
      * intros g n d k G Lk.
        destruct (in_dec string_dec g (map fst old)) as [|Ng]; [left; assumption|right].
        destruct (Cv g n d k) as (o' & Io & Co); [|exact G|exact Lk|].
        2:{ exists o'; split; [eapply Permutation_in; [apply Permutation_sym; exact Po|exact Io]|exact Co]. }
        unfold get in G; rewrite lookup_app, (proj2 (lookup_none _ _) Ng) in G.
        destruct (lookup g (recorded (fresh it r))) as [gr|] eqn:Lg; [|discriminate].
        apply lookup_some in Lg; apply (in_map fst) in Lg; rewrite recorded_names in Lg; exact Lg.
  - split.
    + exists (ks ++ news); rewrite map_app, recorded_names, fresh_names, En by exact Hp; fold news; rewrite <- map_app.
      split; [reflexivity|]; split; [exact Dn|]; apply Forall_app; split.
      * eapply Forall_impl; [|exact Bk]; cbn; intros; lia.
      * unfold news; apply Forall_app; split; [destruct (Nat.eqb_spec it 1)|destruct (it mod period =? 0)];
          try apply Forall_nil; apply Forall_cons; try apply Forall_nil; lia.
    + apply Forall_app; split; [exact Gr|]; unfold recorded; apply Forall_map.
      eapply Forall_impl; [|exact Snew]; intros p; apply sound_nodup.
Qed.

(** *** The run *)
Fixpoint rest_file (it : nat) (rs : list (instant T)) : file T :=
  match rs with [] => [] | r :: rs' => recorded (fresh it r) ++ rest_file (S it) rs' end.

Notation proper_step := (proper_step mds).
Lemma run_file it steps fs out : writes period mds it steps fs out -> forall rs old,
  0 < period -> 1 <= it -> earlier it old -> (it = 1 -> old = [] /\ steps <> []) -> (it <> 1 -> fs = Some old) ->
  Forall2 proper_step steps rs -> Forall flagged rs ->
  (it = 1 -> forall s, hd_error steps = Some s -> at_start mds (snd s) start) ->
  out = Ok (Some (old ++ rest_file it rs)).
Proof.
  induction 1 as [it fs|it pre post l fs fs1 o fs2 r H1 H2 H3 H4 IH|it pre post l fs fs1 o e H1 H2 H3|it pre post l fs e H1];
    intros rs old Hp Hi Ea O1 O2 F Fl Hs0.
  - inversion F; subst; cbn [rest_file]; rewrite app_nil_r.
    destruct (Nat.eq_dec it 1) as [Ei|Ei]; [destruct (O1 Ei); contradiction|]; rewrite (O2 Ei); reflexivity.
  - inversion F as [|s r0 l0 rs' (P1 & P2 & P3) F']; subst; inversion Fl as [|? ? Fr Frs]; subst; cbn [fst snd] in *.
    destruct (step_file it pre post r0 old fs Hp Hi Ea (fun E => proj1 (O1 E)) O2 P1) as [(fs1' & R1 & R2) Ea']; try assumption.
    { eapply Forall_impl; [|exact P2]; intros st; apply (flagged_embedded r0 st Fr). }
    { intros Ei; exact (Hs0 Ei _ eq_refl). }
    rewrite H1 in R1; injection R1 as <-; rewrite (R2 o H2) in H3; injection H3 as <-.
    rewrite (IH rs' (old ++ recorded (fresh it r0))); try assumption; try (intros; lia); [|reflexivity].
    cbn [rest_file]; rewrite app_assoc; reflexivity.
  - inversion F as [|s r0 l0 rs' (P1 & P2 & P3) F']; subst; inversion Fl as [|? ? Fr Frs]; subst; cbn [fst snd] in *.
    destruct (step_file it pre post r0 old fs Hp Hi Ea (fun E => proj1 (O1 E)) O2 P1) as [(fs1' & R1 & R2) Ea']; try assumption.
    { eapply Forall_impl; [|exact P2]; intros st; apply (flagged_embedded r0 st Fr). }
    { intros Ei; exact (Hs0 Ei _ eq_refl). }
    rewrite H1 in R1; injection R1 as <-; rewrite (R2 o H2) in H3; discriminate.
  - inversion F as [|s r0 l0 rs' (P1 & P2 & P3) F']; subst; inversion Fl as [|? ? Fr Frs]; subst; cbn [fst snd] in *.
    destruct (step_file it pre post r0 old fs Hp Hi Ea (fun E => proj1 (O1 E)) O2 P1) as [(fs1' & R1 & R2) Ea']; try assumption.
    { eapply Forall_impl; [|exact P2]; intros st; apply (flagged_embedded r0 st Fr). }
    { intros Ei; exact (Hs0 Ei _ eq_refl). }
    congruence.
Qed.

Lemma rest_file_from rs : forall m, 1 < m -> rest_file m rs =
  map (fun k => (step_name k, record_of names shapes (nth (k - m) rs start))) (filter (fun k => k mod period =? 0) (seq m (length rs))).
Proof.
  induction rs as [|r rs IH]; intros m Hm; [reflexivity|]; cbn [rest_file length seq filter].
  replace (fresh m r) with (if m mod period =? 0 then [(step_name m, r)] else []).
  2:{ unfold fresh; destruct (Nat.eqb_spec m 1); [lia|reflexivity]. }
  assert (E : map (fun k => (step_name k, record_of names shapes (nth (k - m) (r :: rs) start)))
                (filter (fun k => k mod period =? 0) (seq (S m) (length rs))) = rest_file (S m) rs).
  { rewrite IH by lia; apply map_ext_in; intros k I; apply filter_In in I; destruct I as [I _]; apply in_seq in I.
    replace (k - m) with (S (k - S m)) by lia; reflexivity. }
  destruct (m mod period =? 0); cbn [map recorded app fst snd]; rewrite E; [rewrite Nat.sub_diag|]; reflexivity.
Qed.
Lemma rest_file_all r rs : rest_file 1 (r :: rs) = result_file names shapes period start (r :: rs).
Proof.
  unfold result_file, written; cbn [rest_file length seq filter fresh recorded map app].
  rewrite rest_file_from by lia.
  unfold fresh; rewrite Nat.eqb_refl; cbn [app recorded map fst snd]; f_equal.
  assert (E : map (fun k => (step_name k, record_of names shapes (nth (k - 1) (r :: rs) start)))
      (filter (fun k => k mod period =? 0) (seq 2 (length rs))) =
    map (fun k => (step_name k, record_of names shapes (nth (k - 2) rs start))) (filter (fun k => k mod period =? 0) (seq 2 (length rs)))).
  { apply map_ext_in; intros k I; apply filter_In in I; destruct I as [I _]; apply in_seq in I.
    replace (k - 1) with (S (k - 2)) by lia; reflexivity. }
  destruct (1 mod period =? 0); cbn [map app fst snd]; rewrite E; [rewrite Nat.sub_diag|]; reflexivity.
Qed.

Lemma c34_main steps rs fs out : 0 < period -> steps <> [] -> Forall2 proper_step steps rs -> Forall flagged rs ->
  (forall s, hd_error steps = Some s -> at_start mds (snd s) start) ->
  writes period mds 1 steps fs out -> out = Ok (Some (result_file names shapes period start rs)).
Proof.
  intros Hp Hn F Fl Hs0 W.
  rewrite (run_file 1 steps fs out W rs []); try assumption; try lia; auto.
  - inversion F; subst; [contradiction|]; rewrite rest_file_all; reflexivity.
  - split; [exists []; repeat constructor|constructor].
Qed.

(** One order of the writes is the one of the model. *)
Lemma writes_exists steps : forall it fs, exists out, writes period mds it steps fs out /\ run_steps period it mds steps fs = out.
Proof.
  induction steps as [|[pre post] l IH]; intros it fs; cbn [run_steps].
  - eexists; split; [constructor|reflexivity].
  - destruct (run_ops (all_before period it mds pre) fs) as [fs1|e] eqn:E1; cbn [bind].
    2:{ eexists; split; [apply w_stop_before; exact E1|reflexivity]. }
    destruct (run_ops (all_after period it mds post) fs1) as [fs2|e] eqn:E2; cbn [bind].
    2:{ eexists; split; [eapply w_stop_after; [exact E1|apply Permutation_refl|exact E2]|reflexivity]. }
    destruct (IH (S it) fs2) as (out & W & R); exists out; split; [|exact R].
    eapply w_step; [exact E1|apply Permutation_refl|exact E2|exact W].
Qed.
End Run.
