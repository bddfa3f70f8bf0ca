(** Lemmas: interrupted runs, and reading the file. *)
From Coq Require Import String.
From Coq Require Import List Bool Arith Lia Permutation DecimalString DecimalNat.
From Verif Require Import Base M_Tableau M_State M_Metadata M_Heap M_Writer SpecMetadata SpecWriter
  L_Generic L_Writer L_Writer2 L_Writer3 L_Writer4.
Import ListNotations.
Local Open Scope string_scope.
Local Open Scope nat_scope.
Local Open Scope list_scope.

Section Interrupted.
Context {T : Type} {N : Num T}.

Definition touches (g : string) (o : fop T) : Prop :=
  match o with
  | OpenNew => False
  | OpenOld | Fail _ => True
  | MakeGroup g' | MakeData g' _ _ | Put g' _ _ _ _ => g' = g
  end.

Lemma change_keys {A} k (x : A) l : map fst (change k x l) = map fst l.
Proof.
  induction l as [|[k' y] l IH]; cbn; [reflexivity|]; destruct (String.eqb_spec k' k) as [->|]; cbn; [reflexivity|]; rewrite IH; reflexivity.
Qed.

Lemma touch_op g o old x r : touches g o -> lookup g old = None -> Forall (fun p => fst p = g) x ->
  run_op o (Some (old ++ x)) = Ok r -> exists x', r = Some (old ++ x') /\ Forall (fun p => fst p = g) x'.
Proof.
  intros Ht Ho Hx H; rewrite Forall_forall in Hx.
  assert (K : forall (y : list (string * group T)), map fst y = map fst x -> Forall (fun p => fst p = g) y).
  { intros y Ey; apply Forall_forall; intros p Hp; apply (in_map fst) in Hp; rewrite Ey in Hp; apply in_map_iff in Hp.
    destruct Hp as (p' & <- & Hp'); auto. }
  destruct o as [| |g' |g' n sh|g' n sel sh v|e]; cbn [touches] in Ht; subst; cbn [run_op] in H; try contradiction; try discriminate.
  - injection H as <-; exists x; split; auto.
  - destruct (lookup g (old ++ x)); [discriminate|]; injection H as <-; exists (x ++ [(g, [])]); split; [rewrite app_assoc; reflexivity|].
    apply Forall_app; split; [apply K; reflexivity|constructor; [reflexivity|constructor]].
  - destruct (lookup g (old ++ x)) as [gr|]; [|discriminate]; destruct (lookup n gr); [discriminate|]; injection H as <-.
    rewrite change_app_fresh by exact Ho; eexists; split; [reflexivity|]; apply K, change_keys.
  - destruct (lookup g (old ++ x)) as [gr|]; [|discriminate]; destruct (lookup n gr) as [d|]; [|discriminate].
    destruct (put sel sh v d) as [d'|]; [|discriminate]; cbn [bind] in H; injection H as <-.
    rewrite change_app_fresh by exact Ho; eexists; split; [reflexivity|]; apply K, change_keys.
Qed.
Lemma touch_ops g old l : lookup g old = None -> forall x r, Forall (touches g) l -> Forall (fun p => fst p = g) x ->
  run_ops l (Some (old ++ x)) = Ok r -> exists x', r = Some (old ++ x') /\ Forall (fun p => fst p = g) x'.
Proof.
  intros Ho; induction l as [|o l IH]; intros x r Fl Hx H; cbn [run_ops] in H; [injection H as <-; eauto|].
  inversion Fl as [|? ? F1 F2]; subst.
  destruct (run_op o (Some (old ++ x))) as [fs|] eqn:E; [|discriminate]; cbn [bind] in H.
  destruct (touch_op g o old x fs F1 Ho Hx E) as (x' & -> & Hx'); exact (IH x' r F2 Hx' H).
Qed.

Lemma before_touches period it md st : it <> 1 -> Forall (touches (step_name it)) (before_ops period it md st).
Proof.
  intros H; unfold before_ops; destruct (Nat.eqb_spec it 1); [contradiction|]; constructor; [exact I|]; cbn [app].
  destruct (it mod period =? 0); cbn [flat_map]; [|constructor]; rewrite app_nil_r; unfold make_step.
  apply Forall_app; split; [repeat constructor|]; apply Forall_app; split.
  - apply Forall_forall; intros o Ho; apply in_map_iff in Ho; destruct Ho as (q & <- & _); reflexivity.
  - destruct (embedded_state st); repeat constructor.
Qed.
Lemma after_touches period it md st : it <> 1 -> Forall (touches (step_name it)) (after_ops period it md st).
Proof.
  intros H; unfold after_ops; cbv zeta; destruct (Nat.eqb_spec it 1); [contradiction|]; constructor; [exact I|]; cbn [app].
  destruct (it mod period =? 0); [|constructor]; unfold put_step; constructor; [reflexivity|]; apply Forall_app; split.
  - apply Forall_forall; intros o Ho; apply in_flat_map in Ho; destruct Ho as (q & _ & Ho); unfold put_quantity in Ho; cbv zeta in Ho.
    destruct (existsb _ _); [contradiction|]; destruct (get_write_indices _); [destruct (_ =? _)|]; destruct Ho as [<-|[]]; cbn; auto.
  - destruct (embedded_state st); [destruct (err_hist st)|]; repeat constructor.
Qed.

Lemma all_touch period it mds pre post (o l1 l2 : list (fop T)) : it <> 1 -> Permutation o (all_after period it mds post) ->
  l1 ++ l2 = all_before period it mds pre ++ o -> Forall (touches (step_name it)) l1.
Proof.
  intros H P E; assert (F : Forall (touches (step_name it)) (l1 ++ l2)).
  { rewrite E; apply Forall_app; split.
    - unfold all_before; destruct mds, pre; first [apply before_touches; exact H|constructor].
    - apply Forall_forall; intros x Hx; apply (Permutation_in _ P) in Hx; unfold all_after in Hx.
      apply in_flat_map in Hx; destruct Hx as (p & _ & Hx).
      exact (proj1 (Forall_forall _ _) (after_touches period it (fst p) (snd p) H) x Hx). }
  apply Forall_app in F; apply F.
Qed.
End Interrupted.

Section Reading.
Context {T : Type} {N : Num T}.
Variables (names : list string) (shapes : list (list nat)) (period : nat) (start : instant T).

Definition names_of_file steps : map fst (result_file names shapes period start steps) =
  map step_name (0 :: written period (length steps)).
Proof. unfold result_file; cbn [map fst]; rewrite map_map; reflexivity. Qed.

Lemma written_in n k : In k (written period n) <-> 1 <= k <= n /\ k mod period = 0.
Proof. unfold written; rewrite filter_In, in_seq, Nat.eqb_eq; lia. Qed.
Lemma written_nodup n : NoDup (0 :: written period n).
Proof.
  constructor; [rewrite written_in; lia|]; unfold written; apply NoDup_filter, seq_NoDup.
Qed.
Lemma file_nodup steps : NoDup (map fst (result_file names shapes period start steps)).
Proof. rewrite names_of_file; apply nodup_names, written_nodup. Qed.

Lemma file_is steps : result_file names shapes period start steps =
  map (fun p => (step_name (fst p), record_of names shapes (snd p))) (recorded_instants period start steps).
Proof. unfold result_file, recorded_instants; cbn [map fst snd]; rewrite map_map; reflexivity. Qed.

Lemma lookup_instant steps k r : In (k, r) (recorded_instants period start steps) ->
  lookup (step_name k) (result_file names shapes period start steps) = Some (record_of names shapes r).
Proof.
  intros H; apply lookup_in; [apply file_nodup|]; rewrite file_is; apply in_map_iff; exists (k, r); auto.
Qed.

(** The run breaks off in the next step. *)
Lemma fresh_name steps : lookup (step_name (S (length steps))) (result_file names shapes period start steps) = None.
Proof.
  apply lookup_none; rewrite names_of_file; intros H; apply in_map_iff in H; destruct H as (k & E & H); apply step_name_inj in E; subst.
  destruct H as [H|H]; [discriminate|]; rewrite written_in in H; lia.
Qed.

Lemma read_int_name n : read_int (step_name n) = Ok n.
Proof.
  unfold read_int, step_name, str; rewrite NilEmpty.usu.
  destruct (String.eqb_spec (NilEmpty.string_of_uint (Nat.to_uint n)) "") as [E|_]; [|rewrite Unsigned.of_to; reflexivity].
  exfalso; apply (f_equal NilEmpty.uint_of_string) in E; rewrite NilEmpty.usu in E; injection E as E.
  pose proof (Unsigned.of_to n) as O; rewrite E in O; cbn in O; subst n; discriminate.
Qed.
Lemma read_ints_names ks : read_ints (map step_name ks) = Ok ks.
Proof. induction ks as [|k ks IH]; cbn [map read_ints]; [reflexivity|]; rewrite read_int_name; cbn [bind]; rewrite IH; reflexivity. Qed.

Lemma last_is_max n m : last_recorded period n m -> list_max (0 :: written period n) = m.
Proof.
  intros ((k & Ek) & H1 & H2); assert (P : 0 < period) by lia; apply Nat.le_antisymm.
  - apply list_max_le, Forall_forall; intros x [<-|Hx]; [lia|]; apply written_in in Hx; destruct Hx as [Hx Hm].
    rewrite Nat.mod_divide in Hm by lia; destruct Hm as [j ->]; subst m.
    assert (j < S k) by (apply (Nat.mul_lt_mono_pos_r period); cbn; lia); apply Nat.mul_le_mono_r; lia.
  - assert (In m (0 :: written period n)).
    { destruct m as [|m]; [left; reflexivity|right]; apply written_in; split; [lia|]; rewrite Ek; apply Nat.mod_mul; lia. }
    pose proof (proj1 (list_max_le (0 :: written period n) _) (Nat.le_refl _)) as F; rewrite Forall_forall in F; auto.
Qed.

Lemma last_in steps m : last_recorded period (length steps) m ->
  In (m, nth (m - 1) (if m =? 0 then [] else steps) start) (recorded_instants period start steps).
Proof.
  intros ((k & Ek) & H1 & H2); unfold recorded_instants; destruct m as [|m]; [left; reflexivity|right]; cbn [Nat.eqb].
  apply in_map_iff; exists (S m); split; [reflexivity|]; apply written_in; split; [lia|]; rewrite Ek; apply Nat.mod_mul; lia.
Qed.

Lemma read_last steps m r : last_recorded period (length steps) m -> In (m, r) (recorded_instants period start steps) ->
  names_ok names (match i_error r with Some _ => true | None => false end) -> length names = length (i_values r) ->
  map (@prod) shapes = map (@length T) (i_values r) -> ~ In "error_measure" names ->
  read_last_local_error (Some (result_file names shapes period start steps)) =
    match i_error r with Some e => Ok e | None => Err KeyError end.
Proof.
  intros Hm Hin Hok Hl Hs Hnn; unfold read_last_local_error; rewrite names_of_file, read_ints_names; cbn [bind].
  rewrite (last_is_max _ _ Hm), (lookup_instant _ _ _ Hin); unfold first_entry.
  pose proof (record_names names shapes r Hok Hl Hs) as Rn; pose proof (record_error names shapes r Hok Hl Hs) as Re.
  destruct (i_error r) as [e|] eqn:Ee.
  - rewrite (Re e eq_refl); reflexivity.
  - rewrite (proj2 (lookup_none _ _)); [reflexivity|]; rewrite Rn; cbn; rewrite app_nil_r.
    intros [H|H]; [discriminate|contradiction].
Qed.

(** All of the file. *)
Definition sound (r : instant T) : Prop := length names = length (i_values r) /\ map (@prod) shapes = map (@length T) (i_values r) /\
  names_ok names (match i_error r with Some _ => true | None => false end).

Lemma read_times_ok (rs : list (nat * instant T)) :
  read_times (map (fun p => (step_name (fst p), record_of names shapes (snd p))) rs) = Ok (map (fun p => (fst p, i_time (snd p))) rs).
Proof.
  induction rs as [|[k r] rs IH]; cbn [map read_times fst snd]; [reflexivity|]; rewrite read_int_name; cbn [bind].
  unfold first_entry; rewrite record_time; cbn [d_data bind]; rewrite IH; reflexivity.
Qed.

Lemma record_value_of r q : sound r -> In q names -> Forall (fun sh => sh <> []) shapes ->
  exists sh, lookup q (record_of names shapes r) = Some {| d_shape := sh; d_data := value_of names r q |} /\ sh <> [].
Proof.
  intros (L1 & L2 & Hok) Hq Hsh; apply In_nth_error in Hq; destruct Hq as [j Ej].
  assert (Lj : j < length names) by (apply nth_error_Some; congruence).
  assert (L3 : length shapes = length (i_values r)) by (rewrite <- (map_length (@prod) shapes), L2, map_length; reflexivity).
  destruct (nth_error shapes j) as [sh|] eqn:Es; [|apply nth_error_None in Es; lia].
  destruct (nth_error (i_values r) j) as [y|] eqn:Ey; [|apply nth_error_None in Ey; lia].
  exists sh; split; [|rewrite Forall_forall in Hsh; apply Hsh; eapply nth_error_In; exact Es].
  rewrite (record_value names shapes r) with (j := j) (sh := sh) (y := y); try assumption.
  f_equal; f_equal; unfold value_of; rewrite (lookup_in q _ y); [reflexivity| |].
  - rewrite (combine_fst names r L1) by exact L1; unfold names_ok in Hok; inversion Hok as [|? ? _ D]; subst; revert D; clear.
    generalize (if match i_error r with Some _ => true | None => false end then ["error_measure"] else []); intros l' D.
    induction names as [|n l IH]; [constructor|]; inversion D as [|? ? D1 D2]; subst; constructor; [|auto].
    intros H; apply D1, in_or_app; auto.
  - apply nth_error_In with (n := j); rewrite combine_nth_error, Ej, Ey; reflexivity.
Qed.

Lemma read_values_ok q rs : In q names -> Forall (fun sh => sh <> []) shapes -> Forall (fun p => sound (snd p)) rs ->
  read_values q (map (fun p : nat * instant T => (step_name (fst p), record_of names shapes (snd p))) rs) =
    Ok (map (fun p => (fst p, value_of names (snd p) q)) rs).
Proof.
  intros Hq Hsh F; induction F as [|[k r] rs F1 F2 IH]; cbn [map read_values fst snd]; [reflexivity|]; rewrite read_int_name; cbn [bind].
  destruct (record_value_of r q F1 Hq Hsh) as (sh & -> & Hs); cbn [bind d_shape d_data].
  destruct sh; [contradiction|]; cbn [bind]; rewrite IH; reflexivity.
Qed.

Lemma at_step_in {A} k (x : A) l : NoDup (map fst l) -> In (k, x) l -> at_step k l = Ok x.
Proof.
  induction l as [|[m y] l IH]; [contradiction|]; cbn [map fst at_step]; intros D I; inversion D as [|? ? D1 D2]; subst.
  destruct (Nat.eqb_spec m k) as [->|].
  - destruct I as [I|I]; [congruence|]; destruct D1; apply in_map_iff; exists (k, x); auto.
  - destruct I as [I|I]; [congruence|]; auto.
Qed.
Lemma each_ok {A B} (f : A -> res B) (h : A -> B) l : (forall a, In a l -> f a = Ok (h a)) -> each f l = Ok (map h l).
Proof.
  induction l as [|a l IH]; intros H; [reflexivity|]; cbn [each map]; rewrite H by (left; reflexivity); cbn [bind].
  rewrite IH; [reflexivity|]; intros; apply H; right; assumption.
Qed.

Variable sol1 : T -> list T -> T -> list T.
Variable soln : T -> list (list T) -> T -> list (list T).

(** What is compared: the value of the analytical solution that is used. *)
Definition compared (several i : nat) (t t0 : T) (x0 : list T) : list T :=
  if 1 <? several then nth i (soln t (repeat x0 several) t0) [] else sol1 t x0 t0.

Lemma errors_ok several i rs q : NoDup (map fst rs) -> In (0, start) rs ->
  (1 < several -> forall t xs t0, length xs = several -> length (soln t xs t0) = several) -> i < several ->
  errors_of sol1 soln several i (map (fun p => (fst p, i_time (snd p))) rs) (map (fun p => (fst p, value_of names (snd p) q)) rs) =
    Ok (map (fun p => (fst p, map nabs (map2 nsub (compared several i (i_time (snd p)) (i_time start) (value_of names start q))
                                                  (value_of names (snd p) q)))) rs).
Proof.
  intros D I0 Hs Hi.
  assert (D1 : forall B (h : instant T -> B), NoDup (map fst (map (fun p => (fst p, h (snd p))) rs))).
  { intros B h; rewrite map_map; cbn [fst]; exact D. }
  unfold errors_of; rewrite (each_ok _ (fun p : nat * list T => (fst p, map nabs (map2 nsub (compared several i
    (match at_step (fst p) (map (fun p => (fst p, i_time (snd p))) rs) with Ok t => t | Err _ => n0 end) (i_time start)
    (value_of names start q)) (snd p))))).
  { rewrite map_map; cbn [fst snd]; f_equal; apply map_ext_in; intros [k r] Hin; cbn [fst snd].
    rewrite (at_step_in k (i_time r)); [reflexivity|apply (D1 _ i_time)|apply in_map_iff; exists (k, r); auto]. }
  intros p Hp; apply in_map_iff in Hp; destruct Hp as ([k r] & <- & Hin); cbn [fst snd].
  rewrite (at_step_in 0 (value_of names start q)); [|apply (D1 _ (fun r => value_of names r q))|apply in_map_iff; exists (0, start); auto].
  cbn [bind].
  rewrite (at_step_in k (i_time r)); [|apply (D1 _ i_time)|apply in_map_iff; exists (k, r); auto]; cbn [bind].
  rewrite (at_step_in 0 (i_time start)); [|apply (D1 _ i_time)|apply in_map_iff; exists (0, start); auto]; cbn [bind].
  unfold compared; destruct (Nat.ltb_spec 1 several) as [H1|H1]; [|reflexivity].
  destruct (nth_error (soln (i_time r) (repeat (value_of names start q) several) (i_time start)) i) as [y|] eqn:E.
  - rewrite (nth_error_nth _ _ [] E); reflexivity.
  - apply nth_error_None in E; rewrite Hs in E by (try exact H1; apply repeat_length); lia.
Qed.
End Reading.
