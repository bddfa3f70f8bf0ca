(** C39: the OpenMDAO-backed ODE over the reals. *)
From Coq Require Import String.
From Coq Require Import List Bool Arith Reals Lia Lra.
From Verif Require Import Base Ext M_ODE M_Metadata M_Components SpecMetadata SpecRK SpecDeriv SpecComponents
  M_Packing SpecPacking L_Vec L_Components L_Metadata L_Metadata2 L_Packing L_Packing2 L_Packing3.
Import ListNotations.
Local Open Scope string_scope.
Local Open Scope R_scope.
Local Open Scope list_scope.

(** *** Sums *)
Definition lsum (l : list R) : R := fold_right Rplus 0 l.
Lemma lsum_app l l' : lsum (l ++ l') = lsum l + lsum l'.
Proof. unfold lsum. induction l as [|x l IH]; cbn [app fold_right]; [ring|rewrite IH; ring]. Qed.
Lemma lsum_scale {A} (f : A -> R) c l : lsum (map (fun x => c * f x) l) = c * lsum (map f l).
Proof. unfold lsum. induction l as [|x l IH]; cbn [map fold_right]; [ring|rewrite IH; ring]. Qed.
Lemma lsum_ext {A} (f g : A -> R) l : (forall x, In x l -> f x = g x) -> lsum (map f l) = lsum (map g l).
Proof.
  unfold lsum. induction l as [|x l IH]; cbn [map fold_right]; intros H; [reflexivity|].
  rewrite H by (left; reflexivity). rewrite IH; [reflexivity|]. intros; apply H; right; assumption.
Qed.
Lemma lsum_flat {A B} (f : B -> R) (g : A -> list B) l :
  lsum (map f (flat_map g l)) = lsum (map (fun a => lsum (map f (g a))) l).
Proof.
  induction l as [|a l IH]; [reflexivity|]. cbn [flat_map map].
  rewrite map_app, lsum_app, IH. reflexivity.
Qed.
Lemma lsum_plus {A} (f g : A -> R) l : lsum (map (fun x => f x + g x) l) = lsum (map f l) + lsum (map g l).
Proof. unfold lsum. induction l as [|x l IH]; cbn [map fold_right]; [ring|rewrite IH; ring]. Qed.

Lemma dot_app a b c d : length a = length c -> dot (a ++ b) (c ++ d) = dot a c + dot b d.
Proof.
  revert c; induction a as [|x a IH]; intros [|y c] L; try discriminate; cbn; [ring|].
  rewrite IH by (injection L; auto). ring.
Qed.
Lemma dot_cuts l : forall n m a b, lay n l m -> length a = m -> length b = m ->
  dot (skipn n a) (skipn n b) = lsum (map (fun r => dot (cut r a) (cut r b)) l).
Proof.
  induction l as [|[s e] l IH]; cbn [lay]; intros n m a b L La Lb.
  - subst. rewrite !skipn_all2 by lia. reflexivity.
  - cbn [map]. change (lsum (?x :: ?y)) with (x + lsum y).
    destruct L as [(-> & He & L)|(-> & -> & L)].
    + pose proof (lay_le _ _ _ L).
      assert (X : forall c : list R, skipn n c = cut (n, e) c ++ skipn e c).
      { intros c. unfold cut, slice; cbn. rewrite <- (firstn_skipn (e - n) (skipn n c)) at 1.
        f_equal. rewrite skipn_skipn. f_equal; lia. }
      rewrite (X a), (X b), dot_app by (rewrite !cut_length; lia). rewrite (IH e m); auto.
    + rewrite (IH n m) by auto. cbn. ring.
Qed.

(** *** Assignments and inner products *)
Lemma assign_vinner n x (v v' z : vec R) u y : assign n x v = Ok v' -> layout z = layout v ->
  get n z = Ok u -> get n v = Ok y -> vinner z v' = vinner z v + dot u x - dot u y.
Proof.
  unfold assign, vinner. revert v' z; induction v as [|[k t] v IH]; intros v' [|[k' t'] z] U L G Gy; try discriminate.
  injection L as -> Lt L. cbn [update get] in *. destruct (String.eqb n k).
  - injection G as ->. injection Gy as ->. apply bind_ok in U as (w & F & U). injection U as <-.
    destruct (_ =? _)%nat; [|discriminate]. injection F as <-. cbn [inner]. ring.
  - apply bind_ok in U as (w & U & E). injection E as <-. cbn [inner].
    rewrite (IH _ _ U L G Gy). ring.
Qed.

Lemma getd_ok n (v : vec R) x : get n v = Ok x -> getd n v = x.
Proof. unfold getd. now intros ->. Qed.

Lemma writes_vinner W : forall v v' z, NoDup (map fst W) -> writes W v = Ok v' -> layout z = layout v ->
  (forall n y u, In n (map fst W) -> get n v = Ok y -> dot u y = 0) ->
  vinner z v' = vinner z v + lsum (map (fun p => dot (getd (fst p) z) (snd p)) W).
Proof.
  induction W as [|[n x] W IH]; intros v v' z ND H L Z.
  - injection H as <-. cbn. ring.
  - unfold writes in H; cbn [scan fst snd] in H. apply bind_ok in H as (v1 & A & B). fold (writes W v1) in B.
    cbn [map fst snd] in *. change (lsum (?x :: ?y)) with (x + lsum y). inversion ND as [|? ? N1 N2]; subst.
    pose proof (assign_inv _ _ _ _ A) as (La & (y & Gy & Ly) & _ & O).
    assert (Gz : exists u, get n z = Ok u).
    { destruct (layout_get _ _ _ _ (eq_sym L) Gy) as (u & ? & _); eauto. }
    destruct Gz as (u & Gz). rewrite (getd_ok _ _ _ Gz).
    assert (Z1 : forall n' y' u', In n' (map fst W) -> get n' v1 = Ok y' -> dot u' y' = 0).
    { intros n' y' u' I G. rewrite O in G by (intros ->; contradiction). apply (Z n'); [right; exact I|exact G]. }
    rewrite (IH v1 v' z N2 B (eq_trans L (eq_sym La)) Z1).
    rewrite (assign_vinner _ _ _ _ z u y A L Gz Gy), (Z n y u (or_introl eq_refl) Gy). ring.
Qed.

Lemma dot_zero u (y : list R) : dot u (map (fun x => x * 0) y) = 0.
Proof. revert u; induction y as [|b y IH]; intros [|a u]; cbn; try ring. rewrite IH; ring. Qed.
Lemma zeroed_get n (v : vec R) y : get n (zeroed v) = Ok y -> exists x, get n v = Ok x /\ y = map (fun x => x * 0) x.
Proof.
  induction v as [|[k x] v IH]; cbn; [discriminate|]. destruct (String.eqb n k); [intros [= <-]; eauto|auto].
Qed.
Lemma zeroed_vinner (z v : vec R) : vinner z (zeroed v) = 0.
Proof.
  unfold vinner. revert z; induction v as [|[k x] v IH]; intros [|[k' u] z]; cbn [zeroed map inner fst snd]; try ring.
  fold (zeroed v). rewrite IH. cbn [nmul RNum n0]. rewrite dot_zero. ring.
Qed.

Lemma vinner_comm (v w : vec R) : vinner v w = vinner w v.
Proof.
  unfold vinner. revert w; induction v as [|[k x] v IH]; intros [|[k' y] w]; cbn [inner]; try reflexivity.
  now rewrite IH, dot_comm.
Qed.

Section One.
Variables (pb : problem R) (md : metadata).
Hypothesis Lt : laid_out 0 (map q_array (time_integration_quantities md)) (time_integration_array_size md).
Hypothesis Li : laid_out 0 (map q_array (time_independent_quantities md)) (time_independent_input_size md).

Definition sized_in (i : ode_in R) : Prop :=
  length (M_ODE.step_input i) = time_integration_array_size md /\
  length (stage_input i) = time_integration_array_size md /\
  length (independent_input i) = time_independent_input_size md.

(** What is written where. *)
Definition sel : Type := option string * (ode_in R -> list R).
Definition ti_sels (q : quantity ti_translation) : list sel :=
  match local (q_array q), step_input_var (q_translation q) with
  | true, Some sv => [(Some sv, fun i => part (q_array q) (M_ODE.step_input i));
                      (accumulated_stage_var (q_translation q), fun i => part (q_array q) (stage_input i))]
  | _, _ => [] end.
Definition ind_sels (q : quantity (option string)) : list sel :=
  if local (q_array q) then [(q_translation q, fun i => part (q_array q) (independent_input i))] else [].
Definition time_sels : list sel :=
  match time_variable md with Some tv => [(Some tv, fun i => [time i])] | None => [] end.
Definition sels : list sel := time_sels ++ flat_map ti_sels (time_integration_quantities md)
  ++ flat_map ind_sels (time_independent_quantities md).

Definition put_sel (inp : ode_in R) (f : R) (p : sel) : res (string * list R) :=
  let* s := source_of pb (fst p) in Ok (s, vscale f (snd p inp)).

Lemma map_flat_map {A B C} (f : B -> C) (g : A -> list B) l : map f (flat_map g l) = flat_map (fun a => map f (g a)) l.
Proof. induction l as [|a l IH]; cbn; [reflexivity|]. now rewrite map_app, IH. Qed.
Lemma flat_map_in {A B} (f g : A -> list B) l : (forall a, In a l -> f a = g a) -> flat_map f l = flat_map g l.
Proof.
  induction l as [|a l IH]; intros H; cbn; [reflexivity|]. rewrite (H a (or_introl eq_refl)), IH; auto.
  intros; apply H; right; assumption.
Qed.

Lemma sels_vars : map fst sels = input_variables md.
Proof.
  unfold sels, input_variables. rewrite !map_app, !map_flat_map. f_equal; [|f_equal].
  - unfold time_sels. destruct (time_variable md); reflexivity.
  - apply flat_map_in. intros q _. unfold ti_sels. destruct (local (q_array q)), (step_input_var (q_translation q)); reflexivity.
  - apply flat_map_in. intros q _. unfold ind_sels. destruct (local _); reflexivity.
Qed.

Lemma put_of_sel q (arr : list R) n f : In q (map q_array (time_integration_quantities md)) ->
  length arr = time_integration_array_size md ->
  put_of pb q f arr n = let* s := source_of pb n in Ok (s, vscale f (part q arr)).
Proof.
  intros I L. unfold put_of. apply in_map_iff in I as (qq & <- & I).
  change (slice (start_index (q_array qq)) (end_index (q_array qq)) arr) with (part (q_array qq) arr).
  unfold reshape. rewrite (part_length _ _ Lt qq arr I L), Nat.eqb_refl. reflexivity.
Qed.
Lemma put_of_ind q (arr : list R) n f : In q (map q_array (time_independent_quantities md)) ->
  length arr = time_independent_input_size md ->
  put_of pb q f arr n = let* s := source_of pb n in Ok (s, vscale f (part q arr)).
Proof.
  intros I L. unfold put_of. apply in_map_iff in I as (qq & <- & I).
  change (slice (start_index (q_array qq)) (end_index (q_array qq)) arr) with (part (q_array qq) arr).
  unfold reshape. rewrite (part_length _ _ Li qq arr I L), Nat.eqb_refl. reflexivity.
Qed.

Lemma input_plan_sels inp f : sized_in inp -> input_plan pb md inp f = map (put_sel inp f) sels.
Proof.
  intros (S1 & S2 & S3). unfold input_plan, sels. rewrite !map_app, !map_flat_map. f_equal; [|f_equal].
  - unfold time_plan, time_sels. destruct (time_variable md); [|reflexivity].
    cbn. unfold put_sel; cbn. now rewrite Rmult_comm.
  - apply flat_map_in. intros q I. unfold ti_plan, ti_sels. destruct (local (q_array q)), (step_input_var (q_translation q)); try reflexivity.
    cbn [map]. rewrite !put_of_sel by (try assumption; apply in_map; assumption). reflexivity.
  - apply flat_map_in. intros q I. unfold ind_plan, ind_sels. destruct (local _); try reflexivity.
    cbn [map]. rewrite put_of_ind by (try assumption; apply in_map; assumption). reflexivity.
Qed.

(** The variables replaced by their sources. *)
Definition resolved (L : list (string * (ode_in R -> list R))) : Prop :=
  map (fun p : sel => let* s := source_of pb (fst p) in Ok (s, snd p)) sels = map Ok L.
Definition assignments (L : list (string * (ode_in R -> list R))) (inp : ode_in R) (f : R) :=
  map (fun p => (fst p, vscale f (snd p inp))) L.

Lemma resolved_plan l inp f W : map (put_sel inp f) l = map Ok W ->
  exists L, map (fun p : sel => let* s := source_of pb (fst p) in Ok (s, snd p)) l = map Ok L /\ W = assignments L inp f.
Proof.
  revert W; induction l as [|[n g] l IH]; intros [|w W] H; cbn in H; try discriminate.
  - exists []; auto.
  - unfold put_sel at 1 in H; cbn in H. destruct (source_of pb n) as [s|] eqn:E; [|discriminate].
    cbn in H. injection H as <- H. destruct (IH _ H) as (L & A & ->).
    exists ((s, g) :: L). cbn. rewrite E, A. auto.
Qed.
Lemma resolved_unique L L' : resolved L -> resolved L' -> L = L'.
Proof.
  unfold resolved. intros A B. rewrite A in B. revert L' B; clear A.
  induction L as [|x L IH]; intros [|y L'] B; try discriminate; [reflexivity|].
  injection B as -> B. f_equal; auto.
Qed.
Lemma resolved_nodup L : resolved L -> distinct_sources pb md -> NoDup (map fst L).
Proof.
  unfold resolved, distinct_sources. intros R D. rewrite <- sels_vars, map_map in D.
  revert L R D. induction sels as [|[n g] l IH]; intros [|p L] R D; cbn in R; try discriminate; [constructor|].
  destruct (source_of pb n) as [s|] eqn:E; [|discriminate]. cbn in R. injection R as <- R. cbn in *.
  inversion D as [|? ? D1 D2]; subst. constructor; [|apply IH; assumption].
  intros I. apply D1. rewrite E. clear -R I. revert L R I.
  induction l as [|[n' g'] l IH]; intros [|p L] R I; cbn in *; try discriminate; [contradiction|].
  destruct (source_of pb n') as [s'|]; [|discriminate]. cbn in R. injection R as <- R. cbn in I.
  destruct I as [->|I]; [left; reflexivity|right; eapply IH; eassumption].
Qed.
Lemma resolved_names L : resolved L -> map fst L = source_names pb md.
Proof.
  unfold resolved, source_names. rewrite <- sels_vars. revert L.
  induction sels as [|[n g] l IH]; intros [|p L] R; cbn in R; try discriminate; [reflexivity|].
  cbn. destruct (source_of pb n) as [s|] eqn:E; [|discriminate]. cbn in R. injection R as <- R. cbn.
  now rewrite (IH _ R).
Qed.

Definition scalar (v : vec R) : Prop :=
  forall tv s x, time_variable md = Some tv -> p_source pb tv = Ok s -> get s v = Ok x -> length x = 1%nat.

Lemma input_writes inp f v v' : scalar v -> sized_in inp -> input_state_to_om_vector pb md inp f v = Ok v' ->
  exists L, resolved L /\ writes (assignments L inp f) v = Ok v'.
Proof.
  intros S Z H. rewrite input_is_plan in H by exact S. apply run_plan_inv in H as (W & P & H).
  unfold planned in P. rewrite input_plan_sels in P by assumption.
  apply resolved_plan in P as (L & R & ->). exists L; split; assumption.
Qed.
Lemma input_writes_conv inp f v L : scalar v -> sized_in inp -> resolved L ->
  input_state_to_om_vector pb md inp f v = writes (assignments L inp f) v.
Proof.
  intros S Z R. rewrite input_is_plan by exact S. rewrite input_plan_sels by assumption.
  rewrite <- run_planned. f_equal. unfold resolved in R. unfold assignments.
  revert L R. induction sels as [|[n g] l IH]; intros [|p L] R; cbn in R; try discriminate; [reflexivity|].
  destruct (source_of pb n) as [s|] eqn:E; [|discriminate]. cbn in R. injection R as <- R. cbn.
  unfold put_sel at 1; cbn. rewrite E; cbn. f_equal. apply IH, R.
Qed.
Lemma scalar_layout v w : layout v = layout w -> scalar w -> scalar v.
Proof.
  intros L S tv s x A B G. destruct (layout_get _ _ _ _ L G) as (y & G' & E). rewrite E. eapply S; eauto.
Qed.

(** *** Reading an ODE input *)
Lemma scan_pair {A P Q} (f : P -> A -> res P) (g : Q -> A -> res Q) l : forall (pq r : P * Q),
  scan (fun pq a => let* x := f (fst pq) a in let* y := g (snd pq) a in Ok (x, y)) pq l = Ok r ->
  scan f (fst pq) l = Ok (fst r) /\ scan g (snd pq) l = Ok (snd r).
Proof.
  induction l as [|a l IH]; intros [p q] r H; cbn [scan] in *.
  - injection H as <-; auto.
  - apply bind_ok in H as (pq1 & A1 & B). apply bind_ok in A1 as (x & Ex & A1).
    apply bind_ok in A1 as (y & Ey & A1). injection A1 as <-. cbn [fst snd] in *. rewrite Ex, Ey. cbn [bind].
    apply (IH (x, y)), B.
Qed.

Definition picked {X} (pick : quantity X -> option (res (list R))) (arr : list R) (q : quantity X) : res (list R) :=
  match pick q with
  | None => Ok arr
  | Some rx => let* x := rx in copy_into (start_index (q_array q)) (end_index (q_array q)) x arr
  end.
Lemma scan_reads {X} (pick : quantity X -> option (res (list R))) ql : forall arr arr',
  scan (picked pick) arr ql = Ok arr' ->
  reads (map (fun q => (match pick q with Some (Ok x) => Some x | _ => None end, rng (q_array q))) ql) arr = Ok arr' /\
  Forall (fun q => forall e, pick q <> Some (Err e)) ql.
Proof.
  induction ql as [|q ql IH]; intros arr arr' H; cbn [scan] in H.
  - injection H as <-. split; [reflexivity|constructor].
  - apply bind_ok in H as (a1 & A & B). apply IH in B as (B1 & B2).
    unfold picked in A. unfold reads; cbn [map scan fst snd rng].
    destruct (pick q) as [[x|e]|] eqn:E; try discriminate; cbn [bind] in A.
    + rewrite A. split; [exact B1|]. constructor; [intros e; rewrite E; discriminate|exact B2].
    + injection A as ->. split; [exact B1|]. constructor; [intros e; rewrite E; discriminate|exact B2].
Qed.
(** The parts of an array filled by such a loop. *)
Lemma picked_parts {X} (pick : quantity X -> option (res (list R))) ql m arr' :
  laid_out 0 (map q_array ql) m -> scan (picked pick) (vzeros m) ql = Ok arr' ->
  length arr' = m /\ forall q, In q ql ->
    match pick q with
    | Some (Ok x) => part (q_array q) arr' = x /\ length x = prod (M_Metadata.shape (q_array q))
    | Some (Err _) => False
    | None => part (q_array q) arr' = part (q_array q) (vzeros m) end.
Proof.
  intros Lay H. apply scan_reads in H as (H & NE).
  pose proof (laid_out_lay _ _ _ Lay) as Y. rewrite map_map in Y.
  apply (reads_inv _ 0 m) in H as (A & _ & _ & B);
    [|rewrite map_map; exact Y|rewrite length_vzeros; lia].
  rewrite length_vzeros in A. split; [exact A|]. intros q I.
  rewrite Forall_map, Forall_forall in B. rewrite Forall_forall in NE. specialize (B q I). specialize (NE q I).
  unfold taken in B; cbn [fst snd] in B.
  destruct (pick q) as [[x|e]|]; [|exfalso; apply (NE e); reflexivity|exact B].
  destruct B as (B1 & B2). split; [exact B2|]. rewrite B1. cbn [rng fst snd].
  eapply laid_out_shape; [exact Lay|]. apply in_map, I.
Qed.

Lemma bind_assoc {A B C} (m : res A) (k : A -> res B) (g : B -> res C) :
  (let* y := (let* x := m in k x) in g y) = let* x := m in let* y := k x in g y.
Proof. destruct m; reflexivity. Qed.

Lemma take_source_alt a y n arr : take_source pb a y n arr
  = let* x := (let* s := source_of pb n in get s y) in copy_into (start_index a) (end_index a) x arr.
Proof. unfold take_source. now rewrite bind_assoc. Qed.

Lemma part_zeros_dot a m u : dot (part a (vzeros m)) u = 0.
Proof.
  unfold part, vzeros. assert (X : forall n k (v : list R), dot (firstn n (repeat 0 k)) v = 0).
  { intros n; induction n as [|n IH]; intros [|k] [|b v]; cbn; try reflexivity. rewrite IH; ring. }
  replace (skipn (start_index a) (repeat n0 m)) with (repeat (@n0 R _) (m - start_index a)).
  - apply X.
  - generalize (start_index a); induction m as [|m IH]; intros [|s]; cbn; try reflexivity. now rewrite <- IH.
Qed.

Definition weigh (y : vec R) (d : ode_in R) (p : sel) : R :=
  match source_of pb (fst p) with Ok s => dot (getd s y) (snd p d) | Err _ => 0 end.

Lemma read_input y x d : sized_in d ->
  om_vector_to_input_state pb md y
    {| M_ODE.step_input := vzeros (time_integration_array_size md);
       stage_input := vzeros (time_integration_array_size md);
       independent_input := vzeros (time_independent_input_size md); time := 0 |} = Ok x ->
  sized_in x /\ dot_in x d = lsum (map (weigh y d) sels).
Proof.
  intros (S1 & S2 & S3) H. unfold om_vector_to_input_state in H. cbn [M_ODE.step_input stage_input independent_input time] in H.
  apply bind_ok in H as (t & Ht & H). apply bind_pair_ok in H as (st & ac & H1 & H).
  apply bind_ok in H as (ind & H2 & H). injection H as <-.
  pose (ps := fun q : quantity ti_translation => match local (q_array q), step_input_var (q_translation q) with
     | true, Some sv => Some (let* s := source_of pb (Some sv) in get s y) | _, _ => None end).
  pose (pa := fun q : quantity ti_translation => match local (q_array q), step_input_var (q_translation q) with
     | true, Some sv => Some (let* s := source_of pb (accumulated_stage_var (q_translation q)) in get s y)
     | _, _ => None end).
  pose (pi := fun q : quantity (option string) => if local (q_array q) then
     Some (let* s := source_of pb (q_translation q) in get s y) else None).
  assert (E1 : forall l pq, scan (fun (p : list R * list R) q =>
      if local (q_array q) then
        match step_input_var (q_translation q) with
        | Some sv =>
          let* x := take_source pb (q_array q) y (Some sv) (fst p) in
          let* z := take_source pb (q_array q) y (accumulated_stage_var (q_translation q)) (snd p) in
          Ok (x, z)
        | None => Ok p
        end
      else Ok p) pq l
    = scan (fun pq a => let* x := picked ps (fst pq) a in let* z := picked pa (snd pq) a in Ok (x, z)) pq l).
  { intros l pq. apply scan_ext. intros [p q] a. unfold picked, ps, pa.
    destruct (local (q_array a)); [|reflexivity]. destruct (step_input_var _); [|reflexivity].
    cbn [fst snd]. rewrite <- !take_source_alt. reflexivity. }
  rewrite E1 in H1. apply scan_pair in H1 as (H1 & H1'). cbn [fst snd] in H1, H1'.
  assert (E2 : forall l p, scan (fun arr q =>
      if local (q_array q) then take_source pb (q_array q) y (q_translation q) arr else Ok arr) p l = scan (picked pi) p l).
  { intros l p. apply scan_ext. intros arr a. unfold picked, pi. destruct (local (q_array a)); [|reflexivity].
    rewrite bind_assoc. reflexivity. }
  rewrite E2 in H2.
  destruct (picked_parts _ _ _ _ Lt H1) as (A1 & A2).
  destruct (picked_parts _ _ _ _ Lt H1') as (B1 & B2).
  destruct (picked_parts _ _ _ _ Li H2) as (C1 & C2).
  split; [repeat split; assumption|].
  unfold dot_in; cbn [M_ODE.step_input stage_input independent_input time].
  pose proof (laid_out_lay _ _ _ Lt) as Yt. pose proof (laid_out_lay _ _ _ Li) as Yi.
  pose proof (dot_cuts _ _ _ st (M_ODE.step_input d) Yt A1 S1) as D1.
  pose proof (dot_cuts _ _ _ ac (stage_input d) Yt B1 S2) as D2.
  pose proof (dot_cuts _ _ _ ind (independent_input d) Yi C1 S3) as D3.
  cbn [skipn] in D1, D2, D3. rewrite D1, D2, D3. rewrite !map_map.
  unfold sels. rewrite !map_app, !lsum_app, !lsum_flat.
  assert (X1 : lsum (map (weigh y d) time_sels) = t * time d).
  { unfold time_sels. destruct (time_variable md) as [tv|]; cbn [map lsum fold_right].
    - unfold weigh; cbn [fst snd source_of]. apply bind_ok in Ht as (s & Es & Ht). rewrite Es.
      unfold first in Ht. apply bind_ok in Ht as (x & Gx & Ht). rewrite (getd_ok _ _ _ Gx).
      destruct x as [|b x]; [discriminate|]. injection Ht as ->. destruct x; cbn [dot]; ring.
    - injection Ht as <-. cbn; ring. }
  assert (X2 : lsum (map (fun a => lsum (map (weigh y d) (ti_sels a))) (time_integration_quantities md))
     = lsum (map (fun q => dot (cut (rng (q_array q)) st) (cut (rng (q_array q)) (M_ODE.step_input d))
                          + dot (cut (rng (q_array q)) ac) (cut (rng (q_array q)) (stage_input d)))
              (time_integration_quantities md))).
  { apply lsum_ext. intros q I. specialize (A2 q I). specialize (B2 q I). unfold ps in A2; unfold pa in B2.
    unfold ti_sels. change (cut (rng (q_array q))) with (fun l : list R => part (q_array q) l); cbv beta.
    destruct (local (q_array q)); [destruct (step_input_var (q_translation q)) as [sv|]|]; cbn [map lsum fold_right].
    - unfold weigh; cbn [fst snd].
      destruct (source_of pb (Some sv)) as [s|]; cbn [bind] in A2; [|contradiction].
      destruct (get s y) as [xs|] eqn:Gs; [|contradiction]. rewrite (getd_ok _ _ _ Gs).
      destruct (source_of pb (accumulated_stage_var _)) as [s'|]; cbn [bind] in B2; [|contradiction].
      destruct (get s' y) as [xs'|] eqn:Gs'; [|contradiction]. rewrite (getd_ok _ _ _ Gs').
      destruct A2 as (-> & _), B2 as (-> & _). ring.
    - rewrite A2, B2, !part_zeros_dot. ring.
    - rewrite A2, B2, !part_zeros_dot. ring. }
  assert (X3 : lsum (map (fun a => lsum (map (weigh y d) (ind_sels a))) (time_independent_quantities md))
     = lsum (map (fun q => dot (cut (rng (q_array q)) ind) (cut (rng (q_array q)) (independent_input d)))
              (time_independent_quantities md))).
  { apply lsum_ext. intros q I. specialize (C2 q I). unfold pi in C2. unfold ind_sels.
    change (cut (rng (q_array q))) with (fun l : list R => part (q_array q) l); cbv beta.
    destruct (local (q_array q)); cbn [map lsum fold_right].
    - unfold weigh; cbn [fst snd].
      destruct (source_of pb (q_translation q)) as [s|]; cbn [bind] in C2; [|contradiction].
      destruct (get s y) as [xs|] eqn:Gs; [|contradiction]. rewrite (getd_ok _ _ _ Gs).
      destruct C2 as (-> & _). ring.
    - rewrite C2, !part_zeros_dot. ring. }
  rewrite X1, X2, X3, lsum_plus. ring.
Qed.

(** *** Outputs *)
Definition out_name (q : quantity ti_translation) : res string := output_name (stage_output_var (q_translation q)).
Definition out_sels : list (quantity ti_translation) :=
  filter (fun q => local (q_array q)) (time_integration_quantities md).
Lemma flat_map_filter {A B} (p : A -> bool) (f : A -> B) l :
  flat_map (fun a => if p a then [f a] else []) l = map f (filter p l).
Proof. induction l as [|a l IH]; cbn; [reflexivity|]. destruct (p a); cbn; now rewrite IH. Qed.

Lemma output_writes w f v v' : length w = time_integration_array_size md ->
  output_state_to_om_vector md w f v = Ok v' ->
  exists L, map out_name out_sels = map Ok L /\
    writes (combine L (map (fun q => vscale f (part (q_array q) w)) out_sels)) v = Ok v'.
Proof.
  intros S H. rewrite output_is_plan in H. apply run_plan_inv in H as (W & P & H).
  unfold planned in P.
  change (output_plan md w f) with (flat_map (fun q : quantity ti_translation => if (fun q => local (q_array q)) q then
    [(fun a => let* x := reshape (M_Metadata.shape (q_array a))
          (slice (start_index (q_array a)) (end_index (q_array a)) w) in
          let* n := output_name (stage_output_var (q_translation a)) in Ok (n, vscale f x)) q] else [])
    (time_integration_quantities md)) in P.
  rewrite flat_map_filter in P. fold out_sels in P.
  assert (Sub : forall q, In q out_sels -> In q (time_integration_quantities md))
    by (intros q I; apply filter_In in I; tauto).
  assert (X : exists L, map out_name out_sels = map Ok L /\
     W = combine L (map (fun q => vscale f (part (q_array q) w)) out_sels)).
  { clear H. revert W P. induction out_sels as [|q l IH]; intros [|[n x] W] P; cbn [map] in P; try discriminate.
    - exists []; auto.
    - assert (P2 : map (fun a => let* x := reshape (M_Metadata.shape (q_array a))
          (slice (start_index (q_array a)) (end_index (q_array a)) w) in
          let* n := output_name (stage_output_var (q_translation a)) in Ok (n, vscale f x)) l = map Ok W)
        by (injection P; auto).
      destruct (IH (fun q I => Sub q (or_intror I)) W P2) as (L & E1 & E2).
      assert (P1 : (let* x := reshape (M_Metadata.shape (q_array q))
          (slice (start_index (q_array q)) (end_index (q_array q)) w) in
          let* n := output_name (stage_output_var (q_translation q)) in Ok (n, vscale f x)) = Ok (n, x))
        by (injection P; auto).
      change (slice (start_index (q_array q)) (end_index (q_array q)) w) with (part (q_array q) w) in P1.
      unfold reshape in P1. rewrite (part_length _ _ Lt q w (Sub q (or_introl eq_refl)) S), Nat.eqb_refl in P1.
      cbn [bind] in P1. apply bind_ok in P1 as (n' & En & P1).
      assert (E3 : n' = n) by congruence. assert (E4 : vscale f (part (q_array q) w) = x) by congruence. subst n'.
      exists (n :: L). cbn [map combine]. unfold out_name at 1. rewrite En, E1, E2, E4. auto. }
  destruct X as (L & E & ->). exists L; auto.
Qed.

Lemma read_output x upd : om_vector_to_output_state md x (vzeros (time_integration_array_size md)) = Ok upd ->
  length upd = time_integration_array_size md /\
  forall q, In q (time_integration_quantities md) ->
    if local (q_array q) then exists n, out_name q = Ok n /\ get n x = Ok (part (q_array q) upd)
    else True.
Proof.
  intros H.
  pose (pk := fun q : quantity ti_translation => if local (q_array q) then
     Some (let* n := out_name q in get n x) else None).
  assert (E : forall l p, scan (fun arr q =>
    let a := q_array q in
    if local a then
      let* n := output_name (stage_output_var (q_translation q)) in
      let* x := get n x in
      copy_into (start_index a) (end_index a) x arr
    else Ok arr) p l = scan (picked pk) p l).
  { intros l p. apply scan_ext. intros arr q. unfold picked, pk. cbn zeta. destruct (local (q_array q)); [|reflexivity].
    rewrite bind_assoc. reflexivity. }
  unfold om_vector_to_output_state in H. rewrite E in H. destruct (picked_parts _ _ _ _ Lt H) as (A & B).
  split; [exact A|]. intros q I. specialize (B q I). unfold pk in B.
  destruct (local (q_array q)); [|exact Logic.I].
  destruct (out_name q) as [n|]; cbn [bind] in B; [|contradiction].
  destruct (get n x) as [z|] eqn:G; [|contradiction]. exists n. split; [reflexivity|]. destruct B as (-> & _). exact G.
Qed.
End One.
