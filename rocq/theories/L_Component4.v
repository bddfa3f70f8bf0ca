(** What the products do with the vectors they are given: overwriting, and
    vectors that hold only part of the variables. *)
From Coq Require Import String.
From Coq Require Import List Reals Lia Lra Bool Arith.
From Verif Require Import Base Ext M_Tableau M_State M_ODE M_Step M_Controller M_Measure M_Integrator
  M_Metadata M_Components M_Packing M_Component SpecRK SpecShape SpecDeriv SpecRun SpecComponents SpecPacking
  SpecComponent L_Vec L_Step L_Deriv L_Generic L_Run L_Iter L_RunProps L_Components L_Metadata
  L_Packing L_Packing2 L_Packing4 L_Packing6 L_Component L_Component2 L_Component3.
Import ListNotations.
Local Open Scope string_scope.
Local Open Scope list_scope.

(** *** Reading and writing vectors that lack variables *)
Lemma nodup_apart {A} (l l' : list A) : NoDup (l ++ l') -> forall x, In x l -> In x l' -> False.
Proof.
  induction l as [|a l IH]; cbn; [tauto|]. intros ND x [->|I] I'; inversion ND as [|? ? N1 N2]; subst.
  - apply N1, in_or_app; auto.
  - eapply IH; eauto.
Qed.

Section Restricted.
Local Open Scope nat_scope.
Context {T : Type} {X : Type}.
Variable nm : quantity X -> string.

Definition here_or_not (v : vec T) (q : quantity X) : Prop :=
  get (nm q) v = Err KeyError \/ exists x, get (nm q) v = Ok x /\ length x = prod (M_Metadata.shape (q_array q)).

Lemma read_missing (v : vec T) m l : forall n arr, laid_out n (map q_array l) m -> length arr = m ->
  (forall q, In q l -> here_or_not v q) -> (exists q, In q l /\ get (nm q) v = Err KeyError) ->
  scan (fun arr q => let* x := get (nm q) v in
         copy_into (start_index (q_array q)) (end_index (q_array q)) x arr) arr l = Err KeyError.
Proof.
  induction l as [|q l IH]; intros n arr L La H (q0 & I0 & M0); [destruct I0|]. cbn [scan].
  destruct (H q (or_introl eq_refl)) as [E|(x & E & Lx)]; rewrite E; cbn [bind]; [reflexivity|].
  destruct I0 as [->|I0]; [congruence|].
  pose proof (lay_le _ _ _ (laid_out_lay _ _ _ L)) as Le0.
  cbn [map laid_out] in L. 
  assert (R : exists n', laid_out n' (map q_array l) m /\ end_index (q_array q) <= m /\
    end_index (q_array q) - start_index (q_array q) = prod (M_Metadata.shape (q_array q)) /\ start_index (q_array q) <= end_index (q_array q)).
  { destruct (local (q_array q)).
    - destruct L as (A & B & D). exists (end_index (q_array q)). pose proof (lay_le _ _ _ (laid_out_lay _ _ _ D)).
      split; [exact D|]. lia.
    - destruct L as ((A & B & D) & E'). exists n. split; [exact E'|]. rewrite A, B, D. cbn. lia. }
  destruct R as (n' & L' & B1 & B2 & B3).
  assert (Cp : exists arr', copy_into (start_index (q_array q)) (end_index (q_array q)) x arr = Ok arr' /\ length arr' = m).
  { unfold copy_into. pose proof (cut_length (start_index (q_array q)) (end_index (q_array q)) arr) as Q.
    unfold cut in Q; cbn [fst snd] in Q. rewrite Q, Lx, B2, Nat.eqb_refl by lia.
    eexists. split; [reflexivity|]. unfold slice_set. rewrite !app_length, firstn_length, skipn_length. lia. }
  destruct Cp as (arr' & -> & La'). cbn [bind]. apply (IH n'); auto.
  - intros q' I. apply H. right; exact I.
  - exists q0. auto.
Qed.
Lemma write_missing (arr : list T) l : forall v : vec T, NoDup (map nm l) ->
  (forall q, In q l -> here_or_not v q) ->
  (forall q, In q l -> length (slice (start_index (q_array q)) (end_index (q_array q)) arr) = prod (M_Metadata.shape (q_array q))) ->
  (exists q, In q l /\ get (nm q) v = Err KeyError) ->
  scan (fun v q =>
      let* x := reshape (M_Metadata.shape (q_array q)) (slice (start_index (q_array q)) (end_index (q_array q)) arr) in
      assign (nm q) x v) v l = Err KeyError.
Proof.
  induction l as [|q l IH]; intros v ND H S (q0 & I0 & M0); [destruct I0|]. cbn [scan].
  unfold reshape at 1. rewrite (S q (or_introl eq_refl)), Nat.eqb_refl. cbn [bind].
  destruct (H q (or_introl eq_refl)) as [E|(x & E & Lx)].
  - clear - E. revert E. induction v as [|[k y] v IHv]; intros E; [reflexivity|]. cbn [get] in E. unfold assign in *. cbn [update].
    destruct (String.eqb (nm q) k); [discriminate|]. specialize (IHv E).
    match goal with |- bind ?a _ = _ => destruct a as [v'|e] eqn:A end.
    + apply bind_ok in A as (v1 & A & _). rewrite A in IHv. cbn [bind] in *. exfalso.
      clear - A E. apply update_inv in A as (y0 & z & G & _). congruence.
    + cbn [bind]. match type of A with bind ?a _ = _ => destruct a as [v1|e1] eqn:B end; [discriminate|].
      cbn [bind] in *. congruence.
  - destruct I0 as [->|I0]; [congruence|]. inversion ND as [|? ? N1 N2]; subst.
    destruct (assign_ok (nm q) (slice (start_index (q_array q)) (end_index (q_array q)) arr) v x E) as (v1 & A).
    { rewrite Lx. symmetry. apply S. left; reflexivity. }
    rewrite A. cbn [bind]. apply assign_inv in A as (_ & _ & _ & U).
    assert (U' : forall q', In q' l -> get (nm q') v1 = get (nm q') v).
    { intros q' I. apply U. intros E'. apply N1. rewrite <- E'. apply in_map, I. }
    apply IH; auto.
    + intros q' I. unfold here_or_not. rewrite (U' q' I). apply H. right; exact I.
    + intros q' I. apply S. right; exact I.
    + exists q0. split; [exact I0|]. rewrite U'; assumption.
Qed.
End Restricted.

Section Missing.
Local Open Scope nat_scope.
Context {T : Type} {N : Num T} {C : Type}.
Variables (procs rank : nat) (vs : list variable) (qs is : list string) (mds : list metadata) (md : metadata).
Variables (sz : string -> nat) (io : list (string * nat) * list (string * nat)).
Hypothesis Hmd : metadata_of procs vs qs is = Ok mds.
Hypothesis Hr : nth_error mds rank = Some md.
Hypothesis Hio : declare_all sz md = Ok io.
Notation nt := (time_integration_array_size md).
Notation ni := (time_independent_input_size md).
Notation tis := (time_integration_quantities md).
Notation inds := (time_independent_quantities md).
Let Lays := md_laid_out procs rank vs qs is mds md Hmd Hr.

Lemma get_kept (D : list (string * nat)) keep (v : vec T) n s : layout v = filter keep D -> NoDup (map fst D) -> In (n, s) D ->
  if keep (n, s) then exists x, get n v = Ok x /\ length x = s else get n v = Err KeyError.
Proof.
  revert v. induction D as [|[k z] D IH]; cbn [filter map fst]; intros v L ND I; [destruct I|].
  inversion ND as [|? ? N1 N2]; subst.
  assert (Nk : forall s', In (k, s') D -> False) by (intros s' J; apply N1; apply (in_map fst) in J; exact J).
  destruct I as [[= -> ->]|I].
  - destruct (keep (n, s)) eqn:K.
    + destruct v as [|[k' x] v]; [discriminate|]. unfold layout in L. cbn in L. injection L as -> <- L. cbn [get].
      rewrite String.eqb_refl. eauto.
    + apply get_notin. rewrite <- layout_names, L. intros J. apply in_map_iff in J as ([k' s'] & E & J).
      apply filter_In in J as (J & _). cbn in E. subst k'. exact (Nk _ J).
  - assert (Ne : n <> k) by (intros ->; exact (Nk _ I)).
    destruct (keep (k, z)).
    + destruct v as [|[k' x] v]; [discriminate|]. unfold layout in L. cbn in L. injection L as -> _ L. cbn [get].
      destruct (String.eqb_spec n k); [contradiction|]. apply IH; auto.
    + apply IH; auto.
Qed.

Lemma lacking_inputs (v : vec T) : lacks_variables input_kind io v ->
  (forall q, In q tis -> here_or_not (io_name input_kind) v q) /\
  (forall q, In q inds -> here_or_not q_name v q) /\
  (get "time_initial" v = Err KeyError \/ exists t, get "time_initial" v = Ok [t]) /\
  (get "time_initial" v = Err KeyError \/ (exists q, In q tis /\ get (io_name input_kind q) v = Err KeyError) \/
   exists q, In q inds /\ get (q_name q) v = Err KeyError).
Proof.
  intros (keep & L & (n & s) & I & K). pose proof (declared_nodup md sz io Hio input_kind) as ND.
  pose proof (fun n s => get_kept _ keep v n s L ND) as G.
  destruct (declare_all_inv _ _ _ Hio) as (A & _). cbn [declared] in *. rewrite A in G, I. 
  assert (G1 : forall q, In q tis -> if keep (io_name input_kind q, prod (M_Metadata.shape (q_array q)))
      then exists x, get (io_name input_kind q) v = Ok x /\ length x = prod (M_Metadata.shape (q_array q))
      else get (io_name input_kind q) v = Err KeyError).
  { intros q Iq. apply G. right. apply in_or_app; left. apply in_map_iff. exists q. auto. }
  assert (G2 : forall q, In q inds -> if keep (q_name q, prod (M_Metadata.shape (q_array q)))
      then exists x, get (q_name q) v = Ok x /\ length x = prod (M_Metadata.shape (q_array q))
      else get (q_name q) v = Err KeyError).
  { intros q Iq. apply G. right. apply in_or_app; right. apply in_map_iff. exists q. auto. }
  split; [|split; [|split]].
  - intros q Iq. specialize (G1 q Iq). destruct (keep (io_name input_kind q, prod (M_Metadata.shape (q_array q)))); [right; exact G1|left; exact G1].
  - intros q Iq. specialize (G2 q Iq). destruct (keep (q_name q, prod (M_Metadata.shape (q_array q)))); [right; exact G2|left; exact G2].
  - specialize (G _ _ (or_introl eq_refl)). destruct (keep ("time_initial"%string, 1)); [right|left; exact G].
    destruct G as (x & G & Lx). destruct x as [|t [|]]; try discriminate. eauto.
  - specialize (G _ _ I). rewrite K in G. destruct I as [[= <- <-]|I]; [left; exact G|right].
    apply in_app_or in I as [I|I]; apply in_map_iff in I as (q & [= <- <-] & Iq); [left|right]; eauto.
Qed.

Lemma read_lacking (v : vec T) (s : rkstate T) : lacks_variables input_kind io v ->
  length (final_state s) = nt -> length (independent_inputs s) = ni -> read_inputs md v s = Err KeyError.
Proof.
  intros La S1 S2. destruct (lacking_inputs v La) as (H1 & H2 & H3 & H4). unfold read_inputs. rewrite to_ti_scan.
  assert (Dec : forall Y (nm : quantity Y -> string) l, (forall q, In q l -> here_or_not nm v q) ->
    (exists q, In q l /\ get (nm q) v = Err KeyError) \/ fits nm l v).
  { intros Y nm l. induction l as [|q l IH]; intros H; [right; intros q []|].
    destruct (H q (or_introl eq_refl)) as [E|E]; [left; exists q; cbn; auto|].
    destruct IH as [(q' & I & E')|F]; [intros; apply H; right; assumption|left; exists q'; cbn; auto|].
    right. intros q' [<-|I]; [exact E|apply F, I]. }
  destruct (Dec _ _ tis H1) as [M|F1].
  { rewrite (read_missing (io_name input_kind) v nt tis 0 (final_state s)); auto. apply Lays. }
  destruct (read_quantities (io_name input_kind) tis nt (proj1 Lays) v (final_state s) F1 S1) as (y & -> & _ & Q1). cbn [bind].
  destruct (Dec _ _ inds H2) as [M|F2].
  { unfold to_numpy_ind. rewrite (read_missing q_name v ni inds 0 (independent_inputs s)); auto. apply Lays. }
  destruct (read_quantities q_name inds ni (proj2 Lays) v (independent_inputs s) F2 S2) as (p & E & _ & Q2).
  unfold to_numpy_ind. rewrite E. cbn [bind]. unfold first.
  destruct H4 as [->|[(q & I & G)|(q & I & G)]]; [reflexivity|..].
  - rewrite (Q1 q I) in G. discriminate.
  - rewrite (Q2 q I) in G. discriminate.
Qed.

Lemma write_lacking (v : vec T) (g : inputs T) : lacks_variables input_kind io v -> in_ok md g ->
  (let* v := from_numpy_ti md input_kind (initial g) v in
   let* v := from_numpy_ind md input_kind (independent g) v in
   add_scalar "time_initial" (time_initial g) v) = Err KeyError.
Proof.
  intros La (S1 & S2). destruct (lacking_inputs v La) as (H1 & H2 & H3 & H4). rewrite from_ti_scan.
  pose proof (inputs_names_nodup md sz io Hio) as ND. inversion ND as [|? ? N1 N2]; subst.
  assert (Dec : forall Y (nm : quantity Y -> string) l (v : vec T), (forall q, In q l -> here_or_not nm v q) ->
    (exists q, In q l /\ get (nm q) v = Err KeyError) \/ fits nm l v).
  { clear. intros Y nm l v. induction l as [|q l IH]; intros H; [right; intros q []|].
    destruct (H q (or_introl eq_refl)) as [E|E]; [left; exists q; cbn; auto|].
    destruct IH as [(q' & I & E')|F]; [intros; apply H; right; assumption|left; exists q'; cbn; auto|].
    right. intros q' [<-|I]; [exact E|apply F, I]. }
  assert (D1 : forall q, In q tis -> "time_initial" <> io_name input_kind q).
  { intros q I E. apply N1, in_or_app; left. rewrite E. apply in_map, I. }
  assert (D2 : forall q, In q inds -> "time_initial" <> q_name q).
  { intros q I E. apply N1, in_or_app; right. rewrite E. apply in_map, I. }
  assert (D3 : forall q q', In q tis -> In q' inds -> io_name input_kind q <> q_name q').
  { intros q q' I I' E. eapply (nodup_apart _ _ N2 (io_name input_kind q)); [apply in_map, I|].
    rewrite E. apply in_map, I'. }
  pose proof (ti_nodup md sz io Hio input_kind) as ND1. pose proof (ind_nodup md sz io Hio) as ND2.
  destruct (Dec _ _ tis v H1) as [M|F1].
  { rewrite (write_missing (io_name input_kind) (initial g) tis v); auto.
    intros q I. exact (part_length tis nt (proj1 Lays) q (initial g) I S1). }
  destruct (write_quantities (io_name input_kind) tis nt (proj1 Lays) v (initial g) ND1 F1 S1) as (v1 & -> & _ & Q1 & U1). cbn [bind].
  assert (U1' : forall q, In q inds -> get (q_name q) v1 = get (q_name q) v).
  { intros q I. apply U1. intros J. apply in_map_iff in J as (q' & E & J). exact (D3 q' q J I E). }
  assert (H2' : forall q, In q inds -> here_or_not q_name v1 q).
  { intros q I. unfold here_or_not. rewrite (U1' q I). apply H2, I. }
  destruct (Dec _ _ inds v1 H2') as [M|F2].
  { unfold from_numpy_ind. rewrite (write_missing q_name (independent g) inds v1); auto.
    intros q I. exact (part_length inds ni (proj2 Lays) q (independent g) I S2). }
  destruct (write_quantities q_name inds ni (proj2 Lays) v1 (independent g) ND2 F2 S2) as (v2 & E & _ & Q2 & U2).
  unfold from_numpy_ind. rewrite E. cbn [bind].
  assert (G : get "time_initial" v2 = Err KeyError).
  { rewrite U2 by (intros J; apply in_map_iff in J as (q & E' & J); exact (D2 q J (eq_sym E'))).
    rewrite U1 by (intros J; apply in_map_iff in J as (q & E' & J); exact (D1 q J (eq_sym E'))).
    destruct H4 as [G|[(q & I & G)|(q & I & G)]]; [exact G|..].
    - destruct (F1 q I) as (x & Gx & _). congruence.
    - destruct (F2 q I) as (x & Gx & _). rewrite (U1' q I) in Gx. congruence. }
  clear - G. unfold add_scalar. revert G. induction v2 as [|[k y] v2 IH]; cbn [get update]; [reflexivity|].
  destruct (String.eqb _ k); [discriminate|]. intros G. now rewrite (IH G).
Qed.

Variable op : options T C.
Notation o := (o_ode op).
Hypothesis Hn : state_size o = time_integration_array_size md.
Hypothesis Hi : independent_input_size o = time_independent_input_size md.
Hypothesis Hsz : sized_ode o.

Lemma fwd_lacking c w inp dinp doutp : in_use op md io c w ->
  layout inp = declared input_kind io -> lacks_variables input_kind io dinp ->
  component_fwd op md inp dinp doutp w = (w, Err KeyError).
Proof.
  intros U L La. pose proof (in_use_wf procs rank vs qs is mds md sz io Hmd Hr Hio op Hn Hi Hsz _ _ U) as W.
  destruct (inputs_of_vector procs rank vs qs is mds md sz io Hmd Hr Hio inp L) as (i & Si & HI).
  unfold component_fwd, mbind, reading, mlift.
  rewrite (read_live procs rank vs qs is mds md sz io Hmd Hr Hio op Hn Hi inp w i W L (proj1 (in_sized md op Hn Hi i) Si) HI).
  pose proof (wf_pert _ _ W) as Sh.
  rewrite read_lacking; auto; [rewrite <- Hn; apply (sh_final _ _ _ _ _ _ Sh)|rewrite <- Hi; apply (sh_ind _ _ _ _ _ _ Sh)].
Qed.
Lemma rev_lacking c w inp dinp doutp i d : in_use op md io c w ->
  layout inp = declared input_kind io -> layout doutp = declared output_kind io ->
  inputs_sized o i -> holds_inputs md inp i -> outputs_sized o d -> holds_outputs md doutp d ->
  lacks_variables input_kind io dinp ->
  exists e, snd (component_rev op md inp dinp doutp w) = Err e /\
    (forall w' g, compute_jacvec_product_rev op i d w = (w', Ok g) -> e = KeyError).
Proof.
  intros U L Lo Si HI Sd Hd La. pose proof (in_use_wf procs rank vs qs is mds md sz io Hmd Hr Hio op Hn Hi Hsz _ _ U) as W.
  unfold component_rev, mbind, reading, mlift.
  rewrite (read_empty procs rank vs qs is mds md sz io Hmd Hr Hio op Hn Hi inp i L Si HI).
  rewrite (read_pert_out procs rank vs qs is mds md sz io Hmd Hr Hio op Hn doutp w d W Lo Sd Hd).
  destruct (compute_jacvec_product_rev op i d w) as [w' [g|e]] eqn:E.
  - pose proof (proj2 (in_sized md op Hn Hi g) (rev_sized op Hsz _ _ _ _ _ W Si Sd E)) as Sg.
    rewrite (write_lacking dinp g La Sg). exists KeyError. split; [reflexivity|]. auto.
  - exists e. split; [reflexivity|]. discriminate.
Qed.
End Missing.

(** *** Overwriting *)
Section Overwrite.
Local Open Scope R_scope.
Context {C : Type}.
Variables (procs rank : nat) (vs : list variable) (qs is : list string) (mds : list metadata) (md : metadata).
Variables (sz : string -> nat) (io : list (string * nat) * list (string * nat)).
Hypothesis Hmd : metadata_of procs vs qs is = Ok mds.
Hypothesis Hr : nth_error mds rank = Some md.
Hypothesis Hio : declare_all sz md = Ok io.
Variable op : options R C.
Notation o := (o_ode op).
Hypothesis Hn : state_size o = time_integration_array_size md.
Hypothesis Hi : independent_input_size o = time_independent_input_size md.
Hypothesis Hsz : sized_ode o.

Lemma look_pack_out nm m (y : outputs R) : look nm m (pack_out md y) =
    if String.eqb nm "time_final" then vnth m [time_final y] else
    match find (fun q => String.eqb nm (io_name output_kind q)) (time_integration_quantities md) with
    | Some q => vnth m (part (q_array q) (final y)) | None => 0 end.
Proof.
  unfold look, pack_out. cbn [get]. destruct (String.eqb nm "time_final"); [reflexivity|].
  induction (time_integration_quantities md) as [|q l IH]; [reflexivity|]. cbn [map get find].
  destruct (String.eqb nm (io_name output_kind q)); [reflexivity|exact IH].
Qed.
Lemma find_names {X} (nm : quantity X -> string) n l q : find (fun q => String.eqb n (nm q)) l = Some q -> n = nm q /\ In q l.
Proof.
  intros F. destruct (find_some _ _ F) as (I & E). cbn in E. apply String.eqb_eq in E. auto.
Qed.
Lemma find_found {X} (nm : quantity X -> string) l q : NoDup (map nm l) -> In q l -> find (fun q' => String.eqb (nm q) (nm q')) l = Some q.
Proof.
  induction l as [|q' l IH]; cbn [map find]; intros ND I; [destruct I|]. inversion ND as [|? ? N1 N2]; subst.
  destruct I as [->|I]; [now rewrite String.eqb_refl|].
  destruct (String.eqb_spec (nm q) (nm q')) as [E|]; [|auto]. exfalso. apply N1. rewrite <- E. apply in_map, I.
Qed.
Lemma look_pack_in nm m (y : inputs R) : look nm m (pack_in md y) =
    if String.eqb nm "time_initial" then vnth m [time_initial y] else
    match find (fun q => String.eqb nm (io_name input_kind q)) (time_integration_quantities md) with
    | Some q => vnth m (part (q_array q) (initial y)) | None => 
    match find (fun q => String.eqb nm (q_name q)) (time_independent_quantities md) with
    | Some q => vnth m (part (q_array q) (independent y)) | None => 0 end end.
Proof.
  unfold look, pack_in. cbn [get]. destruct (String.eqb nm "time_initial"); [reflexivity|].
  induction (time_integration_quantities md) as [|q l IH]; cbn [map app get find].
  - induction (time_independent_quantities md) as [|q l IH]; [reflexivity|]. cbn [map get find].
    destruct (String.eqb nm (q_name q)); [reflexivity|exact IH].
  - destruct (String.eqb nm (io_name input_kind q)); [reflexivity|exact IH].
Qed.

Lemma fwd_sum_iff c w inp dinp doutp zo w1 v w2 v0 : in_use op md io c w ->
  layout inp = declared input_kind io -> layout dinp = declared input_kind io ->
  layout doutp = declared output_kind io -> layout zo = declared output_kind io -> zeros zo ->
  component_fwd op md inp dinp doutp w = (w1, Ok v) -> component_fwd op md inp dinp zo w = (w2, Ok v0) ->
  (sum_of doutp v0 v <->
   forall q m, In q (time_integration_quantities md) -> look (q_name q ++ "_final")%string m doutp = 0).
Proof.
  intros U L1 L2 L3 Lo Zo E1 E2.
  pose proof (in_use_wf procs rank vs qs is mds md sz io Hmd Hr Hio op Hn Hi Hsz _ _ U) as W.
  destruct (inputs_of_vector procs rank vs qs is mds md sz io Hmd Hr Hio inp L1) as (i & Si & HI).
  destruct (inputs_of_vector procs rank vs qs is mds md sz io Hmd Hr Hio dinp L2) as (d & Sd & Hd).
  destruct (outputs_of_vector procs rank vs qs is mds md sz io Hmd Hr Hio doutp L3) as (b & Sb & Hb).
  apply (in_sized md op Hn Hi) in Si. apply (in_sized md op Hn Hi) in Sd.
  destruct (scalar_get md sz io Hio _ zo _ Lo (time_final_declared md sz io Hio)) as (t & Gt).
  pose proof (zeros_get _ _ _ Zo Gt) as ->. pose proof (proj1 Hb) as Gb.
  rewrite (component_fwd_eq procs rank vs qs is mds md sz io Hmd Hr Hio op Hn Hi Hsz inp dinp doutp i d _ w W L1 L2 L3 Si HI Sd Hd Gb) in E1.
  rewrite (component_fwd_eq procs rank vs qs is mds md sz io Hmd Hr Hio op Hn Hi Hsz inp dinp zo i d 0 w W L1 L2 Lo Si HI Sd Hd Gt) in E2.
  destruct (compute_jacvec_product_fwd op i d w) as [wa [r|]] eqn:F; [|discriminate]. injection E1 as <- <-. injection E2 as <- <-.
  rewrite (holds_pack_out procs rank vs qs is mds md sz io Hmd Hr Hio doutp b L3 Sb Hb).
  pose proof (ti_nodup md sz io Hio output_kind) as ND.
  change (@nadd R RNum) with Rplus. split.
  - intros S q m I. specialize (S (io_name output_kind q) m). rewrite !look_pack_out in S. rewrite look_pack_out.
    assert (E : String.eqb (io_name output_kind q) "time_final" = false).
    { apply String.eqb_neq. intros E. exact (time_not_quantity_out md sz io Hio q I (eq_sym E)). }
    change ((q_name q ++ "_final")%string) with (io_name output_kind q).
    rewrite E in *. rewrite (find_found _ _ _ ND I) in *. cbn [final] in S. lra.
  - intros Z n m. rewrite !look_pack_out. destruct (String.eqb n "time_final") eqn:E.
    + cbn [time_final]. destruct m as [|m]; [cbn; ring|]. cbn [vnth nth]. destruct m; ring.
    + cbn [final]. destruct (find _ _) as [q|] eqn:Fq; [|ring]. destruct (find_names _ _ _ _ Fq) as (-> & I).
      specialize (Z q m I). rewrite look_pack_out in Z.
      change ((q_name q ++ "_final")%string) with (io_name output_kind q) in Z. rewrite E, Fq in Z. lra.
Qed.

Lemma rev_sum_iff c w inp dinp doutp zi w1 v w2 v0 : in_use op md io c w ->
  layout inp = declared input_kind io -> layout dinp = declared input_kind io ->
  layout doutp = declared output_kind io -> layout zi = declared input_kind io -> zeros zi ->
  component_rev op md inp dinp doutp w = (w1, Ok v) -> component_rev op md inp zi doutp w = (w2, Ok v0) ->
  (sum_of dinp v0 v <->
   (forall q m, In q (time_integration_quantities md) -> look (q_name q ++ "_initial")%string m dinp = 0) /\
   (forall q m, In q (time_independent_quantities md) -> look (q_name q) m dinp = 0)).
Proof.
  intros U L1 L2 L3 Lo Zo E1 E2.
  pose proof (in_use_wf procs rank vs qs is mds md sz io Hmd Hr Hio op Hn Hi Hsz _ _ U) as W.
  destruct (inputs_of_vector procs rank vs qs is mds md sz io Hmd Hr Hio inp L1) as (i & Si & HI).
  destruct (outputs_of_vector procs rank vs qs is mds md sz io Hmd Hr Hio doutp L3) as (d & Sd & Hd).
  destruct (inputs_of_vector procs rank vs qs is mds md sz io Hmd Hr Hio dinp L2) as (b & Sb & Hb).
  apply (in_sized md op Hn Hi) in Si. apply (out_sized md op Hn) in Sd.
  destruct (scalar_get md sz io Hio _ zi _ Lo (time_initial_declared md sz io Hio)) as (t & Gt).
  pose proof (zeros_get _ _ _ Zo Gt) as ->. pose proof (proj1 Hb) as Gb.
  rewrite (component_rev_eq procs rank vs qs is mds md sz io Hmd Hr Hio op Hn Hi Hsz inp dinp doutp i d _ w W L1 L2 L3 Si HI Sd Hd Gb) in E1.
  rewrite (component_rev_eq procs rank vs qs is mds md sz io Hmd Hr Hio op Hn Hi Hsz inp zi doutp i d 0 w W L1 Lo L3 Si HI Sd Hd Gt) in E2.
  destruct (compute_jacvec_product_rev op i d w) as [wa [r|]] eqn:F; [|discriminate]. injection E1 as <- <-. injection E2 as <- <-.
  rewrite (holds_pack_in procs rank vs qs is mds md sz io Hmd Hr Hio dinp b L2 Sb Hb).
  pose proof (ti_nodup md sz io Hio input_kind) as ND1. pose proof (ind_nodup md sz io Hio) as ND2.
  pose proof (inputs_names_nodup md sz io Hio) as ND. inversion ND as [|? ? N1 N2]; subst.
  assert (D1 : forall q, In q (time_integration_quantities md) -> String.eqb (io_name input_kind q) "time_initial" = false).
  { intros q I. apply String.eqb_neq. intros E. apply N1, in_or_app; left. rewrite <- E. apply in_map, I. }
  assert (D2 : forall q, In q (time_independent_quantities md) -> String.eqb (q_name q) "time_initial" = false).
  { intros q I. apply String.eqb_neq. intros E. apply N1, in_or_app; right. rewrite <- E. apply in_map, I. }
  assert (D3 : forall q, In q (time_independent_quantities md) ->
    find (fun q' => String.eqb (q_name q) (io_name input_kind q')) (time_integration_quantities md) = None).
  { intros q I. destruct (find _ _) as [q'|] eqn:Fq; [|reflexivity]. exfalso.
    destruct (find_names _ _ _ _ Fq) as (E & I'). apply (nodup_apart _ _ N2 (io_name input_kind q')); [apply in_map, I'|].
    rewrite <- E. apply in_map, I. }
  change (@nadd R RNum) with Rplus. split.
  - intros S. split; intros q m I.
    + specialize (S (io_name input_kind q) m). rewrite !look_pack_in in S. rewrite look_pack_in.
      change ((q_name q ++ "_initial")%string) with (io_name input_kind q).
      rewrite (D1 q I) in *. rewrite (find_found _ _ _ ND1 I) in *. cbn [initial] in S. lra.
    + specialize (S (q_name q) m). rewrite !look_pack_in in S. rewrite look_pack_in.
      rewrite (D2 q I), (D3 q I) in *. rewrite (find_found _ _ _ ND2 I) in *. cbn [independent] in S. lra.
  - intros (Z1 & Z2) n m. rewrite !look_pack_in. destruct (String.eqb n "time_initial") eqn:E.
    + cbn [time_initial]. destruct m as [|m]; [cbn; ring|]. cbn [vnth nth]. destruct m; ring.
    + cbn [initial independent]. destruct (find (fun q => String.eqb n (io_name input_kind q)) _) as [q|] eqn:Fq.
      * destruct (find_names _ _ _ _ Fq) as (-> & I). specialize (Z1 q m I). rewrite look_pack_in in Z1.
        change ((q_name q ++ "_initial")%string) with (io_name input_kind q) in Z1. rewrite E, Fq in Z1. lra.
      * destruct (find (fun q => String.eqb n (q_name q)) _) as [q|] eqn:Fp; [|ring].
        destruct (find_names _ _ _ _ Fp) as (-> & I). specialize (Z2 q m I). rewrite look_pack_in in Z2.
        rewrite E, Fq, Fp in Z2. lra.
Qed.
End Overwrite.
