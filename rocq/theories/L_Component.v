(** The component's named vectors and the arrays behind them. *)
From Coq Require Import String.
From Coq Require Import List Reals Lia Lra Bool Arith.
From Verif Require Import Base Ext M_Tableau M_State M_ODE M_Step M_Controller M_Measure M_Integrator
  M_Metadata M_Components M_Packing M_Component SpecRK SpecShape SpecDeriv SpecRun SpecComponents SpecPacking
  SpecComponent L_Vec L_Step L_Deriv L_Generic L_Run L_Iter L_RunProps L_Components L_Metadata
  L_Packing L_Packing2 L_Packing4.
Import ListNotations.
Local Open Scope string_scope.
Local Open Scope nat_scope.
Local Open Scope list_scope.

Lemma get_In {T} n (v : vec T) x : get n v = Ok x -> In (n, x) v.
Proof.
  induction v as [|[k y] v IH]; cbn; [discriminate|].
  destruct (String.eqb_spec n k) as [->|]; [intros [= ->]; auto|auto].
Qed.
Lemma In_get {T} n (v : vec T) x : NoDup (map fst v) -> In (n, x) v -> get n v = Ok x.
Proof.
  induction v as [|[k y] v IH]; cbn; [tauto|]. intros ND. inversion ND as [|? ? N1 N2]; subst.
  intros [[= -> ->]|I]; [now rewrite String.eqb_refl|].
  destruct (String.eqb_spec n k) as [->|]; [|auto].
  exfalso; apply N1. apply (in_map fst) in I. exact I.
Qed.
Lemma layout_names {T} (v : vec T) : map fst (layout v) = map fst v.
Proof. unfold layout. now rewrite map_map. Qed.

Section Named.
Context {T : Type} {N : Num T}.
Variables (procs rank : nat) (vs : list variable) (qs is : list string) (mds : list metadata) (md : metadata).
Variables (sz : string -> nat) (io : list (string * nat) * list (string * nat)).
Hypothesis Hmd : metadata_of procs vs qs is = Ok mds.
Hypothesis Hr : nth_error mds rank = Some md.
Hypothesis Hio : declare_all sz md = Ok io.
Notation nt := (time_integration_array_size md).
Notation ni := (time_independent_input_size md).
Notation tis := (time_integration_quantities md).
Notation inds := (time_independent_quantities md).

Definition pack_in (i : inputs T) : vec T :=
  ("time_initial", [time_initial i])
  :: map (fun q => (io_name input_kind q, part (q_array q) (initial i))) tis
  ++ map (fun q => (q_name q, part (q_array q) (independent i))) inds.
Definition pack_out (o : outputs T) : vec T :=
  ("time_final", [time_final o]) :: map (fun q => (io_name output_kind q, part (q_array q) (final o))) tis.

Definition in_ok (i : inputs T) : Prop := length (initial i) = nt /\ length (independent i) = ni.
Definition out_ok (o : outputs T) : Prop := length (final o) = nt.

Let Lays := md_laid_out procs rank vs qs is mds md Hmd Hr.

Lemma map_parts {X} (nm : quantity X -> string) l m : laid_out 0 (map q_array l) m -> forall arr : list T, length arr = m ->
  map (fun q => (nm q, length (part (q_array q) arr))) l
  = map (fun q => (nm q, prod (M_Metadata.shape (q_array q)))) l.
Proof.
  intros L arr La. apply map_ext_in. intros q I. f_equal. eapply part_length; eauto.
Qed.
Lemma pack_in_layout i : in_ok i -> layout (pack_in i) = declared input_kind io.
Proof.
  intros (L1 & L2). destruct (declare_all_inv _ _ _ Hio) as (A & _). cbn [declared]. rewrite A.
  unfold pack_in, layout. cbn [map fst snd length]. rewrite map_app, !map_map. cbn [fst snd].
  rewrite (map_parts (io_name input_kind) _ _ (proj1 Lays)) by exact L1.
  rewrite (map_parts q_name _ _ (proj2 Lays)) by exact L2. reflexivity.
Qed.
Lemma pack_out_layout o : out_ok o -> layout (pack_out o) = declared output_kind io.
Proof.
  intros L. destruct (declare_all_inv _ _ _ Hio) as (_ & A & _). cbn [declared]. rewrite A.
  unfold pack_out, layout. cbn [map fst snd length]. rewrite !map_map. cbn [fst snd].
  rewrite (map_parts (io_name output_kind) _ _ (proj1 Lays)) by exact L. reflexivity.
Qed.
Lemma declared_names k (v : vec T) : layout v = declared k io -> NoDup (map fst v).
Proof.
  intros L. rewrite <- layout_names, L. eapply declared_nodup; eauto.
Qed.

Lemma pack_in_holds i : in_ok i -> holds_inputs md (pack_in i) i.
Proof.
  intros S. pose proof (declared_names input_kind _ (pack_in_layout i S)) as ND.
  split; [|split]; intros; apply In_get; auto; unfold pack_in; [left; reflexivity|right; apply in_or_app..].
  - left. apply in_map_iff. exists q. auto.
  - right. apply in_map_iff. exists q. auto.
Qed.
Lemma pack_out_holds o : out_ok o -> holds_outputs md (pack_out o) o.
Proof.
  intros S. pose proof (declared_names output_kind _ (pack_out_layout o S)) as ND.
  split; intros; apply In_get; auto; unfold pack_out; [left; reflexivity|right].
  apply in_map_iff. exists q. auto.
Qed.
Lemma holds_pack_in v i : layout v = declared input_kind io -> in_ok i -> holds_inputs md v i -> v = pack_in i.
Proof.
  intros L S (H1 & H2 & H3). symmetry. apply vec_eq.
  - rewrite L. now apply pack_in_layout.
  - apply (declared_names input_kind), pack_in_layout, S.
  - intros n x G. apply get_In in G. destruct G as [[= <- <-]|G]; [exact H1|].
    apply in_app_or in G as [G|G]; apply in_map_iff in G as (q & [= <- <-] & I); auto.
Qed.
Lemma holds_pack_out v o : layout v = declared output_kind io -> out_ok o -> holds_outputs md v o -> v = pack_out o.
Proof.
  intros L S (H1 & H2). symmetry. apply vec_eq.
  - rewrite L. now apply pack_out_layout.
  - apply (declared_names output_kind), pack_out_layout, S.
  - intros n x G. apply get_In in G. destruct G as [[= <- <-]|G]; [exact H1|].
    apply in_map_iff in G as (q & [= <- <-] & I); auto.
Qed.

Lemma parts_eq {X} (l : list (quantity X)) m (a b : list T) : laid_out 0 (map q_array l) m -> length a = m -> length b = m ->
  (forall q, In q l -> part (q_array q) a = part (q_array q) b) -> a = b.
Proof.
  intros L La Lb H. apply (cuts_eq (map rng (map q_array l)) 0 m a b); auto using laid_out_lay.
  intros r I. rewrite map_map in I. apply in_map_iff in I as (q & <- & I). exact (H q I).
Qed.
Lemma holds_in_unique v i j : in_ok i -> in_ok j -> holds_inputs md v i -> holds_inputs md v j -> i = j.
Proof.
  intros (S1 & S2) (S3 & S4) (A1 & A2 & A3) (B1 & B2 & B3).
  assert (E1 : time_initial i = time_initial j) by congruence.
  assert (E2 : initial i = initial j).
  { apply (parts_eq tis nt); auto; [apply Lays|]. intros q I. specialize (A2 q I). rewrite (B2 q I) in A2. congruence. }
  assert (E3 : independent i = independent j).
  { apply (parts_eq inds ni); auto; [apply Lays|]. intros q I. specialize (A3 q I). rewrite (B3 q I) in A3. congruence. }
  destruct i, j; cbn in *; congruence.
Qed.
Lemma holds_out_unique v i j : out_ok i -> out_ok j -> holds_outputs md v i -> holds_outputs md v j -> i = j.
Proof.
  intros S1 S3 (A1 & A2) (B1 & B2).
  assert (E1 : time_final i = time_final j) by congruence.
  assert (E2 : final i = final j).
  { apply (parts_eq tis nt); auto; [apply Lays|]. intros q I. specialize (A2 q I). rewrite (B2 q I) in A2. congruence. }
  destruct i, j; cbn in *; congruence.
Qed.

Lemma scalar_get k (v : vec T) n : layout v = declared k io -> In (n, 1) (declared k io) -> exists t, get n v = Ok [t].
Proof.
  intros L I. destruct (get_layout v n 1) as (x & G & Lx).
  - rewrite L. eapply declared_nodup; eauto.
  - now rewrite L.
  - destruct x as [|t [|]]; try discriminate. eauto.
Qed.
Lemma time_initial_declared : In ("time_initial", 1) (declared input_kind io).
Proof. destruct (declare_all_inv _ _ _ Hio) as (A & _). cbn [declared]. rewrite A. left; reflexivity. Qed.
Lemma time_final_declared : In ("time_final", 1) (declared output_kind io).
Proof. destruct (declare_all_inv _ _ _ Hio) as (_ & A & _). cbn [declared]. rewrite A. left; reflexivity. Qed.

(** Reading. *)
Lemma read_inputs_ok v (s : rkstate T) : layout v = declared input_kind io ->
  length (final_state s) = nt -> length (independent_inputs s) = ni ->
  exists i, read_inputs md v s = Ok i /\ in_ok i /\ holds_inputs md v i.
Proof.
  intros L S1 S2. unfold read_inputs.
  destruct (c25_read procs rank vs qs is mds md sz io Hmd Hr Hio input_kind v (final_state s) L S1) as (y & -> & Ly & Hy).
  destruct (c25_read_inputs procs rank vs qs is mds md sz io Hmd Hr Hio v (independent_inputs s) L S2) as (p & -> & Lp & Hp).
  destruct (scalar_get _ v _ L time_initial_declared) as (t & G). unfold first. rewrite G. cbn [bind].
  eexists. split; [reflexivity|]. split; [split; assumption|]. split; [exact G|]. split; assumption.
Qed.
Lemma read_outputs_ok v (s : rkstate T) : layout v = declared output_kind io ->
  length (final_state s) = nt ->
  exists i, read_outputs md v s = Ok i /\ out_ok i /\ holds_outputs md v i.
Proof.
  intros L S1. unfold read_outputs.
  destruct (c25_read procs rank vs qs is mds md sz io Hmd Hr Hio output_kind v (final_state s) L S1) as (y & -> & Ly & Hy).
  destruct (scalar_get _ v _ L time_final_declared) as (t & G). unfold first. rewrite G. cbn [bind].
  eexists. split; [reflexivity|]. split; [assumption|]. split; [exact G|assumption].
Qed.
Lemma inputs_of_vector v : layout v = declared input_kind io -> exists i, in_ok i /\ holds_inputs md v i.
Proof.
  intros L.
  destruct (c25_read procs rank vs qs is mds md sz io Hmd Hr Hio input_kind v (vzeros nt) L) as (y & _ & Ly & Hy).
  { unfold vzeros. apply repeat_length. }
  destruct (c25_read_inputs procs rank vs qs is mds md sz io Hmd Hr Hio v (vzeros ni) L) as (p & _ & Lp & Hp).
  { unfold vzeros. apply repeat_length. }
  destruct (scalar_get _ v _ L time_initial_declared) as (t & G).
  exists {| time_initial := t; initial := y; independent := p |}. split; [split; assumption|]. split; [exact G|]. split; assumption.
Qed.
Lemma outputs_of_vector v : layout v = declared output_kind io -> exists o, out_ok o /\ holds_outputs md v o.
Proof.
  intros L.
  destruct (c25_read procs rank vs qs is mds md sz io Hmd Hr Hio output_kind v (vzeros nt) L) as (y & _ & Ly & Hy).
  { unfold vzeros. apply repeat_length. }
  destruct (scalar_get _ v _ L time_final_declared) as (t & G).
  exists {| time_final := t; final := y |}. split; [assumption|]. split; [exact G|assumption].
Qed.
Lemma read_inputs_at v (s : rkstate T) i : layout v = declared input_kind io ->
  length (final_state s) = nt -> length (independent_inputs s) = ni -> in_ok i -> holds_inputs md v i ->
  read_inputs md v s = Ok i.
Proof.
  intros L S1 S2 S H. destruct (read_inputs_ok v s L S1 S2) as (j & -> & Sj & Hj). f_equal.
  eapply holds_in_unique; eauto.
Qed.
Lemma read_outputs_at v (s : rkstate T) i : layout v = declared output_kind io ->
  length (final_state s) = nt -> out_ok i -> holds_outputs md v i -> read_outputs md v s = Ok i.
Proof.
  intros L S1 S H. destruct (read_outputs_ok v s L S1) as (j & -> & Sj & Hj). f_equal.
  eapply holds_out_unique; eauto.
Qed.

(** Writing. *)
Lemma add_scalar_assign n x (v : vec T) t : get n v = Ok [t] -> add_scalar n x v = assign n [nadd t x] v.
Proof.
  unfold add_scalar, assign. induction v as [|[k y] v IH]; cbn [get update]; [discriminate|].
  destruct (String.eqb n k); [intros [= ->]; reflexivity|]. intros G. now rewrite (IH G).
Qed.
Lemma time_not_quantity_out q : In q tis -> "time_final" <> io_name output_kind q.
Proof.
  intros I E. destruct (declare_all_inv _ _ _ Hio) as (_ & A & _ & B). rewrite A in B. cbn [map fst] in B.
  inversion B as [|? ? N1 _]; subst. apply N1. rewrite map_map. cbn [fst]. rewrite E.
  apply (in_map (io_name output_kind)), I.
Qed.
Lemma inputs_names_nodup : NoDup ("time_initial" :: map (io_name input_kind) tis ++ map q_name inds).
Proof.
  destruct (declare_all_inv _ _ _ Hio) as (A & _ & B & _). rewrite A in B. cbn [map fst] in B.
  rewrite map_app, !map_map in B. exact B.
Qed.
Lemma app_nodup_disjoint {A} (l l' : list A) : NoDup (l ++ l') -> forall x, In x l -> In x l' -> False.
Proof.
  induction l as [|a l IH]; cbn; [tauto|]. intros ND x [->|I] I'; inversion ND as [|? ? N1 N2]; subst.
  - apply N1, in_or_app; auto.
  - eauto.
Qed.

Lemma write_outputs v o t : layout v = declared output_kind io -> out_ok o ->
  exists v1 v2, from_numpy_ti md output_kind (final o) v = Ok v1 /\
    layout v1 = declared output_kind io /\ get "time_final" v1 = get "time_final" v /\
    assign "time_final" [t] v1 = Ok v2 /\ v2 = pack_out {| time_final := t; final := final o |}.
Proof.
  intros L S.
  destruct (c25_write procs rank vs qs is mds md sz io Hmd Hr Hio output_kind v (final o) L S) as (v1 & E1 & L1 & P & U).
  assert (G : get "time_final" v1 = get "time_final" v) by (apply U; intros q I; now apply time_not_quantity_out).
  rewrite L in L1.
  destruct (scalar_get _ v1 _ L1 time_final_declared) as (t1 & G1).
  destruct (assign_ok "time_final" [t] v1 [t1] G1 eq_refl) as (v2 & E2).
  exists v1, v2. repeat (split; [assumption|]).
  apply assign_inv in E2 as (L2 & _ & G2 & U2).
  apply holds_pack_out; [congruence|exact S|]. split; [exact G2|]. cbn [final].
  intros q I. rewrite U2; [exact (P q I)|]. intros E. exact (time_not_quantity_out q I (eq_sym E)).
Qed.
Lemma fill_outputs v o : layout v = declared output_kind io -> out_ok o ->
  bind (from_numpy_ti md output_kind (final o) v) (fill "time_final" (time_final o)) = Ok (pack_out o).
Proof.
  intros L S. destruct (write_outputs v o (time_final o) L S) as (v1 & v2 & -> & L1 & G & E & ->). cbn [bind].
  destruct (scalar_get _ v1 _ L1 time_final_declared) as (t1 & G1).
  rewrite fill_assign by (intros x Gx; rewrite G1 in Gx; now injection Gx as <-). rewrite E. now destruct o.
Qed.
Lemma add_outputs v o t : layout v = declared output_kind io -> out_ok o -> get "time_final" v = Ok [t] ->
  bind (from_numpy_ti md output_kind (final o) v) (add_scalar "time_final" (time_final o))
  = Ok (pack_out {| time_final := nadd t (time_final o); final := final o |}).
Proof.
  intros L S Gt. destruct (write_outputs v o (nadd t (time_final o)) L S) as (v1 & v2 & -> & L1 & G & E & ->). cbn [bind].
  rewrite (add_scalar_assign _ _ _ t) by congruence. exact E.
Qed.
Lemma add_inputs v i t : layout v = declared input_kind io -> in_ok i -> get "time_initial" v = Ok [t] ->
  (let* v := from_numpy_ti md input_kind (initial i) v in
   let* v := from_numpy_ind md input_kind (independent i) v in
   add_scalar "time_initial" (time_initial i) v)
  = Ok (pack_in {| time_initial := nadd t (time_initial i); initial := initial i; independent := independent i |}).
Proof.
  intros L (S1 & S2) Gt. pose proof inputs_names_nodup as ND. inversion ND as [|? ? N1 N2]; subst.
  destruct (c25_write procs rank vs qs is mds md sz io Hmd Hr Hio input_kind v (initial i) L S1) as (v1 & -> & L1 & P1 & U1).
  rewrite L in L1. cbn [bind].
  destruct (c25_write_inputs procs rank vs qs is mds md sz io Hmd Hr Hio v1 (independent i) L1 S2) as (v2 & -> & L2 & P2 & U2).
  rewrite L1 in L2. cbn [bind].
  assert (D1 : forall q, In q tis -> "time_initial" <> io_name input_kind q).
  { intros q I E. apply N1, in_or_app; left. rewrite E. apply in_map, I. }
  assert (D2 : forall q, In q inds -> "time_initial" <> q_name q).
  { intros q I E. apply N1, in_or_app; right. rewrite E. apply in_map, I. }
  assert (D3 : forall q q', In q tis -> In q' inds -> io_name input_kind q <> q_name q').
  { intros q q' I I' E. eapply (app_nodup_disjoint _ _ N2 (io_name input_kind q)); [apply in_map, I|].
    rewrite E. apply in_map, I'. }
  assert (G2 : get "time_initial" v2 = Ok [t]) by (rewrite U2, U1 by auto; exact Gt).
  rewrite (add_scalar_assign _ _ _ t G2).
  destruct (assign_ok "time_initial" [nadd t (time_initial i)] v2 [t] G2 eq_refl) as (v3 & E3). rewrite E3.
  apply assign_inv in E3 as (L3 & _ & G3 & U3). f_equal. apply holds_pack_in; [congruence|split; assumption|].
  split; [exact G3|]. cbn [initial independent]. split; intros q I.
  - rewrite U3 by (intros E; exact (D1 q I (eq_sym E))). rewrite U2 by (intros q' I'; now apply D3). exact (P1 q I).
  - rewrite U3 by (intros E; exact (D2 q I (eq_sym E))). exact (P2 q I).
Qed.
End Named.
