(** C25: packing and unpacking by the integrator component. *)
From Coq Require Import String.
From Coq Require Import List Bool Arith Lia.
From Verif Require Import Base M_ODE M_Metadata M_Components SpecMetadata SpecComponents M_Packing SpecPacking
  L_Components L_Metadata L_Metadata2 L_Packing.
Import ListNotations.
Local Open Scope string_scope.
Local Open Scope nat_scope.
Local Open Scope list_scope.

Lemma NoDup_app_remove_l {A} (l l' : list A) : NoDup (l ++ l') -> NoDup l'.
Proof. induction l as [|a l IH]; cbn; [auto|]. intros H; inversion H; auto. Qed.
Lemma NoDup_app_remove_r {A} (l l' : list A) : NoDup (l ++ l') -> NoDup l.
Proof.
  induction l as [|a l IH]; cbn; intros H; [constructor|]. inversion H; subst. constructor; [|auto].
  intros I; apply H2, in_or_app; auto.
Qed.

Section Declared.
Context (sz : string -> nat).

Lemma declare_ti_scan l : forall io io', scan (declare_ti sz) io l = Ok io' ->
  fst io' = fst io ++ map (fun q => (io_name input_kind q, prod (M_Metadata.shape (q_array q)))) l /\
  snd io' = snd io ++ map (fun q => (io_name output_kind q, prod (M_Metadata.shape (q_array q)))) l /\
  (NoDup (io_names io) -> NoDup (io_names io')).
Proof.
  induction l as [|q l IH]; intros io io' H; cbn [scan] in H.
  - injection H as <-. cbn. rewrite !app_nil_r. auto.
  - apply bind_ok in H as (io1 & A & B). apply IH in B as (B1 & B2 & B3).
    unfold declare_ti in A. apply bind_ok in A as (u & _ & A). apply bind_ok in A as (io2 & A1 & A2).
    pose proof (declare_nodup _ _ _ _ _ A1) as N1. pose proof (declare_nodup _ _ _ _ _ A2) as N2.
    apply declare_inv in A1 as (_ & ->). apply declare_inv in A2 as (_ & ->). cbn [fst snd map] in *.
    rewrite B1, B2, <- !app_assoc. split; [reflexivity|]. split; [reflexivity|]. auto.
Qed.
Lemma declare_ind_scan l : forall io io', scan (declare_ind sz) io l = Ok io' ->
  fst io' = fst io ++ map (fun q => (q_name q, prod (M_Metadata.shape (q_array q)))) l /\
  snd io' = snd io /\ (NoDup (io_names io) -> NoDup (io_names io')).
Proof.
  induction l as [|q l IH]; intros io io' H; cbn [scan] in H.
  - injection H as <-. cbn. rewrite !app_nil_r. auto.
  - apply bind_ok in H as (io1 & A & B). apply IH in B as (B1 & B2 & B3).
    unfold declare_ind in A. destruct (q_translation q) as [n|]; [|discriminate].
    destruct (sz n =? _); [|discriminate].
    pose proof (declare_nodup _ _ _ _ _ A) as N1.
    apply declare_inv in A as (_ & ->). cbn [fst snd map] in *. rewrite B1, B2, <- !app_assoc. auto.
Qed.

Lemma declare_all_inv md io : declare_all sz md = Ok io ->
  fst io = ("time_initial", 1) :: map (fun q => (io_name input_kind q, prod (M_Metadata.shape (q_array q))))
             (time_integration_quantities md)
           ++ map (fun q => (q_name q, prod (M_Metadata.shape (q_array q)))) (time_independent_quantities md) /\
  snd io = ("time_final", 1) :: map (fun q => (io_name output_kind q, prod (M_Metadata.shape (q_array q))))
             (time_integration_quantities md) /\
  NoDup (map fst (fst io)) /\ NoDup (map fst (snd io)).
Proof.
  unfold declare_all. intros H. apply bind_ok in H as (i0 & D0 & H). injection D0 as <-.
  apply bind_ok in H as (i1 & D1 & H). injection D1 as <-. apply bind_ok in H as (io1 & A & B).
  apply declare_ti_scan in A as (A1 & A2 & A3). apply declare_ind_scan in B as (B1 & B2 & B3).
  rewrite B1, B2, A1, A2. cbn [fst snd app]. split; [reflexivity|]. split; [reflexivity|].
  assert (ND : NoDup (io_names io)).
  { apply B3, A3. unfold io_names; cbn. repeat constructor; cbn; intros []; [discriminate|contradiction]. }
  unfold io_names in ND. rewrite B1, B2, A1, A2 in ND. cbn [fst snd app] in ND.
  split; [eapply NoDup_app_remove_r, ND|eapply NoDup_app_remove_l, ND].
Qed.
End Declared.

Lemma get_layout {T} (v : vec T) n s : NoDup (map fst (layout v)) -> In (n, s) (layout v) ->
  exists x, get n v = Ok x /\ length x = s.
Proof.
  unfold layout. rewrite map_map. cbn [fst].
  induction v as [|[k y] v IH]; cbn; intros ND I; [contradiction|]. inversion ND as [|? ? N1 N2]; subst.
  destruct I as [[= -> <-]|I].
  - rewrite String.eqb_refl. eauto.
  - destruct (String.eqb_spec n k) as [->|]; [|auto].
    exfalso; apply N1. apply in_map_iff in I as ([k' y'] & [= <- _] & I). apply (in_map fst) in I. exact I.
Qed.

Lemma io_name_suffix {X} k (q : quantity X) : (q_name q ++ suffix k)%string = io_name k q.
Proof. destruct k; reflexivity. Qed.

Lemma scan_ext {A B} (f g : B -> A -> res B) l : (forall b a, f b a = g b a) -> forall b, scan f b l = scan g b l.
Proof.
  intros H. induction l as [|a l IH]; intros b; cbn; [reflexivity|]. rewrite H.
  destruct (g b a); cbn; auto.
Qed.

Section C25.
Context {T : Type}.
Variables (procs rank : nat) (vs : list variable) (qs is : list string) (mds : list metadata) (md : metadata).
Variables (sz : string -> nat) (io : list (string * nat) * list (string * nat)).
Hypothesis Hmd : metadata_of procs vs qs is = Ok mds.
Hypothesis Hr : nth_error mds rank = Some md.
Hypothesis Hio : declare_all sz md = Ok io.

Lemma md_laid_out : laid_out 0 (map q_array (time_integration_quantities md)) (time_integration_array_size md) /\
  laid_out 0 (map q_array (time_independent_quantities md)) (time_independent_input_size md).
Proof.
  destruct (metadata_of_nth _ _ _ _ _ _ _ Hmd Hr) as (all & md0 & _ & P & E & _). rewrite E.
  apply process_ok in P as (_ & L1 & _ & L2 & _); cbn. split; apply mark_laid_out; assumption.
Qed.

Lemma declared_nodup k : NoDup (map fst (declared k io)).
Proof. destruct (declare_all_inv _ _ _ Hio) as (_ & _ & A & B). destruct k; assumption. Qed.
Lemma ti_nodup k : NoDup (map (io_name k) (time_integration_quantities md)).
Proof.
  pose proof (declared_nodup k) as N. destruct (declare_all_inv _ _ _ Hio) as (A & B & _).
  destruct k; cbn [declared] in N; [rewrite A in N|rewrite B in N]; cbn [map fst] in N;
    inversion N as [|? ? _ N']; subst; [rewrite map_app in N'; apply NoDup_app_remove_r in N'|];
    rewrite map_map in N'; exact N'.
Qed.
Lemma ind_nodup : NoDup (map q_name (time_independent_quantities md)).
Proof.
  pose proof (declared_nodup input_kind) as N. destruct (declare_all_inv _ _ _ Hio) as (A & B & _).
  cbn [declared] in N; rewrite A in N; cbn [map fst] in N; inversion N as [|? ? _ N']; subst.
  rewrite map_app in N'; apply NoDup_app_remove_l in N'. rewrite map_map in N'; exact N'.
Qed.
Lemma ti_fits k (v : vec T) : layout v = declared k io -> fits (io_name k) (time_integration_quantities md) v.
Proof.
  intros L q I. apply get_layout; rewrite L; [apply declared_nodup|].
  destruct (declare_all_inv _ _ _ Hio) as (A & B & _).
  destruct k; cbn [declared]; [rewrite A|rewrite B]; right; [apply in_or_app; left|];
    (apply in_map_iff; exists q; split; [reflexivity|exact I]).
Qed.
Lemma ind_fits (v : vec T) : layout v = fst io -> fits q_name (time_independent_quantities md) v.
Proof.
  intros L q I. apply get_layout; rewrite L; [apply (declared_nodup input_kind)|].
  destruct (declare_all_inv _ _ _ Hio) as (A & B & _). rewrite A.
  right; apply in_or_app; right. apply in_map_iff; exists q; split; [reflexivity|exact I].
Qed.

Lemma to_ti_scan k (v : vec T) arr : to_numpy_ti md k v arr
  = scan (fun arr q => let* x := get (io_name k q) v in
      copy_into (start_index (q_array q)) (end_index (q_array q)) x arr) arr (time_integration_quantities md).
Proof. apply scan_ext. intros; now rewrite io_name_suffix. Qed.
Lemma from_ti_scan k (v : vec T) arr : from_numpy_ti md k arr v
  = scan (fun v q =>
      let* x := reshape (M_Metadata.shape (q_array q)) (slice (start_index (q_array q)) (end_index (q_array q)) arr) in
      assign (io_name k q) x v) v (time_integration_quantities md).
Proof. apply scan_ext. intros; now rewrite io_name_suffix. Qed.

Lemma c25_read k (v : vec T) arr : layout v = declared k io -> length arr = time_integration_array_size md ->
  exists arr', to_numpy_ti md k v arr = Ok arr' /\ length arr' = time_integration_array_size md /\
    forall q, In q (time_integration_quantities md) -> get (io_name k q) v = Ok (part (q_array q) arr').
Proof.
  intros L La. rewrite to_ti_scan. apply read_quantities; [apply md_laid_out|apply ti_fits, L|exact La].
Qed.
Lemma c25_write k (v : vec T) arr : layout v = declared k io -> length arr = time_integration_array_size md ->
  exists v', from_numpy_ti md k arr v = Ok v' /\ layout v' = layout v /\
    (forall q, In q (time_integration_quantities md) -> get (io_name k q) v' = Ok (part (q_array q) arr)) /\
    (forall n, (forall q, In q (time_integration_quantities md) -> n <> io_name k q) -> get n v' = get n v).
Proof.
  intros L La. rewrite from_ti_scan.
  destruct (write_quantities (io_name k) _ _ (proj1 md_laid_out) v arr (ti_nodup k) (ti_fits k v L) La)
    as (v' & A & B & C & D).
  exists v'. split; [exact A|]. split; [exact B|]. split; [exact C|]. intros n H. apply D.
  intros I. apply in_map_iff in I as (q & E & I). exact (H q I (eq_sym E)).
Qed.
Lemma c25_array_roundtrip k (v v' : vec T) arr arr0 : layout v = declared k io ->
  length arr = time_integration_array_size md -> length arr0 = time_integration_array_size md ->
  from_numpy_ti md k arr v = Ok v' -> to_numpy_ti md k v' arr0 = Ok arr.
Proof.
  intros L La L0. rewrite from_ti_scan, to_ti_scan. eapply array_roundtrip; eauto using ti_nodup, ti_fits.
  apply md_laid_out.
Qed.
Lemma c25_vector_roundtrip k (v : vec T) arr arr0 : layout v = declared k io ->
  length arr0 = time_integration_array_size md ->
  to_numpy_ti md k v arr0 = Ok arr -> from_numpy_ti md k arr v = Ok v.
Proof.
  intros L L0. rewrite from_ti_scan, to_ti_scan.
  eapply vector_roundtrip; eauto using ti_nodup, ti_fits; [apply md_laid_out|].
  pose proof (declared_nodup k) as N. rewrite <- L in N. unfold layout in N. rewrite map_map in N. exact N.
Qed.

Lemma c25_read_inputs (v : vec T) arr : layout v = declared input_kind io ->
  length arr = time_independent_input_size md ->
  exists arr', to_numpy_ind md input_kind v arr = Ok arr' /\ length arr' = time_independent_input_size md /\
    forall q, In q (time_independent_quantities md) -> get (q_name q) v = Ok (part (q_array q) arr').
Proof. intros L La. apply read_quantities; [apply md_laid_out|apply ind_fits, L|exact La]. Qed.
Lemma c25_write_inputs (v : vec T) arr : layout v = declared input_kind io ->
  length arr = time_independent_input_size md ->
  exists v', from_numpy_ind md input_kind arr v = Ok v' /\ layout v' = layout v /\
    (forall q, In q (time_independent_quantities md) -> get (q_name q) v' = Ok (part (q_array q) arr)) /\
    (forall n, (forall q, In q (time_independent_quantities md) -> n <> q_name q) -> get n v' = get n v).
Proof.
  intros L La.
  destruct (write_quantities q_name _ _ (proj2 md_laid_out) v arr ind_nodup (ind_fits v L) La)
    as (v' & A & B & C & D).
  exists v'. split; [exact A|]. split; [exact B|]. split; [exact C|]. intros n H. apply D.
  intros I. apply in_map_iff in I as (q & E & I). exact (H q I (eq_sym E)).
Qed.
Lemma c25_inputs_roundtrip (v v' : vec T) arr arr0 : layout v = declared input_kind io ->
  length arr = time_independent_input_size md -> length arr0 = time_independent_input_size md ->
  from_numpy_ind md input_kind arr v = Ok v' -> to_numpy_ind md input_kind v' arr0 = Ok arr.
Proof.
  intros L La L0. eapply (array_roundtrip q_name); eauto using ind_nodup, ind_fits. apply md_laid_out.
Qed.
End C25.
