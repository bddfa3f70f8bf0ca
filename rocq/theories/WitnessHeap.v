(** Concrete state objects used in the Examples and refutations of the memory
    theorems; not part of the model. *)
From Coq Require Import String.
From Coq Require Import List Arith Lia ZArith.
From Verif Require Import Base M_State M_Heap M_Integrator SpecHeap L_Heap L_Heap2 L_Heap3 L_Heap4 WitnessRun.
Import ListNotations.
Local Open Scope nat_scope.
Local Open Scope list_scope.

(** One state, no independent inputs, two stages. *)
Definition wz : sizes := {| n_state := 1; n_in := [0]; n_out := 0; n_stages := 2; n_lin := 2 |}.
(** The same with an independent input. *)
Definition wz_in : sizes := {| n_state := 1; n_in := [1]; n_out := 0; n_stages := 2; n_lin := 2 |}.

(** Two objects made one after the other; the second one gets some contents. *)
Definition w1 (emb : bool) (z : sizes) : heap Z * tiobj := ti_new emb [] z [1%Z] [0%Z; 0%Z] [5%Z; 5%Z].
Definition wa (emb : bool) (z : sizes) : tiobj := snd (w1 emb z).
Definition w2 (emb : bool) (z : sizes) : heap Z * tiobj := ti_new emb (fst (w1 emb z)) z [2%Z] [3%Z; 4%Z] [6%Z; 7%Z].
Definition wb (emb : bool) (z : sizes) : tiobj := snd (w2 emb z).
(** The array that gets 9: the last one of the object. *)
Definition wlast (emb : bool) (z : sizes) : view :=
  match extra (o_disc (wb emb z)) with Some (e, _) => e | None => attr (o_disc (wb emb z)) FinalState end.
Definition wh (emb : bool) (z : sizes) : heap Z :=
  store (store (fst (w2 emb z)) (attr (o_disc (wb emb z)) StageStates) (repeat 8%Z (size (attr (o_disc (wb emb z)) StageStates))))
    (wlast emb z) (repeat 9%Z (size (wlast emb z))).

Lemma w1_spec emb z : proper (fst (w1 emb z)) (wa emb z) /\ formed z (o_disc (wa emb z)).
Proof.
  unfold wa; destruct (w1 emb z) as [h o] eqn:Q; destruct (ti_new_spec _ _ _ _ _ _ _ _ Q) as (P & F & _); split; assumption.
Qed.
Lemma w2_spec emb z : proper (fst (w2 emb z)) (wa emb z) /\ proper (fst (w2 emb z)) (wb emb z) /\ formed z (o_disc (wb emb z)) /\
  separate (wa emb z) (wb emb z).
Proof.
  destruct (w1_spec emb z) as [[E O] F]; unfold wb; destruct (w2 emb z) as [h o] eqn:Q.
  destruct (ti_new_spec _ _ _ _ _ _ _ _ Q) as (P & F' & _ & K & _); cbn [fst snd].
  split; [split; [|exact O]|split; [exact P|split; [exact F'|]]].
  - intros k v V; exact (proj1 (K v (E k v V))).
  - intros k k' v v' V V'; apply apart_sym; destruct (K v (E k v V)) as (_ & _ & A); eauto.
Qed.

Lemma store_proper (h : heap Z) v x o : exists_in h v -> length x = size v -> proper h o -> proper (store h v x) o.
Proof. intros E L [E' O]; split; [|exact O]; intros k w Wk; apply store_exists; eauto. Qed.

Lemma wlast_key emb z : exists k, at_key (wb emb z) k = Some (wlast emb z).
Proof.
  unfold wlast; destruct (extra (o_disc (wb emb z))) as [[e r]|] eqn:X; [exists EmbeddedState; cbn; rewrite X; reflexivity|exists (Disc FinalState); reflexivity].
Qed.

Lemma wh_spec emb z : proper (wh emb z) (wa emb z) /\ proper (wh emb z) (wb emb z) /\ formed z (o_disc (wa emb z)) /\
  formed z (o_disc (wb emb z)) /\ separate (wa emb z) (wb emb z).
Proof.
  destruct (w2_spec emb z) as (Pa & Pb & F & S); destruct (wlast_key emb z) as [k K].
  assert (E1 : exists_in (fst (w2 emb z)) (attr (o_disc (wb emb z)) StageStates)) by (apply (proj1 Pb (Disc StageStates)); reflexivity).
  assert (E2 : exists_in (store (fst (w2 emb z)) (attr (o_disc (wb emb z)) StageStates)
     (repeat 8%Z (size (attr (o_disc (wb emb z)) StageStates)))) (wlast emb z)).
  { apply store_exists; [exact E1|apply repeat_length|exact (proj1 Pb k _ K)]. }
  assert (St : forall o, proper (fst (w2 emb z)) o -> proper (wh emb z) o).
  { intros o P; unfold wh; apply store_proper; [exact E2|apply repeat_length|]; apply store_proper; [exact E1|apply repeat_length|exact P]. }
  split; [apply St, Pa|]; split; [apply St, Pb|]; split; [exact (proj2 (w1_spec emb z))|]; split; [exact F|exact S].
Qed.

Lemma w_same emb : same_shape (wa emb wz) (wb emb wz).
Proof. intros [f| | | | |]; [destruct f|..]; destruct emb; vm_compute; reflexivity. Qed.

(** After copying, the embedded solution is still the old one. *)
Lemma set_forgets_embedded : exists h' a', ti_obj_set (wh true wz) (wa true wz) (wb true wz) = Ok (h', a') /\
  embedded (disc (ti_value h' a')) = Some ([0%Z], [0%Z]) /\ embedded (disc (ti_value (wh true wz) (wb true wz))) = Some ([9%Z], [0%Z]).
Proof. eexists; eexists; split; [vm_compute; reflexivity|split; vm_compute; reflexivity]. Qed.

(** A load leaves the step size as it is. *)
Definition wstep : heap Z := store (wh false wz) (attr (o_disc (wb false wz)) StepSize) [3%Z].
Lemma wstep_proper : proper wstep (wb false wz).
Proof.
  destruct (wh_spec false wz) as (_ & P & _); apply store_proper; [exact (proj1 P (Disc StepSize) _ eq_refl)|vm_compute; reflexivity|exact P].
Qed.
Lemma load_forgets_step_size : exists h0' slot h2,
  save wstep (ti_to_dict (wb false wz)) = Ok (h0', slot) /\
  load (wh false wz) slot (ti_to_dict (wb false wz)) = Ok h2 /\
  step_size (disc (ti_value wstep (wb false wz))) = 3%Z /\ step_size (disc (ti_value h2 (wb false wz))) = 0%Z.
Proof. do 3 eexists; split; [vm_compute; reflexivity|]; split; [vm_compute; reflexivity|split; vm_compute; reflexivity]. Qed.
