(** Kaps' problem: linear solves. *)
From Coq Require Import String.
From Coq Require Import List Bool Arith Reals Lia Lra.
From Verif Require Import Base Ext M_ODE M_Metadata M_Components SpecMetadata SpecRK SpecDeriv SpecComponents M_Packing SpecPacking SpecComponent SpecTotal
  M_Stage M_Kaps SpecKaps L_Vec L_Metadata L_Components L_Packing L_Packing3 L_Packing6 L_Deriv L_Stage L_Stage2 L_Kaps.
Import ListNotations.
Local Open Scope string_scope.
Local Open Scope R_scope.
Local Open Scope list_scope.

Notation exch h a := {| x_step_size := h; x_stage_factor := a |}.

Lemma group_fwd_eq eps h a x0 x1 x2 x3 z0 z1 z2 z3 u0 u1 u2 u3 d0 d1 d2 d3 :
  group_fwd eps (exch h a) [x0; x1; x2; x3] [z0; z1; z2; z3] [u0; u1; u2; u3] [d0; d1; d2; d3] =
  Ok [u0 + h * u1 + h * a * d1 - d0; 2 * z2 * d2 - eps * d1 - (1 + 2 * eps) * d0;
      u2 + h * u3 + h * a * d3 - d2; d0 - (1 + 2 * z2) * d2 - d3].
Proof.
  transitivity (Ok [0 + u0 + h * u1 + h * a * d1 - d0; 0 + 2 * z2 * d2 - eps * d1 - (1 + 2 * eps) * d0;
     0 + u2 + h * u3 + h * a * d3 - d2; 0 + d0 - (1 + 2 * z2) * d2 - d3]); [reflexivity|].
  now rewrite !Rplus_0_l.
Qed.
Lemma group_rev_eq eps h a x0 x1 x2 x3 z0 z1 z2 z3 d0 d1 d2 d3 :
  group_rev eps (exch h a) [x0; x1; x2; x3] [z0; z1; z2; z3] [d0; d1; d2; d3] =
  Ok ([d0; h * d0; d2; h * d2],
      [- d0 - (1 + 2 * eps) * d1 + d3; h * a * d0 - eps * d1; - d2 - (1 + 2 * z2) * d3 + 2 * z2 * d1; h * a * d2 - d3]).
Proof.
  transitivity (Ok ([0 + d0; 0 + h * d0; 0 + d2; 0 + h * d2],
     [0 - d0 - (1 + 2 * eps) * d1 + (0 + d3); 0 + h * a * d0 - eps * d1;
      0 - d2 - (1 + 2 * z2) * d3 + (0 + 2 * z2 * d1); 0 + h * a * d2 - d3])); [reflexivity|].
  rewrite !Rplus_0_l. unfold Rminus. now rewrite !Rplus_0_l.
Qed.

Ltac lens4 := repeat match goal with
  | H : length _ = 4%nat |- _ => apply len4 in H as (? & ? & ? & ? & ->)
  | H : length _ = 8%nat |- _ => apply len8 in H as (? & ? & ? & ? & ? & ? & ? & ? & ->)
  end.

Lemma move l q u : l = q - u -> q = l + u.
Proof. intros ->. ring. Qed.

Section Problem.
Variable epsilon : R.
Variable newton : exchange -> list R -> list R -> res (list R).
Variables kf kr : exchange -> list R -> list R -> list R -> list R -> res (list R).
Notation pb := (kaps_problem epsilon newton kf kr).

Lemma halves (l : list R) : length l = 8%nat -> length (firstn 4 l) = 4%nat /\ length (skipn 4 l) = 4%nat /\ firstn 4 l ++ skipn 4 l = l.
Proof. intros H. lens4. auto. Qed.
Lemma fwd_length h a xs z dx dz u : length xs = 4%nat -> length z = 4%nat -> length dx = 4%nat -> length dz = 4%nat ->
  group_fwd epsilon (exch h a) xs z dx dz = Ok u -> length u = 4%nat.
Proof. intros. lens4. rewrite group_fwd_eq in H3. now injection H3 as <-. Qed.
Lemma rev_length h a xs z s u t : length xs = 4%nat -> length z = 4%nat -> length s = 4%nat ->
  group_rev epsilon (exch h a) xs z s = Ok (u, t) -> length u = 4%nat.
Proof. intros. lens4. rewrite group_rev_eq in H2. now injection H2 as <- _. Qed.

Lemma linear_fwd_inv h a i o x r x' r' : kaps_linear_fwd epsilon kf h a i o x r = Ok (x', r') ->
  exists xs z gx g d s u dz, length xs = 4%nat /\ length z = 4%nat /\ length gx = 4%nat /\ length g = 4%nat /\ length d = 4%nat /\ length s = 4%nat /\ length u = 4%nat /\ length dz = 4%nat /\
    o = vec_of kaps_out (xs ++ z) /\ x = vec_of kaps_out (gx ++ g) /\ r = vec_of kaps_out (d ++ s) /\
    group_fwd epsilon (exch h a) xs z (map Ropp d) [0; 0; 0; 0] = Ok u /\
    kf (exch h a) xs z (vsub s u) g = Ok dz /\
    x' = vec_of kaps_out (map Ropp d ++ dz) /\ r' = vec_of kaps_out (d ++ vsub s u).
Proof.
  unfold kaps_linear_fwd. intros H.
  destruct (has _ x) eqn:H1; [|discriminate]. destruct (has _ r) eqn:H2; [|discriminate]. destruct (has _ o) eqn:H3; [|discriminate].
  cbn [andb] in H. apply has_inv in H1 as (x1 & L1 & ->), H2 as (x2 & L2 & ->), H3 as (x3 & L3 & ->). rewrite !vec_of_flat in H by assumption.
  apply bind_ok in H as (u & U & H). apply bind_ok in H as (z & Z & H). apply bind_ok in H as (z' & F & H). apply four_ok in F as (-> & L4). injection H as <- <-.
  apply halves in L1 as (A1 & A2 & A3), L2 as (B1 & B2 & B3), L3 as (C1 & C2 & C3).
  assert (Lu : length u = 4%nat) by (eapply fwd_length; [exact C1|exact C2| | |exact U]; [now rewrite map_length|reflexivity]).
  exists (firstn 4 x3), (skipn 4 x3), (firstn 4 x1), (skipn 4 x1), (firstn 4 x2), (skipn 4 x2), u, z.
  rewrite A3, B3, C3. auto 20.
Qed.
Lemma linear_rev_inv h a i o w y w' y' : kaps_linear_rev epsilon kr h a i o w y = Ok (w', y') ->
  exists xs z c v gy g s u t, length xs = 4%nat /\ length z = 4%nat /\ length c = 4%nat /\ length v = 4%nat /\ length gy = 4%nat /\ length g = 4%nat /\ length s = 4%nat /\ length u = 4%nat /\
    o = vec_of kaps_out (xs ++ z) /\ w = vec_of kaps_out (c ++ v) /\ y = vec_of kaps_out (gy ++ g) /\
    kr (exch h a) xs z v g = Ok s /\ group_rev epsilon (exch h a) xs z s = Ok (u, t) /\
    w' = vec_of kaps_out (vsub c u ++ v) /\ y' = vec_of kaps_out (map Ropp (vsub c u) ++ s).
Proof.
  unfold kaps_linear_rev. intros H.
  destruct (has _ w) eqn:H1; [|discriminate]. destruct (has _ y) eqn:H2; [|discriminate]. destruct (has _ o) eqn:H3; [|discriminate].
  cbn [andb] in H. apply has_inv in H1 as (x1 & L1 & ->), H2 as (x2 & L2 & ->), H3 as (x3 & L3 & ->). rewrite !vec_of_flat in H by assumption.
  apply bind_ok in H as (s & S & H). apply bind_ok in H as (s' & F & H). apply four_ok in F as (-> & L4).
  apply bind_pair_ok in H as (u & t & G & H). injection H as <- <-.
  apply halves in L1 as (A1 & A2 & A3), L2 as (B1 & B2 & B3), L3 as (C1 & C2 & C3).
  assert (Lu : length u = 4%nat) by (eapply rev_length; [exact C1|exact C2| |exact G]; exact L4).
  exists (firstn 4 x3), (skipn 4 x3), (firstn 4 x1), (skipn 4 x1), (firstn 4 x2), (skipn 4 x2), s, u, t.
  rewrite A3, B3, C3. auto 20.
Qed.

Lemma kaps_transposed : solves_group epsilon kf kr -> solves_transposed pb.
Proof.
  intros [Sf Sr] h a i o g r x r' w g' w' y _ _ _ _ E1 E2. cbn [kaps_problem p_linear_fwd p_linear_rev] in E1, E2.
  apply linear_fwd_inv in E1 as (xs & z & gx & g0 & d & s & u & dz & L1 & L2 & L3 & L4 & L5 & L6 & L7 & L8 & Eo & -> & -> & U & K & -> & ->).
  apply linear_rev_inv in E2 as (xs' & z' & c & v & gy & g1 & q & p & t & M1 & M2 & M3 & M4 & M5 & M6 & M7 & M8 & Eo' & -> & -> & K' & G & -> & ->).
  assert (EQ : xs' = xs /\ z' = z).
  { rewrite Eo in Eo'. lens4. cbv in Eo'. injection Eo' as <- <- <- <- <- <- <- <-. auto. }
  destruct EQ as [-> ->].
  apply Sf in K; auto. 2: { lens4. reflexivity. }
  apply Sr in K' as (p' & K'); auto. rewrite G in K'. injection K' as -> ->.
  lens4. cbn [map] in U. rewrite group_fwd_eq in U, K. rewrite group_rev_eq in G.
  injection U as <- <- <- <-. cbn [vsub map2] in K. injection K as K0 K1 K2 K3. injection G as <- <- <- <- <- <- <- <-.
  change (@nsub R RNum) with Rminus in *. cbn. cbn in K0, K1, K2, K3. 
  match goal with |- ?l = ?r => enough (Q : l - r = 0) by lra end.
  rewrite (move _ _ _ K0), (move _ _ _ K1), (move _ _ _ K2), (move _ _ _ K3). ring.
Qed.
End Problem.
