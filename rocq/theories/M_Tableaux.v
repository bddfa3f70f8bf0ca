(** Model of /repo/src/rkopenmdao/butcher_tableaux.py: the 24 shipped tableaux,
    as the arithmetic expressions written there.  Decimal literals are read as
    the rational numbers they denote, [np.sqrt] is the real square root;
    M_TableauxFloat.v has the evaluation with rounding. *)
From Coq Require Import String.
From Coq Require Import List QArith Reals.
Import ListNotations.

(** The expressions occurring in butcher_tableaux.py. *)
Inductive expr : Type :=
| Lit (q : Q)
| Neg (x : expr)
| Add (x y : expr)
| Sub (x y : expr)
| Mul (x y : expr)
| Div (x y : expr)
| Pow (x : expr) (n : nat)
| Sqrt (x : expr).

(** Their value (Python/numpy arithmetic without rounding). *)
Fixpoint evalR (e : expr) : R :=
  match e with
  | Lit q => Q2R q
  | Neg x => (- evalR x)%R
  | Add x y => (evalR x + evalR y)%R
  | Sub x y => (evalR x - evalR y)%R
  | Mul x y => (evalR x * evalR y)%R
  | Div x y => (evalR x / evalR y)%R
  | Pow x n => (evalR x ^ n)%R
  | Sqrt x => R_sqrt.sqrt (evalR x)
  end.

(** The arguments of a constructor call in butcher_tableaux.py; [s_hat] holds
    butcher_adaptive_weights and phat of an EmbeddedButcherTableau. *)
Record shipped : Type := {
  s_A : list (list expr);
  s_b : list expr;
  s_c : list expr;
  s_p : nat;
  s_hat : option (list expr * nat);
  s_name : string
}.

Declare Scope expr_scope.
Local Notation "'L' q" := (Lit q%Q) (at level 9, q at level 0) : expr_scope.
Local Notation "- x" := (Neg x) : expr_scope.
Local Notation "x + y" := (Add x y) : expr_scope.
Local Notation "x - y" := (Sub x y) : expr_scope.
Local Notation "x * y" := (Mul x y) : expr_scope.
Local Notation "x / y" := (Div x y) : expr_scope.
Local Notation "x ^ n" := (Pow x n%nat) : expr_scope.
Local Notation "'sqrt' x" := (Sqrt x) (at level 9, x at level 0) : expr_scope.
Local Open Scope expr_scope.
Local Open Scope string_scope.
Local Open Scope expr_scope.

(** butcher_tableaux.py:52-58. *)
Definition explicit_euler : shipped :=
  {| s_A := [[L 0.0]];
     s_b := [L 1.0];
     s_c := [L 0.0];
     s_p := 1;
     s_hat := None;
     s_name := "Explicit Euler" |}.

(** butcher_tableaux.py:60-66. *)
Definition implicit_euler : shipped :=
  {| s_A := [[L 1.0]];
     s_b := [L 1.0];
     s_c := [L 1.0];
     s_p := 1;
     s_hat := None;
     s_name := "Implicit Euler" |}.

(** butcher_tableaux.py:68-74. *)
Definition implicit_midpoint : shipped :=
  {| s_A := [[L 0.5]];
     s_b := [L 1.0];
     s_c := [L 0.5];
     s_p := 2;
     s_hat := None;
     s_name := "Implicit Midpoint" |}.

(** butcher_tableaux.py:77-90. *)
Definition third_order_two_stage_sdirk : shipped :=
  let gamma := L 0.5 + sqrt (L 3.0) / L 6 in
  let c2 := L 0.5 - sqrt (L 3.0) / L 6 in
  {| s_A := [[gamma; L 0.0];
      [c2 - gamma; gamma]];
     s_b := [L 0.5; L 0.5];
     s_c := [gamma; c2];
     s_p := 3;
     s_hat := None;
     s_name := "SDIRK 2-stage, 3rd order" |}.

(** butcher_tableaux.py:95-108. *)
Definition runge_kutta_four : shipped :=
  {| s_A := [[L 0.0; L 0.0; L 0.0; L 0.0];
      [L 0.5; L 0.0; L 0.0; L 0.0];
      [L 0.0; L 0.5; L 0.0; L 0.0];
      [L 0.0; L 0.0; L 1.0; L 0.0]];
     s_b := [L 1 / L 6; L 1 / L 3; L 1 / L 3; L 1 / L 6];
     s_c := [L 0.0; L 0.5; L 0.5; L 1.0];
     s_p := 4;
     s_hat := None;
     s_name := "RK4 with simple embedded 2nd-order estimator" |}.

(** butcher_tableaux.py:111-165. *)
Definition fifth_order_five_stage_sdirk : shipped :=
  {| s_A := [[L 4024571134387 / L 14474071345096; L 0.0; L 0.0; L 0.0; L 0.0];
      [L 9365021263232 / L 12572342979331;
       L 4024571134387 / L 14474071345096;
       L 0.0;
       L 0.0;
       L 0.0];
      [L 2144716224527 / L 9320917548702;
       - L 397905335951 / L 4008788611757;
       L 4024571134387 / L 14474071345096;
       L 0.0;
       L 0.0];
      [- L 291541413000 / L 6267936762551;
       L 226761949132 / L 4473940808273;
       - L 1282248297070 / L 9697416712681;
       L 4024571134387 / L 14474071345096;
       L 0.0];
      [- L 2481679516057 / L 4626464057815;
       - L 197112422687 / L 6604378783090;
       L 3952887910906 / L 9713059315593;
       L 4906835613583 / L 8134926921134;
       L 4024571134387 / L 14474071345096]];
     s_b := [- L 2522702558582 / L 12162329469185;
             L 1018267903655 / L 12907234417901;
             L 4542392826351 / L 13702606430957;
             L 5001116467727 / L 12224457745473;
             L 1509636094297 / L 3891594770934];
     s_c := [L 4024571134387 / L 14474071345096;
             L 5555633399575 / L 5431021154178;
             L 5255299487392 / L 12852514622453;
             L 3 / L 20;
             L 10449500210709 / L 14474071345096];
     s_p := 5;
     s_hat := None;
     s_name := "SDIRK 5-stage, 5th order" |}.

(** butcher_tableaux.py:167-175. *)
Definition embedded_heun_euler : shipped :=
  {| s_A := [[L 0.0; L 0.0];
      [L 1.0; L 0.0]];
     s_b := [L 0.5; L 0.5];
     s_c := [L 0.0; L 1.0];
     s_p := 2;
     s_hat := Some ([L 1.0; L 0.0], 1%nat);
     s_name := "Embedded Heun's Method with Euler method" |}.

(** butcher_tableaux.py:178-189. *)
Definition embedded_second_order_two_stage_sdirk : shipped :=
  let gamma := (L 2.0 - sqrt (L 2.0)) / L 2.0 in
  {| s_A := [[gamma; L 0.0];
      [L 1 - gamma; gamma]];
     s_b := [L 1 - gamma; gamma];
     s_c := [gamma; L 1.0];
     s_p := 2;
     s_hat := Some ([L 0.5; L 0.5], 1%nat);
     s_name := "SDIRK 2-stage, 2nd order" |}.

(** butcher_tableaux.py:195-217. *)
Definition embedded_second_order_three_stage_esdirk : shipped :=
  let gamma := (L 2.0 - sqrt (L 2.0)) / L 2.0 in
  let b2 := (L 1 - L 2 * gamma) / (L 4 * gamma) in
  let b2_hat := gamma * (- L 2 + L 7 * gamma - L 5 * gamma ^ 2 + L 4 * gamma ^ 3) / (L 2 * (L 2 * gamma - L 1)) in
  let b3_hat := - L 2 * gamma ^ 2 * (L 1 - gamma + gamma ^ 2) / (L 2 * gamma - L 1) in
  {| s_A := [[L 0.0; L 0.0; L 0.0];
      [gamma; gamma; L 0.0];
      [L 1 - b2 - gamma; b2; gamma]];
     s_b := [L 1 - b2 - gamma; b2; gamma];
     s_c := [L 0.0; L 2 * gamma; L 1.0];
     s_p := 2;
     s_hat := Some ([L 1 - b2_hat - b3_hat; b2_hat; b3_hat], 1%nat);
     s_name := "ESDIRK 3-stage, 2nd order" |}.

(** butcher_tableaux.py:223-245. *)
Definition embedded_third_order_three_stage_sdirk1 : shipped :=
  let gamma := L 0.43586652150845899941601945 in
  let alpha := L 1 - L 4 * gamma + L 2 * gamma ^ 2 in
  let beta := - L 1 + L 6 * gamma - L 9 * gamma ^ 2 + L 3 * gamma ^ 3 in
  let b2 := - L 3 * alpha ^ 2 / (L 4 * beta) in
  let c2 := (L 2 - L 9 * gamma + L 6 * gamma ^ 2) / (L 3 * alpha) in
  let b2_hat := (L 1 / L 2 - gamma) / (c2 - gamma) in
  {| s_A := [[gamma; L 0.0; L 0.0];
      [c2 - gamma; gamma; L 0.0];
      [L 1 - b2 - gamma; b2; gamma]];
     s_b := [L 1 - b2 - gamma; b2; gamma];
     s_c := [gamma; c2; L 1];
     s_p := 3;
     s_hat := Some ([L 1 - b2_hat; b2_hat; L 0.0], 2%nat);
     s_name := "SDIRK 3-stage, 3rd order" |}.

(** butcher_tableaux.py:252-266. *)
Definition embedded_third_order_three_stage_sdirk2 : shipped :=
  {| s_A := [[L 5 / L 6; L 0.0; L 0.0];
      [- L 61 / L 108; L 5 / L 6; L 0.0];
      [- L 23 / L 183; - L 33 / L 61; L 5 / L 6]];
     s_b := [L 26 / L 61; L 324 / L 671; L 1 / L 11];
     s_c := [L 5 / L 6; L 29 / L 108; L 1 / L 6];
     s_p := 3;
     s_hat := Some ([L 25 / L 61; L 36 / L 61; L 0.0], 2%nat);
     s_name := "SDIRK 3-stage, 3rd order" |}.

(** butcher_tableaux.py:269-291. *)
Definition embedded_third_order_three_stage_esdirk : shipped :=
  let gamma := (L 3.0 + sqrt (L 3.0)) / L 6.0 in
  let c3 := L 2 * gamma - sqrt ((L 2 + sqrt (L 3.0)) / L 3) in
  let a32 := c3 * (c3 - L 2 * gamma) / (L 4 * gamma) in
  let b2 := (- L 2.0 + L 3.0 * c3) / (L 12.0 * (c3 - L 2 * gamma) * gamma) in
  let b2_hat := L 1 / (L 4 * gamma) in
  let b3 := (L 1 - L 3.0 * gamma) / (L 3 * c3 * (c3 - L 2 * gamma)) in
  {| s_A := [[L 0.0; L 0.0; L 0.0];
      [gamma; gamma; L 0.0];
      [c3 - a32 - gamma; a32; gamma]];
     s_b := [L 1 - b2 - b3; b2; b3];
     s_c := [L 0.0; L 2 * gamma; c3];
     s_p := 3;
     s_hat := Some ([L 1 - b2_hat; b2_hat; L 0], 2%nat);
     s_name := "ESDIRK 3-stage, 3rd order" |}.

(** butcher_tableaux.py:297-330. *)
Definition embedded_third_order_four_stage_sdirk : shipped :=
  let gamma := L 9 / L 40 in
  let c2 := L 7 / L 13 in
  let c3 := L 11 / L 15 in
  let a32 := - ((c2 - c3) * (c3 - gamma) * (- L 1 + L 9 * gamma - L 18 * gamma ^ 2 + L 6 * gamma ^ 3)) / ((c2 - gamma) * (- L 2 + L 3 * c2 + L 9 * gamma - L 12 * c2 * gamma - L 6 * gamma ^ 2 + L 6 * c2 * gamma ^ 2)) in
  let b2 := - (- L 2 + L 3 * c3 + L 9 * gamma - L 12 * c3 * gamma - L 6 * gamma ^ 2 + L 6 * c3 * gamma ^ 2) / (L 6 * (c2 - c3) * (c2 - gamma)) in
  let b3 := (- L 2 + L 3 * c2 + L 9 * gamma - L 12 * c2 * gamma - L 6 * gamma ^ 2 + L 6 * c2 * gamma ^ 2) / (L 6 * (c2 - c3) * (c3 - gamma)) in
  let b2_hat := (L 1 / L 2 - gamma) / (c2 - gamma) in
  {| s_A := [[gamma; L 0.0; L 0.0; L 0.0];
      [c2 - gamma; gamma; L 0.0; L 0.0];
      [c3 - a32 - gamma; a32; gamma; L 0.0];
      [L 1 - b2 - b3 - gamma; b2; b3; gamma]];
     s_b := [L 1 - b2 - b3 - gamma; b2; b3; gamma];
     s_c := [gamma; c2; c3; L 1];
     s_p := 3;
     s_hat := Some ([L 1 - b2_hat; b2_hat; L 0.0; L 0.0], 2%nat);
     s_name := "SDIRK 4-stage, 3rd order" |}.

(** butcher_tableaux.py:338-374. *)
Definition embedded_third_order_second_weak_stage_order_four_stage_dirk : shipped :=
  {| s_A := [[L 0.01900072890; L 0.0; L 0.0; L 0.0];
      [L 0.40434605601; L 0.38435717512; L 0.0; L 0.0];
      [L 0.06487908412; - L 0.16389640295; L 0.51545231222; L 0.0];
      [L 0.02343549374; - L 0.41207877888; L 0.96661161281; L 0.42203167233]];
     s_b := [L 0.02343549374; - L 0.41207877888; L 0.96661161281; L 0.42203167233];
     s_c := [L 0.01900072890; L 0.78870323114; L 0.41643499339; L 1.0];
     s_p := 3;
     s_hat := Some ([L 0.3750841790169713; L 0.6249158209830273; L 0.0; L 0.0], 2%nat);
     s_name := "Embedded 2nd weak stage order 4-stage DIRK, 3rd order" |}.

(** butcher_tableaux.py:380-416. *)
Definition embedded_third_order_third_weak_stage_order_four_stage_dirk : shipped :=
  {| s_A := [[L 0.13756543551; L 0.0; L 0.0; L 0.0];
      [L 0.56695122794; L 0.23483888782; L 0.0; L 0.0];
      [- L 1.08354072813; L 2.96618223864; L 0.44915521951; L 0.0];
      [L 0.59761291500; - L 0.43420997584; - L 0.05305815322; L 0.88965521406]];
     s_b := [L 0.59761291500; - L 0.43420997584; - L 0.05305815322; L 0.88965521406];
     s_c := [L 0.13756543551; L 0.80179011576; L 2.33179673002; L 1.0];
     s_p := 3;
     s_hat := Some ([L 0.4543494464048109; L 0.5456505535951891; L 0.0; L 0.0], 2%nat);
     s_name := "Embedded 3rd weak stage DIRK (4-stage)" |}.

(** butcher_tableaux.py:419-467. *)
Definition embedded_third_order_four_stage_esdirk : shipped :=
  let gamma := L 0.435866521508458999416019 in
  let c3 := (L 3 - L 20 * gamma + L 24 * gamma ^ 2) / (L 4 - L 24 * gamma + L 24 * gamma ^ 2) in
  let a32 := c3 * (c3 - L 2 * gamma) / (L 4 * gamma) in
  let b2 := (- L 2 + L 3 * c3 + L 6 * gamma * (L 1 - c3)) / (L 12 * gamma * (c3 - L 2 * gamma)) in
  let b3 := (L 1 - L 6 * gamma + L 6 * gamma ^ 2) / (L 3 * c3 * (c3 - L 2 * gamma)) in
  let polynomial := L 1 - L 6 * gamma + L 6 * gamma ^ 2 in
  let linear := L 2 * gamma - c3 in
  let b2_hat := c3 * (- L 1 + L 6 * gamma - L 24 * gamma ^ 3 + L 12 * gamma ^ 4 - L 6 * gamma ^ 5) / (L 4 * gamma * linear * polynomial) + (L 3 - L 27 * gamma + L 68 * gamma ^ 2 - L 55 * gamma ^ 3 + L 21 * gamma ^ 4 - L 6 * gamma ^ 5) / (L 2 * linear * polynomial) in
  let b3_hat := - gamma * (- L 2 + L 21 * gamma - L 68 * gamma ^ 2 + L 79 * gamma ^ 3 - L 33 * gamma ^ 4 + L 12 * gamma ^ 5) / (c3 * (- linear) * polynomial) in
  let b4_hat := - L 3 * gamma ^ 2 * (- L 1 + L 4 * gamma - L 2 * gamma ^ 2 + gamma ^ 3) / polynomial in
  {| s_A := [[L 0.0; L 0.0; L 0.0; L 0.0];
      [gamma; gamma; L 0.0; L 0.0];
      [c3 - a32 - gamma; a32; gamma; L 0.0];
      [L 1 - b2 - b3 - gamma; b2; b3; gamma]];
     s_b := [L 1 - b2 - b3 - gamma; b2; b3; gamma];
     s_c := [L 0.0; L 2 * gamma; c3; L 1];
     s_p := 3;
     s_hat := Some ([L 1 - b2_hat - b3_hat - b4_hat; b2_hat; b3_hat; b4_hat], 2%nat);
     s_name := "ESDIRK 4-stage, 3rd order" |}.

(** butcher_tableaux.py:473-517. *)
Definition embedded_third_order_five_stage_esdirk : shipped :=
  {| s_A := [[L 0.0; L 0.0; L 0.0; L 0.0; L 0.0];
      [L 9 / L 40; L 9 / L 40; L 0.0; L 0.0; L 0.0];
      [L 9 * (L 1 + sqrt (L 2)) / L 80;
       L 9 * (L 1 + sqrt (L 2)) / L 80;
       L 9 / L 40;
       L 0.0;
       L 0.0];
      [(L 22 + L 15 * sqrt (L 2)) / (L 80 * (L 1 + sqrt (L 2)));
       (L 22 + L 15 * sqrt (L 2)) / (L 80 * (L 1 + sqrt (L 2)));
       - L 7 / (L 40 * (L 1 + sqrt (L 2)));
       L 9 / L 40;
       L 0.0];
      [(L 2398 + L 1205 * sqrt (L 2)) / (L 2835 * (L 4 + L 3 * sqrt (L 2)));
       (L 2398 + L 1205 * sqrt (L 2)) / (L 2835 * (L 4 + L 3 * sqrt (L 2)));
       - L 2374 * (L 1 + L 2 * sqrt (L 2)) / (L 2835 * (L 5 + L 3 * sqrt (L 2)));
       L 5827 / L 7560;
       L 9 / L 40]];
     s_b := [(L 2398 + L 1205 * sqrt (L 2)) / (L 2835 * (L 4 + L 3 * sqrt (L 2)));
             (L 2398 + L 1205 * sqrt (L 2)) / (L 2835 * (L 4 + L 3 * sqrt (L 2)));
             - L 2374 * (L 1 + L 2 * sqrt (L 2)) / (L 2835 * (L 5 + L 3 * sqrt (L 2)));
             L 5827 / L 7560;
             L 9 / L 40];
     s_c := [L 0.0; L 9 / L 20; L 9 * (L 2 + sqrt (L 2)) / L 40; L 3 / L 5; L 1];
     s_p := 3;
     s_hat := Some ([L 4555948517383 / L 24713416420891;
                   L 4555948517383 / L 24713416420891;
                   - L 7107561914881 / L 25547637784726;
                   L 30698249 / L 44052120;
                   L 49563 / L 233080], 2%nat);
     s_name := "ESDIRK 5-stage, 3rd order" |}.

(** butcher_tableaux.py:520-535. *)
Definition embedded_fourth_order_four_stage_sdirk : shipped :=
  {| s_A := [[L 5 / L 6; L 0.0; L 0.0; L 0.0];
      [- L 15 / L 26; L 5 / L 6; L 0.0; L 0.0];
      [L 215 / L 54; - L 130 / L 27; L 5 / L 6; L 0.0];
      [L 4007 / L 6075; - L 31031 / L 24300; - L 133 / L 2700; L 5 / L 6]];
     s_b := [L 61 / L 150; L 2197 / L 2100; L 19 / L 100; - L 9 / L 14];
     s_c := [L 5 / L 6; L 10 / L 39; L 0.0; L 1 / L 6];
     s_p := 4;
     s_hat := Some ([L 32 / L 75; L 169 / L 300; L 1 / L 100; L 0.0], 3%nat);
     s_name := "SDIRK 4-stage, 4rd order" |}.

(** butcher_tableaux.py:538-596. *)
Definition embedded_fourth_order_five_stage_sdirk : shipped :=
  {| s_A := [[L 0.25; L 0.0; L 0.0; L 0.0; L 0.0];
      [(L 1 - sqrt (L 2)) * L 0.25; L 0.25; L 0.0; L 0.0; L 0.0];
      [(- L 1676 + L 145 * sqrt (L 2)) / L 6724;
       L 3 * (L 709 + L 389 * sqrt (L 2)) / L 6724;
       L 0.25;
       L 0.0;
       L 0.0];
      [(- L 371435 - L 351111 * sqrt (L 2)) / L 470596;
       (L 98054928 + L 73894543 * sqrt (L 2)) / L 112001848;
       (L 56061972 + L 30241643 * sqrt (L 2)) / L 112001848;
       L 0.25;
       L 0.0];
      [L 0.0;
       L 4 * (L 74 + L 273 * sqrt (L 2)) / L 5253;
       (L 19187 + L 5031 * sqrt (L 2)) / L 55284;
       (L 116092 - L 100113 * sqrt (L 2)) / L 334956;
       L 0.25]];
     s_b := [L 0.0;
             L 4 * (L 74 + L 273 * sqrt (L 2)) / L 5253;
             (L 19187 + L 5031 * sqrt (L 2)) / L 55284;
             (L 116092 - L 100113 * sqrt (L 2)) / L 334956;
             L 0.25];
     s_c := [L 0.25;
             (L 2 - sqrt (L 2)) / L 4;
             (L 13 + L 8 * sqrt (L 2)) / L 41;
             (L 41 + L 9 * sqrt (L 2)) / L 49;
             L 1.0];
     s_p := 4;
     s_hat := Some ([L 0.0;
                   L 0.341280744198674;
                   L 0.511600880412258;
                   - L 0.005036325586745;
                   L 0.152154700975811], 3%nat);
     s_name := "SDIRK 5-stage, 4th order" |}.

(** butcher_tableaux.py:599-722. *)
Definition embedded_fourth_order_five_stage_esdirk : shipped :=
  let gamma := L 0.43586652150845899941601945 in
  let c2 := L 2 * gamma * (L 2 - L 9 * gamma + L 12 * gamma ^ 2) / (L 1 - L 6 * gamma + L 12 * gamma ^ 2) in
  let c3 := L 1.0 in
  let phi0 := L 1 - L 6 * gamma + L 6 * gamma ^ 2 in
  let phi1 := L 3 - L 20 * gamma + L 24 * gamma ^ 2 in
  let phi2 := L 5 - L 36 * gamma + L 48 * gamma ^ 2 in
  let phi3 := - L 1 + L 12 * gamma - L 36 * gamma ^ 2 + L 24 * gamma ^ 3 in
  let b1 := (L 3 - L 12 * gamma + L 4 * c3 * (- L 1 + L 3 * gamma) - L 2 * c2 * (L 2 - L 6 * gamma + c3 * (- L 3 + L 6 * gamma))) / (L 24 * gamma * (L 2 * gamma - c2) * (L 2 * gamma - c3)) in
  let b2 := (phi1 - L 4 * c3 * phi0) / (L 12 * c2 * (c2 - c3) * (c2 - L 2 * gamma)) in
  let b3 := (phi1 - L 4 * c2 * phi0) / (L 12 * c3 * (c3 - c2) * (c3 - L 2 * gamma)) in
  let a32 := c2 * (c2 - L 2 * gamma) / (L 4 * gamma) in
  let a42 := c3 * (c3 - L 2 * gamma) * (- L 4 * c2 ^ 2 * phi0 - L 2 * gamma * phi1 + c2 * phi2 + L 2 * c3 * phi3) / (L 4 * gamma * (L 2 * gamma - c2) * (L 4 * c2 * phi0 - phi1)) in
  let a43 := (c3 - c2) * c3 * (c3 - L 2 * gamma) * phi3 / (c2 * (c2 - L 2 * gamma) * (L 4 * c2 * phi0 - phi1)) in
  let phi0_hat := L 2 - L 43 * gamma + L 336 * gamma ^ 2 - L 1194 * gamma ^ 3 + L 1966 * gamma ^ 4 - L 1336 * gamma ^ 5 + L 168 * gamma ^ 6 + L 96 * gamma ^ 7 in
  let b_hat3 := L 4 * gamma ^ 2 * (- L 1 + L 9 * gamma - L 18 * gamma ^ 2 + L 6 * gamma ^ 3 - L 2 * gamma ^ 4) / (- L 1 + L 12 * gamma - L 36 * gamma ^ 2 + L 24 * gamma ^ 3) in
  let b_hat2 := - gamma * phi0_hat * (- L 3 + L 4 * c2 + L 20 * gamma - L 24 * c2 * gamma - L 24 * gamma ^ 2 + L 24 * c2 * gamma ^ 2) / (L 3 * c3 * (c3 - c2) * (c3 - L 2 * gamma) * (- L 1 + L 12 * gamma - L 36 * gamma ^ 2 + L 24 * gamma ^ 3) ^ 2) in
  let b_hat1 := (L 1 - L 3 * b_hat3 - L 3 * b_hat2 * c3 ^ 2 - L 3 * gamma + L 6 * b_hat3 * gamma + L 6 * b_hat2 * c3 * gamma) / (L 3 * c2 * (c2 - L 2 * gamma)) in
  let b_hat0 := (L 2 - L 6 * b_hat3 - L 3 * c2 + L 6 * b_hat3 * c2 + L 6 * b_hat2 * c2 * c3 - L 6 * b_hat2 * c3 ^ 2) / (L 12 * gamma * (L 2 * gamma - c2)) in
  {| s_A := [[L 0.0; L 0.0; L 0.0; L 0.0; L 0.0];
      [gamma; gamma; L 0.0; L 0.0; L 0.0];
      [c2 - a32 - gamma; a32; gamma; L 0.0; L 0.0];
      [c3 - a42 - a43 - gamma; a42; a43; gamma; L 0.0];
      [L 1 - b1 - b2 - b3 - gamma; b1; b2; b3; gamma]];
     s_b := [L 1 - b1 - b2 - b3 - gamma; b1; b2; b3; gamma];
     s_c := [L 0.0; L 2 * gamma; c2; c3; L 1.0];
     s_p := 4;
     s_hat := Some ([L 1 - b_hat3 - b_hat2 - b_hat1 - b_hat0; b_hat0; b_hat1; b_hat2; b_hat3], 3%nat);
     s_name := "ESDIRK 5-stage, 4th order" |}.

(** butcher_tableaux.py:728-783. *)
Definition embedded_fourth_order_six_stage_esdirk : shipped :=
  {| s_A := [[L 0.0; L 0.0; L 0.0; L 0.0; L 0.0; L 0.0];
      [L 0.25; L 0.25; L 0.0; L 0.0; L 0.0; L 0.0];
      [(L 1 - sqrt (L 2)) / L 8; (L 1 - sqrt (L 2)) / L 8; L 0.25; L 0.0; L 0.0; L 0.0];
      [(L 5 - L 7 * sqrt (L 2)) / L 64;
       (L 5 - L 7 * sqrt (L 2)) / L 64;
       L 7 * (L 1 + sqrt (L 2)) / L 32;
       L 0.25;
       L 0.0;
       L 0.0];
      [(- L 13796 - L 54539 * sqrt (L 2)) / L 125000;
       (- L 13796 - L 54539 * sqrt (L 2)) / L 125000;
       (L 506605 + L 132109 * sqrt (L 2)) / L 437500;
       L 166 * (- L 97 + L 376 * sqrt (L 2)) / L 109375;
       L 0.25;
       L 0.0];
      [(L 1181 - L 987 * sqrt (L 2)) / L 13782;
       (L 1181 - L 987 * sqrt (L 2)) / L 13782;
       L 47 * (- L 267 + L 1783 * sqrt (L 2)) / L 273343;
       - L 16 * (- L 22922 + L 3525 * sqrt (L 2)) / L 571953;
       - L 15625 * (L 97 + L 376 * sqrt (L 2)) / L 90749876;
       L 0.25]];
     s_b := [(L 1181 - L 987 * sqrt (L 2)) / L 13782;
             (L 1181 - L 987 * sqrt (L 2)) / L 13782;
             L 47 * (- L 267 + L 1783 * sqrt (L 2)) / L 273343;
             - L 16 * (- L 22922 + L 3525 * sqrt (L 2)) / L 571953;
             - L 15625 * (L 97 + L 376 * sqrt (L 2)) / L 90749876;
             L 0.25];
     s_c := [L 0.0; L 0.5; (L 2 - sqrt (L 2)) / L 4; L 5 / L 8; L 26 / L 25; L 1.0];
     s_p := 4;
     s_hat := Some ([L 0.077091360363;
                   L 0.305407835281;
                   L 0.190349064475;
                   L 0.292496855486;
                   L 0.048867204752;
                   L 0.085787679643], 3%nat);
     s_name := "Adaptive Runge-Kutta method" |}.

(** butcher_tableaux.py:788-874. *)
Definition embedded_fourth_order_third_weak_stage_order_six_stage_dirk : shipped :=
  {| s_A := [[L 0.079672377876931; L 0.0; L 0.0; L 0.0; L 0.0; L 0.0];
      [L 0.328355391763968; L 0.136009256546967; L 0; L 0; L 0; L 0];
      [- L 0.650772774016417; L 1.742859063495349; L 0.256472952467792; L 0; L 0; L 0];
      [- L 0.714580550967259;
       L 1.793745752775934;
       - L 0.078254785672497;
       L 0.311753794172585;
       L 0;
       L 0];
      [- L 1.120092779092918;
       L 1.983452339867353;
       L 3.117393885836001;
       - L 3.761930177913743;
       L 0.770646024799205;
       L 0];
      [L 0.214823667785537;
       L 0.536367363903245;
       L 0.154488125726409;
       - L 0.217748592703941;
       L 0.072226422925896;
       L 0.239843012362853]];
     s_b := [L 0.214823667785537;
             L 0.536367363903245;
             L 0.154488125726409;
             - L 0.217748592703941;
             L 0.072226422925896;
             L 0.239843012362853];
     s_c := [L 0.079672377876931;
             L 0.464364648310935;
             L 1.348559241946724;
             L 1.312664210308764;
             L 0.989469293495897;
             L 1.0];
     s_p := 4;
     s_hat := Some ([L 0.259708343532495;
                   L 0.429989048079402;
                   - L 0.052124203635890;
                   - L 0.037657590408588;
                   L 0.068689511652968;
                   L 0.331394890779613], 3%nat);
     s_name := "3rd weak stage 6-stage DIRK, 4th order" |}.

(** butcher_tableaux.py:878-899. *)
Definition embedded_runge_kutta_fehlberg : shipped :=
  {| s_A := [[L 0.0; L 0.0; L 0.0; L 0.0; L 0.0; L 0.0];
      [L 1 / L 4; L 0.0; L 0.0; L 0.0; L 0.0; L 0.0];
      [L 3 / L 32; L 9 / L 32; L 0.0; L 0.0; L 0.0; L 0.0];
      [L 1932 / L 2197; - L 7200 / L 2197; L 7296 / L 2197; L 0.0; L 0.0; L 0.0];
      [L 439 / L 216; - L 8.0; L 3680 / L 513; - L 845 / L 4104; L 0.0; L 0.0];
      [- L 8 / L 27; L 2.0; - L 3544 / L 2565; L 1859 / L 4104; - L 11 / L 40; L 0.0]];
     s_b := [L 16 / L 135; L 0.0; L 6656 / L 12825; L 28561 / L 56430; - L 9 / L 50; L 2 / L 55];
     s_c := [L 0.0; L 1 / L 4; L 3 / L 8; L 12 / L 13; L 1.0; L 1 / L 2];
     s_p := 5;
     s_hat := Some ([L 25 / L 216; L 0.0; L 1408 / L 2565; L 2197 / L 4104; - L 1 / L 5; L 0.0], 4%nat);
     s_name := "The Runge–Kutta–Fehlberg method" |}.

(** butcher_tableaux.py:902-981. *)
Definition embedded_fifth_order_six_stage_esdirk : shipped :=
  {| s_A := [[L 0.0; L 0.0; L 0.0; L 0.0; L 0.0; L 0.0];
      [L 3282482714977 / L 11805205429139;
       L 3282482714977 / L 11805205429139;
       L 0;
       L 0;
       L 0;
       L 0];
      [L 606638434273 / L 1934588254988;
       L 2719561380667 / L 6223645057524;
       L 3282482714977 / L 11805205429139;
       L 0;
       L 0;
       L 0];
      [- L 651839358321 / L 6893317340882;
       - L 1510159624805 / L 11312503783159;
       L 235043282255 / L 4700683032009;
       L 3282482714977 / L 11805205429139;
       L 0;
       L 0];
      [- L 5266892529762 / L 23715740857879;
       - L 1007523679375 / L 10375683364751;
       L 521543607658 / L 16698046240053;
       L 514935039541 / L 7366641897523;
       L 3282482714977 / L 11805205429139;
       L 0];
      [- L 6225479754948 / L 6925873918471;
       L 6894665360202 / L 11185215031699;
       - L 2508324082331 / L 20512393166649;
       - L 7289596211309 / L 4653106810017;
       L 39811658682819 / L 14781729060964;
       L 3282482714977 / L 11805205429139]];
     s_b := [- L 6225479754948 / L 6925873918471;
             L 6894665360202 / L 11185215031699;
             - L 2508324082331 / L 20512393166649;
             - L 7289596211309 / L 4653106810017;
             L 39811658682819 / L 14781729060964;
             L 3282482714977 / L 11805205429139];
     s_c := [L 0.0;
             L 4024571134387 / L 7237035672548;
             L 14228244952610 / L 13832614967709;
             L 0.1;
             L 3 / L 50;
             L 1.0];
     s_p := 5;
     s_hat := Some ([- L 0.085013280765;
                   L 0.526534869197;
                   - L 0.283373493019;
                   L 0.215634909381;
                   L 0.158630047529;
                   L 0.467586947677], 4%nat);
     s_name := "ESDIRK 6-stage, 5th order" |}.

(** butcher_tableaux.py:23-48, [__all__]. *)
Definition all_tableaux : list shipped := [
  explicit_euler;
  implicit_euler;
  implicit_midpoint;
  third_order_two_stage_sdirk;
  runge_kutta_four;
  fifth_order_five_stage_sdirk;
  embedded_heun_euler;
  embedded_second_order_two_stage_sdirk;
  embedded_second_order_three_stage_esdirk;
  embedded_third_order_three_stage_sdirk1;
  embedded_third_order_three_stage_sdirk2;
  embedded_third_order_three_stage_esdirk;
  embedded_third_order_four_stage_sdirk;
  embedded_third_order_second_weak_stage_order_four_stage_dirk;
  embedded_third_order_third_weak_stage_order_four_stage_dirk;
  embedded_third_order_four_stage_esdirk;
  embedded_third_order_five_stage_esdirk;
  embedded_fourth_order_four_stage_sdirk;
  embedded_fourth_order_five_stage_sdirk;
  embedded_fourth_order_five_stage_esdirk;
  embedded_fourth_order_six_stage_esdirk;
  embedded_fourth_order_third_weak_stage_order_six_stage_dirk;
  embedded_runge_kutta_fehlberg;
  embedded_fifth_order_six_stage_esdirk].
