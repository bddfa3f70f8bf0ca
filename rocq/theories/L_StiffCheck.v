(** Checking the stability functions and weak stage orders of the shipped
    tableaux by computation with polynomials.  L_Stiff.v proves what the checks
    mean. *)
From Coq Require Import List QArith Bool ZArith.
From Verif Require Import M_Tableaux L_Fields L_OrderCheck SpecStiff.
Import ListNotations.
Local Open Scope nat_scope.
Local Open Scope list_scope.

Section Polynomials.
Context {K : Type} (zero one : K) (add mul : K -> K -> K) (neg : K -> K) (ofQ : Q -> K).
(** 0 <= x, and |x| <= e y. *)
Context (nonneg : K -> bool) (below : K -> K -> Q -> bool).

(** Lists of coefficients, constant term first. *)
Fixpoint padd (p q : list K) : list K :=
  match p, q with
  | [], _ => q
  | _, [] => p
  | x :: p', y :: q' => add x y :: padd p' q'
  end.
Definition pscale (k : K) (p : list K) : list K := map (mul k) p.
Definition pneg (p : list K) : list K := map neg p.
Definition pshift (p : list K) : list K := zero :: p.
(** (1 + d x) p *)
Definition plin (d : K) (p : list K) : list K := padd p (pshift (pscale d p)).
Fixpoint comb (cs : list K) (ps : list (list K)) : list K :=
  match cs, ps with
  | c :: cs', p :: ps' => padd (pscale c p) (comb cs' ps')
  | _, _ => []
  end.
Fixpoint dominated (p l : list K) (e : Q) : bool :=
  match p, l with
  | [], _ => true
  | x :: p', [] => below x zero e && dominated p' [] e
  | x :: p', y :: l' => below x y e && dominated p' l' e
  end.

(** The stage values of y' = -y, times the product of the 1 + a_ll x. *)
Fixpoint forward (rows : list (list K)) (i : nat) (pre : list K) (ms : list (list K)) : list K * list (list K) :=
  match rows with
  | [] => (pre, ms)
  | r :: rs =>
      let d := nth i r zero in
      forward rs (S i) (plin d pre) (map (plin d) ms ++ [padd pre (pshift (pneg (comb r ms)))])
  end.
(** The solution of the transposed system with right hand side b, likewise. *)
Fixpoint backward (A : list (list K)) (b : list K) (j : nat) (post : list K) (ws : list (list K)) : list K * list (list K) :=
  match j with
  | O => (post, ws)
  | S j' =>
      let d := nth j' (nth j' A []) zero in
      let col := map (fun i => nth j' (nth i A []) zero) (seq j (length A - j)) in
      backward A b j' (plin d post)
        (padd (pscale (nth j' b zero) post) (pshift (pneg (comb col ws))) :: map (plin d) ws)
  end.
(** Numerator and denominator of the stability function at -x. *)
Definition stability (A : list (list K)) (b : list K) (accurate : bool) : list K * list K :=
  let (q, ms) := forward A 0 [one] [] in
  (if accurate then last ms [] else padd q (pshift (pneg (comb b ms))), q).

Definition kresidual (A : list (list K)) (c : list K) (k : nat) : list K :=
  map (fun rc => add (kdot zero add mul (fst rc) (map (fun x => kpow one mul x k) c))
                     (neg (mul (ofQ (1 # Pos.of_nat (S k))) (kpow one mul (snd rc) (S k)))))
      (combine A c).

Definition diagonal_check (A : list (list K)) : bool :=
  forallb (fun i => nonneg (nth i (nth i A []) zero)) (seq 0 (length A)).
Definition damping_check (A : list (list K)) (b : list K) (accurate : bool) : bool :=
  let (p, q) := stability A b accurate in
  let lo := padd q (pneg p) in let hi := padd q p in
  diagonal_check A && forallb nonneg lo && forallb nonneg hi &&
  below one (nth 1 lo zero) 2 && below one (nth 0 hi zero) 2.
Definition vanishing_check (A : list (list K)) (b : list K) (accurate : bool) (e : Q) : bool :=
  let (p, q) := stability A b accurate in diagonal_check A && forallb nonneg q && dominated (pshift p) q e.
(** [exact k]: the residuals of degree [k] are known to be zero. *)
Definition stiff_check (A : list (list K)) (b c : list K) (accurate : bool) (still exact : list bool) (q : nat) (big e : Q) : bool :=
  let (p, den) := stability A b accurate in
  let lo := padd den (pneg p) in let hi := padd den p in
  let vs := map (fun w => pshift (pneg w)) (snd (backward A b (length A) [one] [])) in
  diagonal_check A && forallb nonneg lo && forallb nonneg hi &&
  forallb (fun v => fst v || (dominated (snd v) lo big && dominated (snd v) hi big)) (combine still vs) &&
  forallb (fun k => if nth k exact false then true
                    else let w := comb (kresidual A c k) vs in dominated w lo e && dominated w hi e) (seq 0 q).

(** b A^m tau, from the last power on. *)
Fixpoint kpropagated (A : list (list K)) (v : list K) (m : nat) : list K :=
  match m with O => v | S m' => kapply zero add mul A (kpropagated A v m') end.
Definition kweak (A : list (list K)) (b c : list K) (k m : nat) : K :=
  kdot zero add mul b (kpropagated A (kresidual A c k) m).
End Polynomials.

Definition fnonneg (x : fld) : bool := feqb x f0 || Qle_bool (ferr x) (fapprox x).
Definition fbelow (x y : fld) (e : Q) : bool :=
  feqb x f0 || Qle_bool (Qabs.Qabs (fapprox x) + ferr x) (e * (fapprox y - ferr y)).
Definition bnonneg (x : ball) : bool := Z.leb (snd x) (fst x).
Definition bbelow (x y : ball) (e : Q) : bool :=
  Z.leb ((Z.abs (fst x) + snd x) * Zpos (Qden e)) (Qnum e * (fst y - snd y)).
Definition blit (q : Q) : ball := (qfloor q, if Z.eqb (Qnum q) 0 then 0 else 1)%Z.

(** Whether the last row of the matrix is the weights. *)
Fixpoint expr_eqb (x y : expr) : bool :=
  match x, y with
  | Lit p, Lit q => Z.eqb (Qnum p) (Qnum q) && Pos.eqb (Qden p) (Qden q)
  | Neg a, Neg b => expr_eqb a b
  | Add a b, Add c d | Sub a b, Sub c d | Mul a b, Mul c d | Div a b, Div c d => expr_eqb a c && expr_eqb b d
  | Pow a m, Pow b n => expr_eqb a b && Nat.eqb m n
  | Sqrt a, Sqrt b => expr_eqb a b
  | _, _ => false
  end.
Fixpoint exprs_eqb (x y : list expr) : bool :=
  match x, y with
  | [], [] => true
  | a :: x', b :: y' => expr_eqb a b && exprs_eqb x' y'
  | _, _ => false
  end.
Definition accurate (x : shipped) : bool := exprs_eqb (last (s_A x) []) (s_b x).
(** Stages with node and row printed as zeros. *)
Definition zero_literal (x : expr) : bool := match x with Lit q => Z.eqb (Qnum q) 0 | _ => false end.
Definition still (x : shipped) : list bool :=
  map (fun rc => forallb zero_literal (fst rc) && zero_literal (snd rc)) (combine (s_A x) (s_c x)).

Definition big : Q := 5.
Definition missed_by : Q := 1 # 10000.

Section Shipped.
Context {K : Type} (ev : expr -> option K) (prep : list (list K) -> list (list K)) (prepv : list K -> list K).
Context (run : list (list K) -> list K -> list K -> bool).
Definition evaluated (x : shipped) : bool :=
  match omap (omap ev) (s_A x), omap ev (s_b x), omap ev (s_c x) with
  | Some A, Some b, Some c => run (prep A) (prepv b) (prepv c)
  | _, _, _ => false
  end.
End Shipped.

Definition check_exact := evaluated evalF rescale_mat rescale_vec.
Definition check_ball := evaluated evalB (fun A => A) (fun v => v).

(** Whether the residuals of the degrees below [q] are exactly zero
    (needed for the bound 0). *)
Definition exact_residuals (x : shipped) (q : nat) (e : Q) : list bool :=
  if negb (Qle_bool e 0) then [] else
  match omap (omap evalF) (s_A x), omap evalF (s_c x) with
  | Some A, Some c => map (fun k => forallb (fun r => feqb r f0) (kresidual f0 f1 fadd fmul fopp fofQ (rescale_mat A) (rescale_vec c) k)) (seq 0 q)
  | _, _ => []
  end.

(** With rounded arithmetic where that suffices, with exact arithmetic otherwise. *)
Definition damped (x : shipped) : bool :=
  if check_ball (fun A b _ => damping_check b0 bone badd bmul bopp bnonneg bbelow A b (accurate x)) x then true
  else check_exact (fun A b _ => damping_check f0 f1 fadd fmul fopp fnonneg fbelow A b (accurate x)) x.
Definition vanishes (x : shipped) : bool :=
  if check_ball (fun A b _ => vanishing_check b0 bone badd bmul bopp bnonneg bbelow A b (accurate x) 100) x then true
  else check_exact (fun A b _ => vanishing_check f0 f1 fadd fmul fopp fnonneg fbelow A b (accurate x) 100) x.
Definition stiffly (x : shipped) (q : nat) (e : Q) : bool :=
  let ex := exact_residuals x q e in
  if check_ball (fun A b c => stiff_check b0 bone badd bmul bopp blit bnonneg bbelow A b c (accurate x) (still x) ex q big e) x then true
  else check_exact (fun A b c => stiff_check f0 f1 fadd fmul fopp fofQ fnonneg fbelow A b c (accurate x) (still x) ex q big e) x.
Definition weakly (x : shipped) (q m : nat) (e : Q) : bool :=
  let s := length (s_b x) in let ex := exact_residuals x q e in
  check_ball (fun A b c =>
    let r := kweak b0 bone badd bmul bopp blit A b c in
    forallb (fun k => if nth k ex false then true else forallb (fun m => bsmall (r k m) e) (seq 0 s)) (seq 0 q)
    && Nat.ltb m s && blarge (r q m) missed_by) x.

(** Powers at which the next order is missed, in the order of [stiff_orders]. *)
Definition missed_at : list nat := [0; 0; 1; 3; 0; 0; 1; 1; 0; 1; 0; 0; 0; 0; 2; 3; 1; 1; 0; 4].

Lemma all_damped : forallb (fun p => damped (fst p)) stiff_orders = true.
Proof. vm_compute; reflexivity. Qed.
Lemma all_vanish : forallb vanishes vanishing = true.
Proof. vm_compute; reflexivity. Qed.
(** The factor of the implicit midpoint rule tends to -1. *)
Lemma all_stiff : forallb (fun p => if Nat.eqb (length (s_b (fst p))) 1 && Nat.eqb (s_p (fst p)) 2 then true
                                    else stiffly (fst p) (fst (snd p)) (snd (snd p))) stiff_orders = true.
Proof. vm_compute; reflexivity. Qed.
Lemma all_weak : forallb (fun pm => weakly (fst (fst pm)) (fst (snd (fst pm))) (snd pm) (snd (snd (fst pm))))
                         (combine stiff_orders missed_at) = true.
Proof. vm_compute; reflexivity. Qed.
