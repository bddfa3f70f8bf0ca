(** Checking by computation how the shipped tableaux come out in floating point.
    L_TableauxFloat.v proves what the checks mean. *)
From Coq Require Import List QArith Bool ZArith.
From Verif Require Import M_Tableaux SpecTree SpecTableauxFloat L_Fields L_OrderCheck L_FloatError.
Import ListNotations.
Local Open Scope nat_scope.

Fixpoint expr_eqb (x y : expr) : bool :=
  match x, y with
  | Lit p, Lit q => Z.eqb (Qnum p) (Qnum q) && Pos.eqb (Qden p) (Qden q)
  | Neg a, Neg b | Sqrt a, Sqrt b => expr_eqb a b
  | Add a b, Add c d | Sub a b, Sub c d | Mul a b, Mul c d | Div a b, Div c d => expr_eqb a c && expr_eqb b d
  | Pow a n, Pow b m => expr_eqb a b && Nat.eqb n m
  | _, _ => false
  end.
Definition is_lit0 (x : expr) : bool := match x with Lit q => Z.eqb (Qnum q) 0 | _ => false end.
Definition coefficient (A : list (list expr)) (i j : nat) : expr := nth j (nth i A []) (Lit 0).
Definition apart (b : ball) : bool := Z.ltb (snd b) (Z.abs (fst b)).
Definition weight_sum (b : list expr) : expr := fold_left Add b (Lit 0).
Definition bminus1 (b : ball) : ball := (fst b - unit, snd b)%Z.

Definition check_float (x : shipped) (k e eh : positive) (t th : tree) : bool :=
  let s := length (s_b x) in
  let small := within_roundings k in
  match omap (omap evalC) (s_A x), omap evalC (s_b x), omap evalC (s_c x), evalC (weight_sum (s_b x)) with
  | Some A, Some b, Some c, Some w =>
      forallb (forallb small) A && forallb small b && forallb small c && bsmall (bminus1 (around w)) (1 # 1000000) &&
      forallb (fun i => forallb (fun j => is_lit0 (coefficient (s_A x) i j)) (seq (S i) (s - S i)) &&
                        (is_lit0 (coefficient (s_A x) i i) || apart (nth i (nth i (map (map around) A) []) b0))) (seq 0 s) &&
      expr_eqb (coefficient (s_A x) 0 0) (nth 0 (s_c x) (Lit 0)) &&
      conditions b0 bone badd bmul bnear bfar (map (map around) A) (map around b) (map around c) (s_p x) (roundings e) t &&
      match s_hat x with
      | None => true
      | Some (bh, ph) =>
          match omap evalC bh with
          | Some h => forallb small h && conditions b0 bone badd bmul bnear bfar (map (map around) A) (map around h) (map around c) ph (roundings eh) th
          | None => false
          end
      end
  | _, _, _, _ => false
  end.

Lemma all_checked_float :
  forallb (fun q => let '((x, (k, (e, eh))), (t, th)) := q in check_float x k e eh t th) (combine float_precision missed) = true.
Proof. vm_compute; reflexivity. Qed.
