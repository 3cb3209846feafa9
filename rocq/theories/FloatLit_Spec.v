(** Decimal floating constants and their values, in the source and in C (6.4.4.2). *)
From Coq Require Import QArith.
From Verif Require Import Common IntLit_Spec.
Local Open Scope N_scope.

(** [Constant text q]: the digits a, a point, the digits b, and an optional exponent; the
    value is the number ab times ten to the exponent less the number of digits of b. *)
Definition ten (e : Z) : Q := Qpower 10 e.
Inductive exponent : bytes -> Z -> Prop :=
| X_none : exponent [] 0
| X_pos c sg ds n : In c [101; 69] -> In sg [[]; [43]] -> numeral 10 ds n -> exponent (c :: sg ++ ds) (Z.of_N n)
| X_neg c ds n : In c [101; 69] -> numeral 10 ds n -> exponent (c :: 45 :: ds) (- Z.of_N n).
Inductive Constant : bytes -> Q -> Prop :=
| Const a b x n e q : a <> [] -> numeral 10 (a ++ b) n -> exponent x e ->
    (q == inject_Z (Z.of_N n) * ten (e - Z.of_nat (length b)))%Q ->
    Constant (a ++ 46 :: b ++ x) q.

(** The distance of two rationals *)
Definition near (p q eps : Q) : Prop := (p - q <= eps /\ q - p <= eps)%Q.
Definition half_millionth : Q := 1 # 2000000.
