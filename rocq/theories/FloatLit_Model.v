(** Floating-point literals: from the token to the C constant (src/parser/parser_expr.c,
    src/codegen/codegen.c).  A double is the rational number it stands for; literals are not
    negative (the sign is an operator).  Infinities (literals beyond the largest double) are
    not modelled. *)
From Coq Require Import QArith.
From Verif Require Import Common IntLit_Model.
Local Open Scope N_scope.

(** printf's rounding: [x / d] to the nearest integer, ties to even *)
Definition round_div (x d : N) : N :=
  let q := x / d in
  let r := x mod d in
  if 2 * r <? d then q
  else if d <? 2 * r then q + 1
  else if N.even q then q else q + 1.

(** printf %f: the number of millionths, printed with six digits after the point *)
Definition six_digits (n : N) : bytes :=
  [48 + n / 100000 mod 10; 48 + n / 10000 mod 10; 48 + n / 1000 mod 10; 48 + n / 100 mod 10; 48 + n / 10 mod 10; 48 + n mod 10].
Definition printf_f (r : Q) : bytes :=
  let m := round_div (Z.to_N (Qnum r) * 1000000) (Npos (Qden r)) in
  decimal 400 (m / 1000000) ++ 46 :: six_digits (m mod 1000000).

Section Float.
(** The C library's conversion, as the rational value of the double *)
Variable atof : bytes -> Q.
(** parser_expr.c:1426-1434 parse_float_literal and codegen.c:45-48: [rest] is the source
    from the literal's first character on. *)
Definition emit_float (rest : bytes) : bytes := printf_f (atof rest).
End Float.
