(** Model of integer literals: src/parser/parser_expr.c:1360-1427 and their emission,
    src/codegen/codegen.c:48-58. *)
From Verif Require Import Common Lexer_Model.
Local Open Scope N_scope.

(** C strtoull on text that starts neither with a blank nor with a sign (a literal
    token contains none).  In base 16 an optional "0x" is skipped when a digit follows.
    The value saturates at 2^64-1.  Returns the value and what *endptr points to. *)
Definition digit_value (c : N) : N :=
  if isdigit c then c - 48
  else if (97 <=? c) && (c <=? 122) then c - 87
  else if (65 <=? c) && (c <=? 90) then c - 55
  else 36.
Definition in_base (base c : N) : bool := digit_value c <? base.
Fixpoint accumulate (base acc : N) (s : bytes) : N :=
  match s with
  | c :: t => if in_base base c then accumulate base (base * acc + digit_value c) t else acc
  | [] => acc
  end.
Definition skip_0x (s : bytes) (base : N) : bytes :=
  match s with
  | z :: x :: d :: _ =>
    if (base =? 16) && (z =? 48) && ((x =? 120) || (x =? 88)) && in_base 16 d then skipn 2 s else s
  | _ => s
  end.
Definition strtoull (s : bytes) (base : N) : N * bytes :=
  let s' := skip_0x s base in
  let n := span (in_base base) s' in
  if Nat.eqb n 0 then (0, s)
  else (N.min (accumulate base 0 s') (2 ^ 64 - 1), skipn n s').

(** parser_expr.c:1361-1382 *)
Definition valid_suffixes : list bytes :=
  map bs ["u"; "U"; "l"; "L"; "ul"; "UL"; "uL"; "Ul"; "lu"; "LU"; "lU"; "Lu"; "ll"; "LL"; "ull"; "ULL"; "uLL"; "Ull";
          "llu"; "LLu"; "lLu"; "llU"; "u8"; "u16"; "u32"; "u64"; "usize"; "i8"; "i16"; "i32"; "i64"; "isize"]%string.
Definition is_valid_int_suffix (s : bytes) : bool :=
  match s with [] => true | _ => existsb (beq_bytes s) valid_suffixes end.

(** parser_expr.c:1384-1427: the int_val of the node; zpanic_at is [Panic] *)
Definition parse_int_literal (s : bytes) : res N :=
  let is_pre x y := match s with
                    | z :: c :: _ :: _ => (z =? 48) && ((c =? x) || (c =? y))
                    | _ => false
                    end in
  let '(val, rest) :=
    if is_pre 98 66 then strtoull (skipn 2 s) 2
    else if is_pre 120 88 then strtoull (skipn 2 s) 16
    else if is_pre 111 79 then strtoull (skipn 2 s) 8
    else strtoull s 10 in
  if is_valid_int_suffix rest then Ok val else Panic.

(** printf %llu: the decimal digits of [n]; [fuel] bounds their number *)
Fixpoint decimal (fuel : nat) (n : N) : bytes :=
  match fuel with
  | O => []
  | S fuel => (if n <? 10 then [] else decimal fuel (n / 10)) ++ [48 + n mod 10]
  end.
Definition print_llu (n : N) : bytes := decimal 20 n.

(** codegen.c:48-58; %lld of a value below 2^63 prints the same digits *)
Definition emit_int (val : N) : bytes :=
  if 9223372036854775807 <? val then print_llu val ++ bs "ULL" else print_llu val.
