(** The integer literals of the language and the numbers they denote. *)
From Verif Require Import Common.
Local Open Scope N_scope.

(** [digit base c v]: [c] is a digit of value [v] in that base. *)
Inductive digit (base : N) : N -> N -> Prop :=
| D_dec v : v < 10 -> v < base -> digit base (48 + v) v
| D_low v : 10 <= v -> v < base -> v < 16 -> digit base (87 + v) v
| D_up v : 10 <= v -> v < base -> v < 16 -> digit base (55 + v) v.

(** [numeral base ds v]: the digits [ds], most significant first, denote [v]. *)
Inductive numeral (base : N) : bytes -> N -> Prop :=
| Num_one c v : digit base c v -> numeral base [c] v
| Num_more ds v c w : numeral base ds v -> digit base c w -> numeral base (ds ++ [c]) (v * base + w).

Inductive prefix : bytes -> N -> Prop :=
| P_dec : prefix [] 10
| P_hex p : In p [bs "0x"; bs "0X"] -> prefix p 16
| P_oct p : In p [bs "0o"; bs "0O"] -> prefix p 8
| P_bin p : In p [bs "0b"; bs "0B"] -> prefix p 2.

(** The suffixes: C's and the names of the integer types. *)
Definition suffixes : list bytes :=
  map bs [""; "u"; "U"; "l"; "L"; "ul"; "UL"; "uL"; "Ul"; "lu"; "LU"; "lU"; "Lu"; "ll"; "LL"; "ull"; "ULL"; "uLL";
          "Ull"; "llu"; "LLu"; "lLu"; "llU"; "u8"; "u16"; "u32"; "u64"; "usize"; "i8"; "i16"; "i32"; "i64"; "isize"]%string.

(** [denotes lit v]: the literal is prefix, digits and suffix, and means [v]. *)
Inductive denotes : bytes -> N -> Prop :=
| Den p base ds suf v : prefix p base -> numeral base ds v -> In suf suffixes -> denotes (p ++ ds ++ suf) v.

(** C decimal constants (6.4.4.1), plain or with the suffix ULL. *)
Inductive c_constant : bytes -> N -> Prop :=
| C_plain c ds v : numeral 10 (c :: ds) v -> (ds <> [] -> c <> 48) -> v < 2 ^ 63 -> c_constant (c :: ds) v
| C_ull c ds v : numeral 10 (c :: ds) v -> (ds <> [] -> c <> 48) -> v < 2 ^ 64 -> c_constant (c :: ds ++ bs "ULL") v.
