(** What reading input into variables should do. *)
From Verif Require Import Common Scan_Model.
Local Open Scope Z_scope.

(** white space inside a line, and texts without any *)
Definition blank (c : N) : Prop := In c [32; 9; 11; 12; 13]%N.
Definition white (c : N) : Prop := blank c \/ c = 10%N.
Definition word (w : bytes) : Prop := w <> [] /\ forall c, In c w -> ~ white c.
(** decimal numbers *)
Inductive digits : bytes -> Z -> Prop :=
| digits_one d : (d < 10)%N -> digits [(48 + d)%N] (Z.of_N d)
| digits_more w z d : digits w z -> (d < 10)%N -> digits (w ++ [(48 + d)%N]) (z * 10 + Z.of_N d).
Inductive decimal : bytes -> Z -> Prop :=
| decimal_plain w z : digits w z -> decimal w z
| decimal_plus w z : digits w z -> decimal (43%N :: w) z
| decimal_minus w z : digits w z -> decimal (45%N :: w) (- z).

Section Spec.
Variable F : Type.
(** [reads w x]: the text w is the number x *)
Variable strtod : bytes -> option (F * bytes).
Definition ended (l : bytes) : Prop := match l with [] => True | c :: _ => white c end.
Definition reads (w : bytes) (x : F) : Prop := word w /\ forall l, ended l -> strtod (w ++ l) = Some (x, l).

(** what is typed for a variable, and the value it then should have *)
Inductive typed : kind -> bytes -> value F -> Prop :=
| typed_int k w z : In k [KInt; KI32; KRune] -> decimal w z -> -2147483648 <= z < 2147483648 -> typed k w (VInt z)
| typed_uint k w z : In k [KU32; KUint] -> decimal w z -> 0 <= z < 2147483648 -> typed k w (VInt z)
| typed_char k c : In k [KChar; KI8; KU8; KByte] -> ~ white c -> (c < 128)%N -> typed k [c] (VInt (Z.of_N c))
| typed_float k w x : In k [KF32; KFloat; KF64] -> reads w x -> typed k w (VFloat x)
| typed_text w : word w -> typed KString w (VText (Some w)).

(** words with white space between them, perhaps some in front, then [tail] *)
Inductive spread (tail : bytes) : list bytes -> bytes -> Prop :=
| spread_end : spread tail [] tail
| spread_word sp w ws l : Forall white sp -> spread tail ws l -> ended l -> spread tail (w :: ws) (sp ++ w ++ l).

(** the variables after reading *)
Definition given (vars : list (var F)) (xs : list (value F)) : list (var F) :=
  map (fun '(v, x) => mkvar (v_kind v) (v_known v) x) (combine vars xs).
(** all variables have known types; text is read with a prompt *)
Definition fit (f : form) (vars : list (var F)) : Prop :=
  (1 <= length vars <= 16)%nat /\ Forall (fun v => v_known v = true /\ (f = Prompt \/ v_kind v <> KString)) vars.
End Spec.
Arguments given {F} vars xs.
Arguments fit {F} f vars.
Arguments typed {F} strtod k w x : rename.
