(** What the generated initialisers mean in C. *)
From Verif Require Import Common IntLit_Spec StrLit_Spec.
Local Open Scope N_scope.

(** [Elements text v]: a list of hexadecimal constants, each with a comma behind it, with the
    values [v]. *)
Inductive Elements : bytes -> bytes -> Prop :=
| E_nil : Elements [] []
| E_cons hs x r v : hs <> [] -> hex_value hs 0 x -> Elements r v ->
    Elements (bs "0x" ++ hs ++ bs "," ++ r) (x :: v).

(** A compound literal of an array of [ty] holding [v] *)
Definition c_array (ty text v : list N) : Prop :=
  exists els, text = bs "(" ++ ty ++ bs "[]){" ++ els ++ bs "}" /\ Elements els v.
(** A compound literal of the slice struct of [ty], with the array and its length *)
Definition c_slice (ty text v : list N) : Prop :=
  exists arr n, text = bs "(Slice_" ++ ty ++ bs "){.data=" ++ arr ++ bs ",.len=" ++ n ++ bs ",.cap=" ++ n ++ bs "}" /\
    c_array ty arr v /\ c_constant n (N.of_nat (length v)).
(** A string literal *)
Definition c_string (text v : bytes) : Prop := exists lit, text = bs "(char*)" ++ lit /\ CLiteral lit v.
(** What the program can see of a C string: everything before the first zero byte *)
Fixpoint c_view (v : bytes) : bytes := match v with [] => [] | c :: r => if c =? 0 then [] else c :: c_view r end.
