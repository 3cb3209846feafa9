(** What calling and awaiting async functions should mean. *)
From Verif Require Import Common Async_Model.
Local Open Scope nat_scope.

(** A call: its arguments, whether the function runs, what it returned, whether that was awaited *)
Record future := mkfuture { rtype : ty; given : list value; running : bool; answer : option value; taken : bool }.
Record ideal := mkideal { futures : list future; seen : list value }.
Definition ideal_step (e : event) (x : ideal) : ideal :=
  match e with
  | Call r vs _ _ => mkideal (futures x ++ [mkfuture r vs false None false]) (seen x)
  | Begin i => match nth_error (futures x) i with
               | Some (mkfuture r vs false a t) => mkideal (replace i (mkfuture r vs true a t) (futures x)) (seen x)
               | _ => x
               end
  | Return i v _ => match nth_error (futures x) i with
                    | Some (mkfuture r vs true None t) => mkideal (replace i (mkfuture r vs true (Some v) t) (futures x)) (seen x)
                    | _ => x
                    end
  | Await _ i => match nth_error (futures x) i with
                 | Some (mkfuture r vs u (Some v) t) => mkideal (replace i (mkfuture r vs u (Some v) true) (futures x)) (seen x ++ [v])
                 | _ => x
                 end
  end.
Fixpoint ideal_run (es : list event) (x : ideal) : ideal :=
  match es with [] => x | e :: es => ideal_run es (ideal_step e x) end.

Section Spec.
Variable decl : bytes -> ckind.

(** Struct names that do not begin like the name of a number type *)
Definition ordinary (n : bytes) : Prop :=
  (forall p r, In p [bs "uint"; bs "int"; bs "i8"; bs "u8"; bs "i16"; bs "u16"; bs "i32"; bs "u32"; bs "i64"; bs "u64"; bs "f32"; bs "f64"; bs "i128"; bs "u128"] -> n <> p ++ r) /\
  ~ In n [bs "bool"; bs "char"; bs "float"; bs "double"; bs "long"; bs "usize"; bs "isize"; bs "byte"; bs "rune"; bs "size_t"; bs "ptrdiff_t"; bs "ssize_t";
          bs "void"; bs "string"; bs "__int128"; bs "unsigned __int128"; bs "unsigned int"] /\
  ~ In (ch "*") n.
Definition int_range (t : ty) : option (Z * Z) :=
  match t with
  | TBool => Some (0, 1) | TChar | TI8 => Some (-128, 127) | TU8 | TByte => Some (0, 255)
  | TI16 => Some (-32768, 32767) | TU16 => Some (0, 65535)
  | TI32 | TInt | TRune => Some (-2147483648, 2147483647) | TU32 => Some (0, 4294967295)
  | TI64 | TIsize => Some (- 2 ^ 63, 2 ^ 63 - 1) | TU64 | TUsize => Some (0, 2 ^ 64 - 1)
  | _ => None
  end%Z.
(** Types whose values await gives back: no floats, no strings, no aliases, and pointers to
    numbers only *)
Inductive supported : ty -> Prop :=
| u_void : supported TVoid
| u_int t r : int_range t = Some r -> supported t
| u_wide t : In t [TI128; TU128; TUint] -> supported t
| u_struct n : ordinary n -> decl n = KStruct n -> supported (TStruct n)
| u_ptr t : In t [TI8; TU8; TI16; TU16; TI32; TU32; TI64; TU64; TByte; TRune; TInt] -> supported (TPtr t).
Definition has_type (t : ty) (v : value) : Prop :=
  match t, v with
  | TVoid, VNone => True
  | TI128, VInt z => (- 2 ^ 127 <= z < 2 ^ 127)%Z
  | TU128, VInt z => (0 <= z < 2 ^ 128)%Z
  | TUint, VInt z => (0 <= z < 2 ^ 32)%Z
  | TPtr _, VPtr a => (0 <= a < 2 ^ 64)%Z
  | TStruct n, VStruct m _ => n = m
  | t, VInt z => match int_range t with Some (a, b) => (a <= z <= b)%Z | None => False end
  | _, _ => False
  end.

(** A history without failures and mistakes: memory and threads are there, functions return
    what they should, nothing is awaited twice, and what is awaited through a variable is no
    number over 32 bits *)
Definition proper (e : event) (x : ideal) : Prop :=
  match e with
  | Call r _ m c => supported r /\ m = true /\ c = true
  | Begin _ => True
  | Return i v m => m = true /\ forall f, nth_error (futures x) i = Some f -> has_type (rtype f) v
  | Await variable i => exists f, nth_error (futures x) i = Some f /\ taken f = false /\
      (variable = true -> forall z, answer f = Some (VInt z) -> int_range (rtype f) <> None -> (-2147483648 <= z <= 2147483647)%Z)
  end.
Fixpoint history (es : list event) (x : ideal) : Prop :=
  match es with [] => True | e :: es => proper e x /\ history es (ideal_step e x) end.
End Spec.
