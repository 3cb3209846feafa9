(** What a forth program means, without the plugin: programs are trees, the stack is a list. *)
From Verif Require Import Common.
Local Open Scope nat_scope.

Inductive op := Add | Sub | Mul | Div | Mod | Shl | Shr | And | Or | Xor | Not | Eq | Gt | Lt | Choose | Dup | Drop | Swap | Rot | MRot.
Inductive word :=
| Num (neg : bool) (ds : bytes)
| Op (o : op)
| If (a : words)
| IfElse (a b : words)
| Do (a : words)
| Index
| Emit
| Comma
| Call (x : bytes)
with words := WNil | WCons (w : word) (ws : words).

(** * The text *)
Definition op_text (o : op) : bytes :=
  match o with
  | Add => bs "+" | Sub => bs "-" | Mul => bs "*" | Div => bs "/" | Mod => bs "%" | Shl => bs "<<" | Shr => bs ">>"
  | And => bs "&" | Or => bs "|" | Xor => bs "^" | Not => bs "~" | Eq => bs "=" | Gt => bs ">" | Lt => bs "<"
  | Choose => bs "choose" | Dup => bs "dup" | Drop => bs "drop" | Swap => bs "swap" | Rot => bs "rot" | MRot => bs "-rot"
  end.
Fixpoint spelled (w : word) : list bytes :=
  match w with
  | Num neg ds => [(if neg then bs "-" else []) ++ ds]
  | Op o => [op_text o]
  | If a => bs "if" :: spelled_all a ++ [bs "then"]
  | IfElse a b => bs "if" :: spelled_all a ++ bs "else" :: spelled_all b ++ [bs "then"]
  | Do a => bs "do" :: spelled_all a ++ [bs "loop"]
  | Index => [bs "i"]
  | Emit => [bs "emit"]
  | Comma => [bs ","]
  | Call x => [x]
  end
with spelled_all (ws : words) : list bytes := match ws with WNil => [] | WCons w ws => spelled w ++ spelled_all ws end.

(** A program: definitions and words to run *)
Inductive item := Define (x : bytes) (ws : words) | Run (w : word).
Definition spelled_item (i : item) : list bytes :=
  match i with Define x ws => [bs ":"; x] ++ spelled_all ws ++ [bs ";"] | Run w => spelled w end.
Definition text (gap : bytes) (p : list item) : bytes := flat_map (fun t => t ++ gap) (flat_map spelled_item p).
Definition layout (gap : bytes) : Prop := gap <> [] /\ Forall (fun c => c = 32 \/ c = 9 \/ c = 10)%N gap.

Definition letter (c : N) : Prop := (65 <= c <= 90 \/ 97 <= c <= 122 \/ c = 95)%N.
Definition figure (c : N) : Prop := (48 <= c <= 57)%N.
Definition reserved : list bytes :=
  map bs ["choose"; "dup"; "drop"; "swap"; "rot"; "if"; "else"; "then"; "do"; "loop"; "i"; "emit"; "fsqrt"; "fdup"; "fdrop"; "fswap"; "femit";
          "allot"; "variable"; "constant"]%string.
(** A name of a word: letters and digits, not longer than 31 *)
Definition name (x : bytes) : Prop :=
  match x with c :: r => letter c /\ Forall (fun c => letter c \/ figure c) r | [] => False end /\ ~ In x reserved /\ length x <= 31.
Fixpoint decimal (ds : bytes) : Z :=
  match ds with [] => 0%Z | c :: ds => ((Z.of_N c - 48) * 10 ^ Z.of_nat (length ds) + decimal ds)%Z end.
Definition numeral (ds : bytes) : Prop :=
  ds <> [] /\ Forall figure ds /\ (ds = bs "0" \/ hd 0%N ds <> 48%N) /\ (decimal ds < 2 ^ 63)%Z.

(** Without if, and so without what ends one *)
Fixpoint no_if (w : word) : Prop := match w with If _ | IfElse _ _ => False | Do a => no_if_all a | _ => True end
with no_if_all (ws : words) : Prop := match ws with WNil => True | WCons w ws => no_if w /\ no_if_all ws end.
Fixpoint well_formed (w : word) : Prop :=
  match w with
  | Num _ ds => numeral ds
  | If a => no_if_all a /\ well_formed_all a
  | IfElse a b => no_if_all a /\ well_formed_all a /\ no_if_all b /\ well_formed_all b
  | Do a => well_formed_all a
  | Call x => name x
  | _ => True
  end
with well_formed_all (ws : words) : Prop := match ws with WNil => True | WCons w ws => well_formed w /\ well_formed_all ws end.
(** The body of a definition fits in 511 characters *)
Definition width (ts : list bytes) : nat := fold_right (fun t n => length t + 1 + n) 0 ts.
Definition fits (ws : words) : Prop := width (spelled_all ws) <= 512.

(** * The stack *)
Definition in_long (z : Z) : bool := ((- 2 ^ 63 <=? z) && (z <? 2 ^ 63))%Z.
Definition truth (b : bool) : Z := if b then 1%Z else 0%Z.
Definition result (z : Z) (l : list Z) : option (list Z) := if in_long z then Some (z :: l) else None.
(** the top first *)
Definition op_value (o : op) (l : list Z) : option (list Z) :=
  match o, l with
  | Add, b :: a :: l => result (a + b) l
  | Sub, b :: a :: l => result (a - b) l
  | Mul, b :: a :: l => result (a * b) l
  | Div, b :: a :: l => if (b =? 0)%Z then None else result (Z.quot a b) l
  | Mod, b :: a :: l => if (b =? 0)%Z || negb (in_long (Z.quot a b)) then None else Some (Z.rem a b :: l)
  | Shl, b :: a :: l => if (0 <=? a)%Z && (0 <=? b)%Z && (b <? 64)%Z then result (a * 2 ^ b) l else None
  | Shr, b :: a :: l => if (0 <=? b)%Z && (b <? 64)%Z then Some (a / 2 ^ b :: l)%Z else None
  | And, b :: a :: l => Some (Z.land a b :: l)
  | Or, b :: a :: l => Some (Z.lor a b :: l)
  | Xor, b :: a :: l => Some (Z.lxor a b :: l)
  | Not, a :: l => Some ((- a - 1)%Z :: l)
  | Eq, b :: a :: l => Some (truth (a =? b)%Z :: l)
  | Gt, b :: a :: l => Some (truth (a >? b)%Z :: l)
  | Lt, b :: a :: l => Some (truth (a <? b)%Z :: l)
  | Choose, f :: t :: c :: l => Some ((if (c =? 0)%Z then f else t) :: l)
  | Dup, a :: l => Some (a :: a :: l)
  | Drop, _ :: l => Some l
  | Swap, b :: a :: l => Some (a :: b :: l)
  | Rot, c :: b :: a :: l => Some (a :: c :: b :: l)
  | MRot, c :: b :: a :: l => Some (b :: a :: c :: l)
  | _, _ => None
  end.

(** * Running
    [runs] defs loops l o w l' o': with the definitions, the indices of the loops around (the innermost first), the
    stack and what has been written.  A stack has 256 places, a block writes less than 8192 bytes, and 32 loops
    are inside each other. *)
Section Run.
Variable dec : Z -> bytes.
Inductive runs (defs : bytes -> option words) : list Z -> list Z -> bytes -> word -> list Z -> bytes -> Prop :=
| run_num lp l o (neg : bool) ds : length l < 256 -> runs defs lp l o (Num neg ds) ((if neg then - decimal ds else decimal ds)%Z :: l) o
| run_op lp l o p l' : op_value p l = Some l' -> length l' <= 256 -> runs defs lp l o (Op p) l' o
| run_if_no lp l o a : runs defs lp (0%Z :: l) o (If a) l o
| run_if lp c l o a l' o' : c <> 0%Z -> runs_all defs lp l o a l' o' -> runs defs lp (c :: l) o (If a) l' o'
| run_else lp l o a b l' o' : runs_all defs lp l o b l' o' -> runs defs lp (0%Z :: l) o (IfElse a b) l' o'
| run_then lp c l o a b l' o' : c <> 0%Z -> runs_all defs lp l o a l' o' -> runs defs lp (c :: l) o (IfElse a b) l' o'
| run_do lp start limit l o a l' o' : loops defs lp start limit l o a l' o' -> runs defs lp (start :: limit :: l) o (Do a) l' o'
| run_index i lp l o : length l < 256 -> runs defs (i :: lp) l o Index (i :: l) o
| run_emit lp v l o : (Z.of_nat (length (o ++ dec v)) < 8192)%Z -> runs defs lp (v :: l) o Emit l (o ++ dec v)
| run_comma lp l o : (Z.of_nat (length (o ++ bs ", ")) < 8192)%Z -> runs defs lp l o Comma l (o ++ bs ", ")
| run_call lp l o x ws l' o' : defs x = Some ws -> runs_all defs lp l o ws l' o' -> runs defs lp l o (Call x) l' o'
with runs_all (defs : bytes -> option words) : list Z -> list Z -> bytes -> words -> list Z -> bytes -> Prop :=
| all_nil lp l o : runs_all defs lp l o WNil l o
| all_cons lp l o w ws l1 o1 l2 o2 : runs defs lp l o w l1 o1 -> runs_all defs lp l1 o1 ws l2 o2 -> runs_all defs lp l o (WCons w ws) l2 o2
with loops (defs : bytes -> option words) : list Z -> Z -> Z -> list Z -> bytes -> words -> list Z -> bytes -> Prop :=
| loop_end lp i limit l o a : (limit <= i)%Z -> loops defs lp i limit l o a l o
| loop_round lp i limit l o a l1 o1 l2 o2 : (i < limit)%Z -> length lp < 32 ->
    runs_all defs (i :: lp) l o a l1 o1 -> loops defs lp (i + 1) limit l1 o1 a l2 o2 -> loops defs lp i limit l o a l2 o2.

(** A program, with the definitions so far *)
Definition define (x : bytes) (ws : words) (defs : bytes -> option words) : bytes -> option words :=
  fun y => if list_eq_dec N.eq_dec y x then Some ws else defs y.
Inductive program : (bytes -> option words) -> list Z -> bytes -> list item -> list Z -> bytes -> Prop :=
| prog_end defs l o : program defs l o [] l o
| prog_define defs l o x ws p l' o' : defs x = None -> program (define x ws defs) l o p l' o' -> program defs l o (Define x ws :: p) l' o'
| prog_run defs l o w p l1 o1 l' o' : runs defs [] l o w l1 o1 -> program defs l1 o1 p l' o' -> program defs l o (Run w :: p) l' o'.
End Run.
Definition none : bytes -> option words := fun _ => None.

Definition good_item (i : item) : Prop :=
  match i with Define x ws => name x /\ well_formed_all ws /\ fits ws | Run w => well_formed w end.
Fixpoint definitions (p : list item) : nat := match p with [] => 0 | Define _ _ :: p => S (definitions p) | Run _ :: p => definitions p end.
