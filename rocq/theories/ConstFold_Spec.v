(** C integer expressions: types int, long (64 bits) and unsigned long long, after
    C11 6.3.1.8 and 6.5.  [None] is undefined behaviour or not an integer constant. *)
From Verif Require Import Common ConstFold_Model.
Local Open Scope Z_scope.

Inductive cty := Int | Long | ULL.
Definition join (s t : cty) : cty :=
  match s, t with
  | ULL, _ | _, ULL => ULL
  | Long, _ | _, Long => Long
  | _, _ => Int
  end.
Definition width (t : cty) : Z := match t with Int => 32 | _ => 64 end.
(** conversion of a value when an operand is converted to the common type *)
Definition convert (t : cty) (v : Z) : Z := match t with ULL => v mod 2 ^ 64 | _ => v end.
(** the result of an arithmetic operator in type [t] *)
Definition result (t : cty) (v : Z) : option (cty * Z) :=
  match t with
  | ULL => Some (ULL, v mod 2 ^ 64)
  | _ => if (- 2 ^ (width t - 1) <=? v) && (v <? 2 ^ (width t - 1)) then Some (t, v) else None
  end.

(** an integer literal as the compiler prints it (codegen.c:49-58): the C type of its text *)
Definition literal (v : N) : cty * Z :=
  if (2 ^ 63 <=? Z.of_N v) then (ULL, Z.of_N v)
  else if (2 ^ 31 <=? Z.of_N v) then (Long, Z.of_N v) else (Int, Z.of_N v).

Inductive binop := Add | Sub | Mul | Div | Mod | Shl | Shr | And | Or | Xor.
Definition binop_of (op : bytes) : option binop :=
  if beq_bytes op (bs "+") then Some Add else if beq_bytes op (bs "-") then Some Sub
  else if beq_bytes op (bs "*") then Some Mul else if beq_bytes op (bs "/") then Some Div
  else if beq_bytes op (bs "%") then Some Mod else if beq_bytes op (bs "<<") then Some Shl
  else if beq_bytes op (bs ">>") then Some Shr else if beq_bytes op (bs "&") then Some And
  else if beq_bytes op (bs "|") then Some Or else if beq_bytes op (bs "^") then Some Xor
  else None.

Definition c_bin (o : binop) (x y : cty * Z) : option (cty * Z) :=
  let t := join (fst x) (fst y) in
  let a := convert t (snd x) in
  let b := convert t (snd y) in
  match o with
  | Add => result t (a + b)
  | Sub => result t (a - b)
  | Mul => result t (a * b)
  | Div => if b =? 0 then None else result t (Z.quot a b)
  | Mod => if b =? 0 then None
           else match result t (Z.quot a b) with None => None | Some _ => Some (t, Z.rem a b) end
  | And => Some (t, Z.land a b)
  | Or => Some (t, Z.lor a b)
  | Xor => Some (t, Z.lxor a b)
  | Shl => let t := fst x in let a := snd x in let b := snd y in
           if (0 <=? b) && (b <? width t) && (0 <=? a) then result t (a * 2 ^ b) else None
  | Shr => let t := fst x in let a := snd x in let b := snd y in
           if (0 <=? b) && (b <? width t) then Some (t, a / 2 ^ b) else None
  end.

Definition c_un (op : bytes) (x : cty * Z) : option (cty * Z) :=
  if beq_bytes op (bs "-") then result (fst x) (- snd x)
  else if beq_bytes op (bs "+") then Some x
  else if beq_bytes op (bs "~") then
    Some (fst x, match fst x with ULL => 2 ^ 64 - 1 - snd x | _ => - snd x - 1 end)
  else None.

(** [vars]: the values of the int constants in scope *)
Fixpoint c_value (vars : bytes -> option Z) (e : expr) : option (cty * Z) :=
  match e with
  | Lit v => Some (literal v)
  | Var x => option_map (fun v => (Int, v)) (vars x)
  | Bin op l r =>
    match binop_of op, c_value vars l, c_value vars r with
    | Some o, Some x, Some y => c_bin o x y
    | _, _, _ => None
    end
  | Un op e => match c_value vars e with Some x => c_un op x | None => None end
  | OtherLit | Other => None
  end.

(** all literals below 2^63 *)
Fixpoint signed_literals (e : expr) : Prop :=
  match e with
  | Lit v => (v < 2 ^ 63)%N
  | Bin _ l r => signed_literals l /\ signed_literals r
  | Un _ e => signed_literals e
  | _ => True
  end.

(** constants and enumerators known to the parser *)
Definition vars_of (c : ctx) (x : bytes) : option Z :=
  match const_int_val c x with Some v => Some v | None => tag_id c x end.
