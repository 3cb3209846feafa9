(** Model of @derive(Eq): the method the compiler writes (parser_core.c:962-1050,
    generate_derive_impls) and the code of == and != on values that have it
    (codegen.c:257-412).

    Simplifications: the text of the method is modelled up to its last semicolon and its
    meaning is given as the conjunction of its comparisons; the types of a program are
    trees, so a field of a struct type carries that type; every struct in them derives Eq
    (a field whose struct has no eq does not compile). *)
From Verif Require Import Common.
Local Open Scope nat_scope.

(** Types: integers (and booleans and characters), floats, pointers other than strings, the
    strings (string and its C names), arrays, enums with the type of each variant's
    payload, and structs *)
Inductive ty := TInt | TFloat | TPtr | TStr | TArr (t : ty) | TEnum (vs : tys) | TStruct (fs : tys)
with tys := TNil | TCons (t : ty) (ts : tys).

(** Floats, as far as == sees them: not a number, or a number, where the number 0 is both zeros *)
Inductive float := NaN | Num (x : Z).
(** Values.  A string is null or its bytes; an array lies at an address *)
Inductive val :=
| VInt (z : Z) | VFloat (f : float) | VPtr (a : N) | VStr (s : option bytes)
| VArr (a : N) (l : vals) | VEnum (tag : nat) (p : val) | VStruct (l : vals)
with vals := VNil | VCons (v : val) (l : vals).

(** == on two operands of type [t] that are not structs or enums (codegen.c:345-405): strcmp
    for strings, C's == otherwise, which for arrays compares where they are *)
Definition cmp_prim (t : ty) (v w : val) : res bool :=
  match v, w with
  | VInt x, VInt y => Ok (x =? y)%Z
  | VFloat x, VFloat y => Ok (match x, y with Num x, Num y => (x =? y)%Z | _, _ => false end)
  | VPtr x, VPtr y => Ok (x =? y)%N
  | VStr x, VStr y =>
    match x, y with
    | Some x, Some y => Ok (beq_bytes x y)
    | _, _ => UB                                   (* strcmp of a null pointer *)
    end
  | VArr a _, VArr b _ => Ok (a =? b)%N
  | _, _ => UB
  end.

(** The derived method of type [t] (parser_core.c:976-1050) and, for other types, the
    comparison it writes for a field of that type *)
Fixpoint derived_eq (t : ty) (v w : val) {struct t} : res bool :=
  match t with
  | TEnum _ =>                                     (* 980-986 and 1020-1024: the tags *)
    match v, w with VEnum a _, VEnum b _ => Ok (a =? b) | _, _ => UB end
  | TStruct fs =>                                  (* 1025-1029 *)
    match v, w with VStruct l, VStruct m => derived_eqs fs l m | _, _ => UB end
  | _ => cmp_prim t v w                            (* 1030-1034 *)
  end
with derived_eqs (fs : tys) (l m : vals) {struct fs} : res bool :=
  match fs, l, m with
  | TNil, VNil, VNil => Ok true                    (* 1042-1045, and the end of a conjunction *)
  | TCons t fs, VCons v l, VCons w m =>            (* && *)
    do b <- derived_eq t v w ;
    if b then derived_eqs fs l m else Ok false
  | _, _, _ => UB
  end.
(** codegen.c:297-343, on a struct or enum: a == b calls eq, a != b negates it *)
Definition eq_op (t : ty) (v w : val) : res bool := derived_eq t v w.
Definition ne_op (t : ty) (v w : val) : res bool := do b <- derived_eq t v w ; Ok (negb b).

(** The text.  A field: its name, and what its comparison is *)
Inductive cmp := CmpTag | CmpEq (type : bytes) | CmpOp.
Definition cmp_text (f : bytes * cmp) : bytes :=
  let n := fst f in
  match snd f with
  | CmpTag => bs "self." ++ n ++ bs ".tag == other." ++ n ++ bs ".tag"
  | CmpEq t => t ++ bs "__eq(&self." ++ n ++ bs ", &other." ++ n ++ bs ")"
  | CmpOp => bs "self." ++ n ++ bs " == other." ++ n
  end.
(** strcat into an array of [cap] bytes *)
Definition cat (cap : nat) (s t : bytes) : res bytes := if length s + length t <? cap then Ok (s ++ t) else UB.
Fixpoint eq_fields (fs : list (bytes * cmp)) (first : bool) (body : bytes) : res bytes :=
  match fs with
  | [] =>
    do body <- (if first then cat 4096 body (bs "true") else Ok body) ;
    cat 4096 body (bs ";")
  | f :: fs =>
    do body <- (if first then Ok body else cat 4096 body (bs " && ")) ;
    do c <- cat 256 [] (cmp_text f) ;
    do body <- cat 4096 body c ;
    eq_fields fs false body
  end.
Definition eq_body (fs : list (bytes * cmp)) : res bytes := eq_fields fs true (bs "return ").
