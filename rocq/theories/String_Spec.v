(** Specification of the string operations: strings are lists of non-NUL bytes. *)
From Verif Require Import Common.

(** The least position at which a byte occurs. *)
Fixpoint index_of (c : N) (b : bytes) : option nat :=
  match b with
  | [] => None
  | x :: b => if (x =? c)%N then Some 0 else option_map S (index_of c b)
  end.

Definition is_suffix (p b : bytes) : bool := is_prefix (rev p) (rev b).

(** Pieces between delimiters (at least one piece). *)
Fixpoint fields (d : N) (b : bytes) : list bytes :=
  match b with
  | [] => [[]]
  | c :: b =>
    if (c =? d)%N then [] :: fields d b
    else match fields d b with
         | p :: r => (c :: p) :: r
         | [] => []
         end
  end.

(** Putting the pieces back together. *)
Fixpoint join (d : N) (ps : list bytes) : bytes :=
  match ps with
  | [] => []
  | [p] => p
  | p :: r => p ++ d :: join d r
  end.

(** space, tab, newline, carriage return *)
Definition blank (c : N) : Prop := In c [32; 9; 10; 13]%N.

(** [m] is [b] without its leading and trailing blanks. *)
Definition Trimmed (b m : bytes) : Prop :=
  exists l r, b = l ++ m ++ r /\ Forall blank l /\ Forall blank r /\
    (forall c m', m = c :: m' -> ~ blank c) /\
    (forall c m', m = m' ++ [c] -> ~ blank c).

(** [out] is [b] with the leftmost non-overlapping occurrences of [t] replaced by [r]. *)
Inductive Replaced (t r : bytes) : bytes -> bytes -> Prop :=
| rep_nil : Replaced t r [] []
| rep_hit b out : Replaced t r b out -> Replaced t r (t ++ b) (r ++ out)
| rep_skip c b out : (forall rest, c :: b <> t ++ rest) ->
    Replaced t r b out -> Replaced t r (c :: b) (c :: out).

(** UTF-8 encoding of a code point (RFC 3629). *)
Definition utf8_encode (c : N) : bytes :=
  (if c <? 0x80 then [c]
   else if c <? 0x800 then [0xC0 + c / 64; 0x80 + c mod 64]
   else if c <? 0x10000 then [0xE0 + c / 4096; 0x80 + (c / 64) mod 64; 0x80 + c mod 64]
   else [0xF0 + c / 262144; 0x80 + (c / 4096) mod 64; 0x80 + (c / 64) mod 64; 0x80 + c mod 64])%N.
Definition code_point (c : N) : Prop := (0 < c < 0x110000)%N.
Definition utf8_text (cs : list N) : bytes := concat (map utf8_encode cs).

(** Programs over numbered strings; new strings are appended to the store. *)
Inductive strop :=
| SNew (s : bytes)
| SAppend (i j : nat)
| SAppendC (i : nat) (s : bytes)
| SAdd (i j : nat)
| SSubstring (i : nat) (start n : N)
| SReserve (i n : nat)
| SLength (i : nat)
| SCStr (i : nat)
| SIsEmpty (i : nat)
| SEq (i j : nat)
| SEqStr (i : nat) (s : bytes)
| SFind (i : nat) (c : N)
| SContains (i : nat) (c : N)
| SStartsWith (i : nat) (s : bytes)
| SEndsWith (i : nat) (s : bytes)
| SSplit (i : nat) (d : N).

Inductive strout :=
| TUnit | TNum (n : nat) | TBool (b : bool) | TPos (o : option nat) | TBytes (b : bytes) | TNoSuch.

(** One step; [None] is a panic. *)
Definition str_spec_step (st : list bytes) (op : strop) : option (list bytes * strout) :=
  let at1 i f := match nth_error st i with None => Some (st, TNoSuch) | Some b => f b end in
  let at2 i j f := at1 i (fun a => at1 j (fun b => f a b)) in
  let ask i (f : bytes -> strout) := at1 i (fun b => Some (st, f b)) in
  match op with
  | SNew s => Some (st ++ [cstr s], TUnit)
  | SAppend i j => at2 i j (fun a b => Some (upd st i (a ++ b), TUnit))
  | SAppendC i s => at1 i (fun a => Some (upd st i (a ++ cstr s), TUnit))
  | SAdd i j => at2 i j (fun a b => Some (st ++ [a ++ b], TUnit))
  | SSubstring i start n => at1 i (fun a =>
      if (start + n <=? N.of_nat (length a))%N
      then Some (st ++ [firstn (N.to_nat n) (skipn (N.to_nat start) a)], TUnit) else None)
  | SReserve i n => ask i (fun _ => TUnit)
  | SLength i => ask i (fun a => TNum (length a))
  | SCStr i => ask i TBytes
  | SIsEmpty i => ask i (fun a => TBool (length a =? 0))
  | SEq i j => at2 i j (fun a b => Some (st, TBool (beq_bytes a b)))
  | SEqStr i s => ask i (fun a => TBool (beq_bytes a (cstr s)))
  | SFind i c => ask i (fun a => TPos (index_of c a))
  | SContains i c => ask i (fun a => TBool (match index_of c a with Some _ => true | None => false end))
  | SStartsWith i s => ask i (fun a => TBool (is_prefix (cstr s) a))
  | SEndsWith i s => ask i (fun a => TBool (is_suffix (cstr s) a))
  | SSplit i d => at1 i (fun a =>
      Some (st ++ match a with [] => [] | _ => fields d a end, TUnit))
  end.

Fixpoint str_spec_run (st : list bytes) (ops : list strop) : option (list bytes * list strout) :=
  match ops with
  | [] => Some (st, [])
  | op :: ops =>
    match str_spec_step st op with
    | None => None
    | Some (st, o) => match str_spec_run st ops with
                      | None => None
                      | Some (st, os) => Some (st, o :: os)
                      end
    end
  end.

(** No string is appended to itself. *)
Definition no_self_append (op : strop) : Prop :=
  match op with SAppend i j => i <> j | _ => True end.
(** usize arguments *)
Definition usize_args (op : strop) : Prop :=
  match op with SSubstring _ a b => (a < 2 ^ 64 /\ b < 2 ^ 64)%N | _ => True end.

(** Below 2^31 bytes. *)
Definition short (b : bytes) : Prop := (N.of_nat (length b) < 2 ^ 31)%N.
(** Every store the specification passes through keeps strings below 2^31 bytes. *)
Fixpoint stays_short (st : list bytes) (ops : list strop) : Prop :=
  Forall short st /\
  match ops with
  | [] => True
  | op :: ops => match str_spec_step st op with
                 | None => True
                 | Some (st, _) => stays_short st ops
                 end
  end.
