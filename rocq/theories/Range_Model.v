(** Range loops and repeat (src/parser/parser_stmt.c:1186-1262 parse_for, 542-552 parse_repeat;
    src/codegen/codegen_stmt.c:1319-1378).  The generated C loop is run by C's rules for
    integers of 8 to 64 bits; converting to a signed type that is too small wraps, as gcc and
    clang define it.  The body and the bounds are parameters. *)
From Verif Require Import Common.
Local Open Scope Z_scope.

(** An integer type of C *)
Inductive width := W8 | W16 | W32 | W64.
Record cty := mkty { is_signed : bool; size : width }.
Definition bits (t : cty) : Z := match size t with W8 => 8 | W16 => 16 | W32 => 32 | W64 => 64 end.
Definition lo (t : cty) : Z := if is_signed t then - 2 ^ (bits t - 1) else 0.
Definition hi (t : cty) : Z := if is_signed t then 2 ^ (bits t - 1) - 1 else 2 ^ bits t - 1.
Definition c_int : cty := mkty true W32.

(** C conversion of an integer value to [t] *)
Definition convert (t : cty) (z : Z) : Z := (z - lo t) mod 2 ^ bits t + lo t.
(** Integer promotion and the usual arithmetic conversions *)
Definition promote (t : cty) : cty := if bits t <? 32 then c_int else t.
Definition common (t u : cty) : cty :=
  let t := promote t in let u := promote u in
  if bits t <? bits u then u
  else if bits u <? bits t then t
  else mkty (is_signed t && is_signed u) (size t).
(** The result [z] of an arithmetic operation carried out in [t] *)
Definition arith (t : cty) (z : Z) : res Z :=
  if is_signed t then (if (lo t <=? z) && (z <=? hi t) then Ok z else UB) else Ok (convert t z).

(** The step as written: one token, or a minus sign and one token; [stype] and [sval] are the type
    and the value of the token. *)
Record step := mkstep { dash : bool; stype : cty; sval : Z }.

(** codegen_stmt.c:1344-1366: the comparison is chosen by the first character of the
    step's text. *)
Definition down (st : option step) : bool := match st with Some s => dash s | None => false end.
Definition test (st : option step) (incl : bool) (ti te : cty) (i e : Z) : bool :=
  let c := common ti te in
  let x := convert c i in let y := convert c e in
  if down st then (if incl then y <=? x else y <? x)
  else (if incl then x <=? y else x <? y).

(** codegen_stmt.c:1367-1376: [i += step] or [i++] *)
Definition advance (st : option step) (ti : cty) (i : Z) : res Z :=
  match st with
  | None => do r <- arith (promote ti) (i + 1); Ok (convert ti r)
  | Some s =>
    do k <- (if dash s then arith (promote (stype s)) (- sval s) else Ok (sval s));
    let tk := if dash s then promote (stype s) else stype s in
    let c := common ti tk in
    do r <- arith c (convert c i + convert c k); Ok (convert ti r)
  end.

(** What a body does: go on with the loop or leave it. *)
Inductive ctl (S : Type) := Next (s : S) | Break (s : S).
Arguments Next {S}. Arguments Break {S}.

Section Loop.
  Variable S : Type.
  Variable body : Z -> S -> res (ctl S).
  (** the end of the range, evaluated in the state it is reached in *)
  Variable stop : S -> Z.

  (** codegen_stmt.c:1327-1378 NODE_FOR_RANGE: [for (auto i = start; i < stop; i++) body];
      [ti] and [te] are the types of the start and of the end.  The body does not assign to
      the variable. *)
  Fixpoint for_loop (fuel : nat) (st : option step) (incl : bool) (ti te : cty) (i : Z) (s : S) : res S :=
    match fuel with
    | O => Fuel
    | Datatypes.S fuel =>
      if test st incl ti te i (stop s) then
        do c <- body i s;
        match c with
        | Break s' => Ok s'
        | Next s' => do i' <- advance st ti i; for_loop fuel st incl ti te i' s'
        end
      else Ok s
    end.

  (** codegen_stmt.c:1319-1325 NODE_REPEAT: [for (int _rpt_i = 0; _rpt_i < (count); _rpt_i++)] *)
  Definition repeat_loop (fuel : nat) (te : cty) (s : S) : res S := for_loop fuel None false c_int te 0 s.
End Loop.
Arguments for_loop {S}. Arguments repeat_loop {S}.
