(** Model of src/zen/zen_facts.c: the tips shown while compiling.
    Simplified: the file of facts is given as the members of its entries that are strings (None: no file, or no array
    in it; its text is C97); what rand gives is part of the event; a tip is kept as its place, its text and its address
    (the lines written for a place are those of C119). *)
From Verif Require Import Common.
Local Open Scope nat_scope.

(** ZenTrigger, zen_facts.h 12-27 *)
Inductive trigger := Goto | PointerArith | Bitwise | Recursion | Ternary | Asm | WhileTrue | Macro | VoidPtr | Main | FormatString | StructPadding | Global.
Definition same (a b : trigger) : bool :=
  match a, b with
  | Goto, Goto | PointerArith, PointerArith | Bitwise, Bitwise | Recursion, Recursion | Ternary, Ternary | Asm, Asm | WhileTrue, WhileTrue
  | Macro, Macro | VoidPtr, VoidPtr | Main, Main | FormatString, FormatString | StructPadding, StructPadding | Global, Global => true
  | _, _ => false
  end.
(** map_trigger_name, 25-80 *)
Definition of_name (n : bytes) : trigger :=
  if beq_bytes n (bs "TRIGGER_GOTO") then Goto
  else if beq_bytes n (bs "TRIGGER_POINTER_ARITH") then PointerArith
  else if beq_bytes n (bs "TRIGGER_BITWISE") then Bitwise
  else if beq_bytes n (bs "TRIGGER_RECURSION") then Recursion
  else if beq_bytes n (bs "TRIGGER_TERNARY") then Ternary
  else if beq_bytes n (bs "TRIGGER_ASM") then Asm
  else if beq_bytes n (bs "TRIGGER_WHILE_TRUE") then WhileTrue
  else if beq_bytes n (bs "TRIGGER_MACRO") then Macro
  else if beq_bytes n (bs "TRIGGER_VOID_PTR") then VoidPtr
  else if beq_bytes n (bs "TRIGGER_MAIN") then Main
  else if beq_bytes n (bs "TRIGGER_FORMAT_STRING") then FormatString
  else if beq_bytes n (bs "TRIGGER_STRUCT_PADDING") then StructPadding
  else Global.
Record entry := Ent { e_trigger : option bytes; e_message : option bytes; e_url : option bytes }.
Record fact := Fact { trig : trigger; message : option bytes; url : option bytes }.
(** load_facts, 82-165: calloc makes a missing trigger the first one *)
Definition fact_of (e : entry) : fact := Fact (match e_trigger e with Some n => of_name n | None => Goto end) (e_message e) (e_url e).

Record tip := Tip { place : option (nat * nat); said : bytes; link : option bytes }.
Record config := Cfg { quiet : bool; no_zen : bool; json : bool }.
Record st := St { tips : list tip; has : bool; warnings : nat }.
(** a trigger at a line and column, with the two numbers rand gives; the end of the build; a warning that is counted *)
Inductive event := At (t : trigger) (line col : nat) (d1 d2 : nat) | Finish (tty : bool) (d1 d2 : nat) | Warning.
Section Run.
Variable c : config.
Variable file : option (list entry).
(** 229-268 and 292-331, with zzen_at, 174-209 *)
Definition choose (t : trigger) (where_ : option (nat * nat)) (d1 d2 : nat) (s : st) : res st :=
  if has s then Ok s
  else if 0 <? warnings s then Ok s
  else if 10 <=? d1 mod 100 then Ok s
  else match file with
       | None => Ok s
       | Some l =>
         let matches := firstn 10 (filter (fun f => same (trig f) t) (map fact_of l)) in
         match nth_error matches (d2 mod length matches) with
         | None => Ok s
         | Some f => match message f with None => UB | Some m => Ok (St (tips s ++ [Tip where_ m (url f)]) true (warnings s)) end
         end
       end.
(** zen_trigger_at, 211-269; zen_trigger_global, 271-332 *)
Definition step (e : event) (s : st) : res st :=
  match e with
  | At t l k d1 d2 => if quiet c || no_zen c then Ok s else choose t (Some (l, k)) d1 d2 s
  | Finish tty d1 d2 => if quiet c || no_zen c then Ok s else if negb tty then Ok s else choose Global None d1 d2 s
  | Warning => Ok (St (tips s) (has s) (S (warnings s)))
  end.
Fixpoint run (l : list event) (s : st) : res st := match l with [] => Ok s | e :: l => do s <- step e s; run l s end.
End Run.
Definition clean : st := St [] false 0.
