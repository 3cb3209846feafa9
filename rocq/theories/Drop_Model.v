(** Model of the propagation of the Drop trait and of the drop glue:
    src/parser/parser_utils.c:4387-4420 (propagate_drop_traits),
    src/codegen/codegen_main.c:298-336 (emit_auto_drop_glues).

    A definition is identified by a number.  [lookup] stands for find_struct_def
    (parser_utils.c:1071-1126) and for find_struct_def_codegen: a function from names to
    definitions that the propagation does not change.  The has_drop flags are the list of
    the definitions whose flag is set.
    Simplification: every definition has a type_info, every field a type. *)
From Verif Require Import Common.
Local Open Scope nat_scope.

(** ast.h, the kinds of type that matter here *)
Inductive fty :=
| TStruct (name : bytes)
| TArray (elem : fty)
| TPointer (to : fty)
| TOther.

Record sdef := SDef { s_id : nat; s_fields : list (bytes * fty) }.

Section Drop.
Variable lookup : bytes -> option nat.
Variable parsed : list sdef.       (* ctx->parsed_structs_list *)

Definition has_drop (marks : list nat) (x : nat) : bool := existsb (Nat.eqb x) marks.
(** parser_utils.c:4403-4406: one field *)
Definition field_drops (marks : list nat) (ft : fty) : bool :=
  match ft with
  | TStruct name => match lookup name with Some y => has_drop marks y | None => false end
  | _ => false
  end.
(** parser_utils.c:4396-4416: one struct of the list *)
Definition visit (st : list nat * bool) (s : sdef) : list nat * bool :=
  let '(marks, changed) := st in
  if has_drop marks (s_id s) then st
  else if existsb (fun f => field_drops marks (snd f)) (s_fields s) then (s_id s :: marks, true)
  else st.
(** parser_utils.c:4389-4419 *)
Fixpoint propagate (fuel : nat) (marks : list nat) : res (list nat) :=
  match fuel with
  | O => Fuel
  | S k => let '(marks', changed) := fold_left visit parsed (marks, false) in
           if changed then propagate k marks' else Ok marks'
  end.
End Drop.

(** codegen_main.c:298-336: the body of the glue of one struct, as the calls it makes, in
    order: the user's drop (if there is one, check_impl), then the glue of each field whose
    definition has the flag *)
Inductive call := CUser | CField (name : bytes) (def : nat).
Definition glue_body (lookup : bytes -> option nat) (marks : list nat) (manual : nat -> bool) (s : sdef) : list call :=
  (if manual (s_id s) then [CUser] else []) ++
  flat_map (fun f => match snd f with
     | TStruct name => match lookup name with
        | Some y => if has_drop marks y then [CField (fst f) y] else []
        | None => [] end
     | _ => [] end) (s_fields s).

(** Running the glue: [defs] gives the definition of each number; the result is the list of
    user drops that run, each with the path of field names to the object it runs on *)
Fixpoint run_glue (lookup : bytes -> option nat) (defs : nat -> option sdef) (marks : list nat) (manual : nat -> bool)
    (fuel : nat) (x : nat) (path : list bytes) : res (list (nat * list bytes)) :=
  match fuel with
  | O => Fuel
  | S k =>
    match defs x with
    | None => Panic               (* an undefined C function *)
    | Some s =>
      (fix go (cs : list call) : res (list (nat * list bytes)) :=
         match cs with
         | [] => Ok []
         | CUser :: cs' => do r <- go cs'; Ok ((x, path) :: r)
         | CField n y :: cs' =>
             do a <- run_glue lookup defs marks manual k y (path ++ [n]);
             do r <- go cs'; Ok (a ++ r)
         end) (glue_body lookup marks manual s)
    end
  end.
