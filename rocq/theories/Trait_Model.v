(** Model of traits: the parameter text of a method (parser_utils.c:3942-4238), the function
    that a trait object's method call goes through (codegen_decl.c:611-735, with
    extract_call_args and parse_original_method_name, codegen_utils.c:654-715), the table of
    each implementation (codegen_decl.c:996-1133) and the making of a trait object
    (parser_decl.c:753-770, parser_expr.c:3016-3125).

    Simplifications: no generic traits or structs, no default or variable arguments, no
    function-pointer parameters and no @ctype; method bodies are numbers; a method is called
    with values for its parameters other than self. *)
From Verif Require Import Common.
Local Open Scope nat_scope.

Record param := { ptype : bytes; pname : bytes }.
Definition self_text : bytes := bs "void* self".
(** A method of a trait: does it start with self, its other parameters, does it return Self *)
Record method := { mname : bytes; mself : bool; mparams : list param; mreturns_self : bool }.

(** parser_utils.c:3952-4175: 1024 bytes of text, 16 parameters *)
Definition cat (s t : bytes) : res bytes := if length s + length t <? 1024 then Ok (s ++ t) else UB.
Fixpoint params_loop (ps : list param) (count : nat) (buf : bytes) : res bytes :=
  match ps with
  | [] => Ok buf
  | p :: ps =>
    if count <? 16 then
      do buf <- (if 0 <? length buf then cat buf (bs ", ") else Ok buf);
      do buf <- cat buf (ptype p); do buf <- cat buf (bs " "); do buf <- cat buf (pname p);
      params_loop ps (S count) buf
    else UB
  end.
Definition args_text (m : method) : res bytes :=
  if mself m then do buf <- cat [] self_text; params_loop (mparams m) 1 buf
  else params_loop (mparams m) 0 [].

(** strstr *)
Fixpoint contains (needle hay : bytes) : bool :=
  is_prefix needle hay || match hay with [] => false | _ :: hay => contains needle hay end.
(** strchr, giving what follows *)
Fixpoint after (c : N) (l : bytes) : option bytes :=
  match l with [] => None | x :: l => if (x =? c)%N then Some l else after c l end.
(** strtok(..., ","): the runs of other characters *)
Fixpoint tok (l : bytes) (cur : bytes) : list bytes :=
  match l with
  | [] => match cur with [] => [] | _ => [cur] end
  | c :: l => if (c =? ch ",")%N then match cur with [] => tok l [] | _ => cur :: tok l [] end else tok l (cur ++ [c])
  end.
Fixpoint skip_spaces (l : bytes) : bytes :=
  match l with c :: l' => if (c =? 32)%N then skip_spaces l' else l | [] => [] end.
(** codegen_utils.c:671-682: what follows the last space or star *)
Fixpoint last_word (l : bytes) (cur : bytes) : bytes :=
  match l with
  | [] => cur
  | c :: l => if (c =? 32)%N || (c =? ch "*")%N then last_word l [] else last_word l (cur ++ [c])
  end.
Fixpoint join_names (l : list bytes) (out : bytes) : bytes :=
  match l with
  | [] => out
  | n :: l => join_names l ((if 0 <? length out then out ++ bs ", " else out) ++ n)
  end.
(** codegen_utils.c:654-694 *)
Definition extract_call_args (args : bytes) : bytes :=
  join_names (map (fun p => last_word (skip_spaces p) []) (tok args [])) [].

(** codegen_utils.c:697-715: what follows the last pair of underscores *)
Fixpoint original_name_loop (fuel : nat) (p : bytes) (best : bytes) : bytes :=
  match fuel with
  | 0 => best
  | S fuel =>
    match p with
    | [] => best
    | _ :: p' => if is_prefix (bs "__") p then original_name_loop fuel (skipn 2 p) (skipn 2 p) else original_name_loop fuel p' best
    end
  end.
Definition original_name (n : bytes) : bytes := original_name_loop (length n) n n.

(** codegen_decl.c:686-726: the call in the function Trait__m of a trait object *)
Definition wrapper_call (m : method) (args : bytes) : bytes :=
  let call_args := extract_call_args args in
  bs "self->vtable->" ++ original_name (mname m) ++ bs "(self->self"
  ++ (if contains (bs "self") args
      then match after (ch ",") call_args with Some rest => bs ", " ++ rest | None => [] end
      else if 0 <? length call_args then bs ", " ++ call_args else [])
  ++ bs ")".

(** An implementation of a trait for a struct, with the bodies of its methods *)
Record impl := { istruct : bytes; itrait : bytes; imethods : list (bytes * nat) }.
(** codegen_decl.c:1102, 1121; parser_struct.c:408 *)
Definition table_symbol (s t : bytes) : bytes := s ++ bs "_" ++ t ++ bs "_VTable".
Definition function_symbol (s t m : bytes) : bytes := s ++ bs "__" ++ t ++ bs "_" ++ m.

(** The table of an implementation: for each method, the symbol of its function *)
Definition slots (i : impl) : list (bytes * bytes) :=
  map (fun m => (fst m, function_symbol (istruct i) (itrait i) (fst m))) (imethods i).
(** codegen_decl.c:996-1133; [emitted]: the pairs already seen, at most 1024 *)
Fixpoint emit_tables (prog : list impl) (emitted : list (bytes * bytes)) : res (list (bytes * list (bytes * bytes))) :=
  match prog with
  | [] => Ok []
  | i :: prog =>
    if existsb (fun e => beq_bytes (fst e) (itrait i) && beq_bytes (snd e) (istruct i)) emitted then emit_tables prog emitted
    else if length emitted <? 1024 then
      do rest <- emit_tables prog (emitted ++ [(itrait i, istruct i)]);
      Ok (if beq_bytes (itrait i) (bs "Copy") then rest else (table_symbol (istruct i) (itrait i), slots i) :: rest)
    else UB
  end.
(** The functions of a program *)
Definition functions (prog : list impl) : list (bytes * nat) :=
  flat_map (fun i => map (fun m => (function_symbol (istruct i) (itrait i) (fst m), snd m)) (imethods i)) prog.

Fixpoint find {A} (k : bytes) (l : list (bytes * A)) : option A :=
  match l with [] => None | (k', v) :: l => if beq_bytes k' k then Some v else find k l end.

(** o.m(vals), where o was made from a struct of type [s] for the trait [t]: the body that
    runs.  The object holds &s_t_VTable; its slot is null if nothing initialized it; a slot
    whose function takes or returns other things than the trait says is called with the
    wrong type. *)
Definition call (prog : list impl) (s t : bytes) (m : method) : res nat :=
  do tables <- emit_tables prog [];
  match find (table_symbol s t) tables with
  | None => Panic                                    (* no such table: the C compiler stops *)
  | Some table =>
    match find (mname m) table with
    | None => UB                                     (* a null function *)
    | Some f =>
      if mreturns_self m then UB                     (* struct returned as a pointer *)
      else if negb (mself m) then UB                 (* the object passed as the first parameter *)
      else match find f (functions prog) with Some b => Ok b | None => Panic end
    end
  end.
