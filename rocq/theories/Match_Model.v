(** The match statement: the text the parser makes of an arm's patterns
    (src/parser/parser_stmt.c:182-345), the condition generated from that text
    (src/codegen/codegen_stmt.c:13-155, 194-371) and what the generated C does.

    Not modelled: the bodies and bindings of arms, ref bindings (the conditions are the same
    with the matched value behind a pointer), match as part of an expression
    (parser_expr.c:1765-1910: one token per arm, then the same code). *)
From Verif Require Import Common Lexer_Model IntLit_Model Url_Model.
Local Open Scope N_scope.

(** An alternative as tokens: names joined by ::, and the end of a range with whether it is
    included (..=, or else .. or ..<) *)
Record alt := mkalt { path : list bytes; upto : option (bool * bytes) }.
(** An arm: its alternatives, and its guard: None, or the outcome of the condition after
    if *)
Record arm := mkarm { alts : list alt; guard : option bool }.

(** parser_stmt.c:225-256: p_str *)
Fixpoint join (sep : bytes) (l : list bytes) : bytes :=
  match l with
  | [] => []
  | [x] => x
  | x :: l => x ++ sep ++ join sep l
  end.
Definition alt_text (a : alt) : bytes :=
  join (bs "_") (path a) ++
  match upto a with
  | None => []
  | Some (incl, e) => (if incl : bool then bs "..=" else bs "..") ++ e
  end.
(** parser_stmt.c:217-286: strcat into char patterns_buf[1024] *)
Definition pattern_text (l : list alt) : res bytes :=
  let t := join (bs "|") (map alt_text l) in
  if N.of_nat (length t) <? 1024 then Ok t else UB.

(** The generated condition; texts are C expressions *)
Inductive cond :=
| CTrue
| CTag (tag : Z)                        (* _m.tag == tag *)
| CField (some : bool)                  (* _m->is_some, !_m->is_some, ->is_ok *)
| CRange (lo : bytes) (incl : bool) (hi : bytes)
| CStr (text : bytes)                   (* strcmp(_m, text) == 0 *)
| CEq (text : bytes)                    (* _m == text *)
| COr (l : list cond).

(** codegen_stmt.c:13-82 emit_single_pattern_cond *)
Definition single_cond (pat : bytes) : cond :=
  match strstr (bs "..=") pat with
  | Some i => CRange (firstn i pat) true (skipn (i + 3) pat)
  | None =>
    match strstr (bs "..") pat with
    | Some i => CRange (firstn i pat) false (skipn (i + 2) pat)
    | None => match pat with c :: _ => if c =? 34 then CStr pat else CEq pat | [] => CEq pat end
    end
  end.

(** parser_utils.c:850-872: the registered variants, the newest first *)
Definition registry := list (bytes * Z).
Fixpoint find_variant (reg : registry) (p : bytes) : option Z :=
  match reg with
  | [] => None
  | (n, t) :: reg => if beq_bytes n p then Some t else find_variant reg p
  end.
(** Several registrations: parser_struct.c:1189-1192, for one enum: its name, the variants
    in order *)
Fixpoint variants_from (ename : bytes) (tag : Z) (vs : list bytes) : registry :=
  match vs with
  | [] => []
  | v :: vs => (ename ++ bs "_" ++ v, tag) :: variants_from ename (tag + 1) vs
  end.
Definition register (enums : list (bytes * list bytes)) : registry :=
  rev (concat (map (fun e => variants_from (fst e) 0 (snd e)) enums)).

(** strtok_r(., "|", .): the non-empty parts *)
Fixpoint split_bar (b : bytes) : bytes * list bytes :=
  match b with
  | [] => ([], [])
  | c :: b => let '(x, l) := split_bar b in if c =? 124 then ([], x :: l) else (c :: x, l)
  end.
Definition parts (b : bytes) : list bytes :=
  let '(x, l) := split_bar b in filter (fun p => match p with [] => false | _ => true end) (x :: l).

(** codegen_stmt.c:85-150 emit_pattern_condition *)
Definition one_cond (reg : registry) (p : bytes) : cond :=
  match find_variant reg p with Some t => CTag t | None => single_cond p end.
Definition pattern_cond (reg : registry) (p : bytes) : cond :=
  if existsb (N.eqb 124) p then COr (map (one_cond reg) (parts p)) else one_cond reg p.

(** codegen_stmt.c:337-371; tname is the type of the matched expression *)
Definition arm_cond (reg : registry) (tname p : bytes) : cond :=
  if beq_bytes p (bs "_") then CTrue
  else if is_prefix (bs "Option_") tname then
    if beq_bytes p (bs "Some") then CField true else if beq_bytes p (bs "None") then CField false else CTrue
  else if is_prefix (bs "Result_") tname then
    if beq_bytes p (bs "Ok") then CField true else if beq_bytes p (bs "Err") then CField false else CTrue
  else pattern_cond reg p.

(** ** The generated C *)
(** The matched value: an integer, a string, an enum *)
Inductive value := VInt (z : Z) | VStr (b : bytes) | VEnum (tag : Z).

(** How C reads a constant of type int, long or char (C11 6.4.4; 0b is GNU C).  None: C
    rejects the text, or it is not modelled (suffixes, escapes, names, 2^63 and more) *)
Definition digits (base : N) (b : bytes) : option Z :=
  match b with
  | [] => None
  | _ => if forallb (in_base base) b && (accumulate base 0 b <? 2 ^ 63) then Some (Z.of_N (accumulate base 0 b)) else None
  end.
Definition c_const (b : bytes) : option Z :=
  match b with
  | [] => None
  | q :: r =>
    if q =? 39 then
      match r with
      | [c; q'] => if (q' =? 39) && negb (c =? 39) && negb (c =? 92) && (c <? 128) then Some (Z.of_N c) else None
      | _ => None
      end
    else if q =? 48 then
      match r with
      | [] => Some 0%Z
      | c :: b' =>
        if (c =? 120) || (c =? 88) then digits 16 b'
        else if (c =? 98) || (c =? 66) then digits 2 b'
        else digits 8 r
      end
    else digits 10 b
  end.
(** String literals without escapes *)
Definition c_string (b : bytes) : option bytes :=
  match b with
  | q :: r =>
    if (q =? 34) && match rev r with q' :: m => (q' =? 34) && forallb (fun c => negb (c =? 34) && negb (c =? 92) && negb (c =? 10)) m | [] => false end
    then Some (removelast r) else None
  | [] => None
  end.

(** None: the C compiler rejects the condition (or it is not modelled) *)
Fixpoint eval (v : value) (c : cond) : option bool :=
  match c with
  | CTrue => Some true
  | CTag t => match v with VEnum t' => Some (t' =? t)%Z | _ => None end
  | CField _ => None
  | CRange lo incl hi =>
    match v, c_const lo, c_const hi with
    | VInt z, Some a, Some b => Some ((a <=? z)%Z && (if incl then (z <=? b)%Z else (z <? b)%Z))
    | _, _, _ => None
    end
  | CStr t => match v, c_string t with VStr s, Some s' => Some (beq_bytes s s') | _, _ => None end
  | CEq t => match v, c_const t with VInt z, Some a => Some (z =? a)%Z | _, _ => None end
  | COr l =>
    (fix go (l : list cond) : option bool :=
       match l with
       | [] => Some false
       | c :: l => match eval v c, go l with Some a, Some b => Some (a || b) | _, _ => None end
       end) l
  end.

(** if (c0) { ... } else if (c1) { ... } ...: the number of the arm that runs *)
Fixpoint chain (v : value) (cs : list cond) : option (option nat) :=
  match cs with
  | [] => Some None
  | c :: cs =>
    match eval v c, chain v cs with
    | Some b, Some r => Some (if b then Some 0%nat else option_map S r)
    | _, _ => None
    end
  end.

(** The match on a value of type tname; None inside: C rejects it.  The guard of an arm is
    read by the parser and never generated. *)
Fixpoint texts (arms : list arm) : res (list bytes) :=
  match arms with
  | [] => Ok []
  | a :: arms => do t <- pattern_text (alts a); do l <- texts arms; Ok (t :: l)
  end.
Definition run_match (enums : list (bytes * list bytes)) (tname : bytes) (v : value) (arms : list arm) : res (option (option nat)) :=
  do ts <- texts arms;
  Ok (chain v (map (arm_cond (register enums) tname) ts)).
