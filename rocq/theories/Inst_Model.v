(** Model of the instantiation of generic structs: src/parser/parser_utils.c:1367-1573
    (replace_type_str), 1578-1698 (type_from_string_helper), 1700-1845 (replace_type_formal),
    2256-2288 (unmangle_ptr_suffix), 2871-2878 (register_template), 2880-2981
    (copy_fields_replacing), 3095-3252 (instantiate_generic, for structs);
    src/parser/parser_type.c:527-690 (the reading of a type with one argument);
    src/parser/parser_struct.c:795-835, 970-1066 (the reading of a struct).

    Texts are lists of bytes without NUL.  Simplifications: templates have one parameter and
    no methods; fields have no bit width and are not embedded structs; types are primitives,
    names, pointers and templates with one argument (no arrays, functions, explicit [struct]);
    there is no module prefix and no import; the buffers p_suffix and c_suffix of 1024 bytes
    are not modelled, the buffers m and mangled of 256 bytes are: a name that does not fit is
    [UB].  Memory is never reclaimed (zprep.h:17).  "Unknown generic" is [Panic]. *)
From Verif Require Import Common Mangle_Model.
Local Open Scope nat_scope.

(** A type as written *)
Inductive sty :=
| SPrim (s c : bytes)     (* a primitive, as type_to_string and type_to_c_string print it *)
| SName (n : bytes)       (* a struct, or a parameter *)
| SPtr (t : sty)
| SApp (g : bytes) (t : sty).
(** A type as the parser represents it *)
Inductive fty := FPrim (s c : bytes) | FName (n : bytes) | FPtr (t : fty).

(** src/ast/ast.c:240-475 (type_to_string) and 600-755 (type_to_c_string) *)
Fixpoint to_str (t : fty) : bytes :=
  match t with FPrim s _ => s | FName n => n | FPtr t => to_str t ++ [42%N] end.
Fixpoint to_c (t : fty) : bytes :=
  match t with FPrim _ c => c | FName n => n | FPtr t => to_c t ++ [42%N] end.

Definition ends_with (suf s : bytes) : bool :=
  (length suf <=? length s) && beq_bytes (skipn (length s - length suf) s) suf.
Definition strip (suf s : bytes) : bytes := firstn (length s - length suf) s.

(** parser_utils.c:168-188 *)
Definition is_prim (s : bytes) : bool :=
  existsb (beq_bytes s)
    [bs "int"; bs "i32"; bs "u8"; bs "i8"; bs "i16"; bs "u16"; bs "u32"; bs "i64"; bs "u64"; bs "f32"; bs "float";
     bs "f64"; bs "double"; bs "void"; bs "bool"; bs "char"; bs "usize"; bs "isize"; bs "uint"; bs "byte"; bs "int8_t";
     bs "uint8_t"; bs "int16_t"; bs "uint16_t"; bs "int32_t"; bs "uint32_t"; bs "int64_t"; bs "uint64_t"; bs "size_t"; bs "ptrdiff_t"].
(** parser_utils.c:2256-2288 *)
Definition unmangle (s : bytes) : bytes :=
  if (length s <=? 3) || negb (ends_with (bs "Ptr") s) then s
  else if is_prim (strip (bs "Ptr") s) then strip (bs "Ptr") s ++ [42%N] else s.

(** 1602-1693: the names of primitives *)
Definition helper_prim (s : bytes) : bool :=
  existsb (beq_bytes s)
    [bs "int"; bs "float"; bs "void"; bs "string"; bs "bool"; bs "char"; bs "I8"; bs "i8"; bs "U8"; bs "u8"; bs "I16"; bs "i16";
     bs "U16"; bs "u16"; bs "I32"; bs "i32"; bs "int32_t"; bs "U32"; bs "u32"; bs "uint32_t"; bs "I64"; bs "i64"; bs "int64_t";
     bs "U64"; bs "u64"; bs "uint64_t"; bs "f32"; bs "double"; bs "f64"; bs "I128"; bs "i128"; bs "U128"; bs "u128"; bs "rune";
     bs "uint"; bs "byte"; bs "usize"; bs "isize"].
(** 1578-1698.  The spelling of the primitive is not kept apart: it is not printed *)
Fixpoint from_str (fuel : nat) (c : bytes) : fty :=
  match fuel with
  | 0 => FName c
  | S fuel =>
    if ends_with [42%N] c then FPtr (from_str fuel (strip [42%N] c))
    else if is_prefix (bs "struct ") c then FName (sanitize (skipn 7 c))
    else if helper_prim c then FPrim c c
    else FName (sanitize c)
  end.

(** 1367-1573, without old_struct and new_struct; the text has no brackets.  The recursion is
    on a shorter text each time: [fuel] is its length *)
Fixpoint replace_str (fuel : nat) (src p c : bytes) : bytes :=
  if beq_bytes src p then c                                             (* 1462-1466 *)
  else if ends_with (95%N :: p) src then                                (* 1484-1530 *)
    strip (95%N :: p) src ++ 95%N :: sanitize c
  else
    match fuel with
    | 0 => src
    | S fuel =>
      let star :=                                                       (* 1532-1550 *)
        if (1 <? length src) && ends_with [42%N] src then
          let base := strip [42%N] src in
          let nb := replace_str fuel base p c in
          if beq_bytes nb base then None else Some (nb ++ [42%N])
        else None in
      match star with
      | Some r => r
      | None =>
        if is_prefix (bs "Slice_") src then                             (* 1552-1567 *)
          let base := skipn 6 src in
          let nb := replace_str fuel base p c in
          if beq_bytes nb base then src else bs "Slice_" ++ nb
        else src
      end
    end.
(** 1700-1845 *)
Fixpoint replace_formal (t : fty) (p c : bytes) : fty :=
  match t with
  | FPrim s x => FPrim s x
  | FName n =>
    if beq_bytes n p then from_str (S (length c)) c                     (* 1747-1750 *)
    else if ends_with (95%N :: p) n then FName (strip (95%N :: p) n ++ 95%N :: sanitize c)
    else FName n
  | FPtr t => FPtr (replace_formal t p c)
  end.

Record template := Template { t_name : bytes; t_param : bytes; t_fields : list (bytes * fty) }.
(** The list of instances (newest first), and the structs to be emitted (newest first): the
    name and, for each field, its name and the text of its type *)
Record state := St { s_insts : list bytes; s_structs : list (bytes * list (bytes * bytes)) }.

(** strchr, strrchr and the cut at the first star *)
Definition mem (c : N) (s : bytes) : bool := existsb (N.eqb c) s.
Fixpoint rsplit (s : bytes) : option (bytes * bytes) :=
  match s with
  | [] => None
  | c :: r => match rsplit r with
              | Some (a, b) => Some (c :: a, b)
              | None => if (c =? 95)%N then Some ([], r) else None
              end
  end.
Fixpoint before_star (s : bytes) : bytes :=
  match s with [] => [] | c :: r => if (c =? 42)%N then [] else c :: before_star r end.

Definition find_template (tpls : list template) (g : bytes) : option template :=
  find (fun t => beq_bytes (t_name t) g) tpls.
(** 2895-2939: the template and the argument guessed from the text of the field *)
Definition guess_text (tpls : list template) (text : bytes) : option (bytes * bytes) :=
  match rsplit text with
  | Some ([], _) | None => None
  | Some _ =>
    match rsplit (before_star text) with
    | Some (g, a) => if find_template tpls g then Some (g, a) else None
    | None => None
    end
  end.
(** 2941-2977: those guessed from a pointer to a struct *)
Definition guess_formal (tpls : list template) (t : fty) : option (bytes * bytes) :=
  match t with
  | FPtr (FName n) =>
    if mem 95 n then
      match find (fun t => is_prefix (t_name t ++ [95%N]) n) tpls with
      | Some t => Some (t_name t, skipn (length (t_name t) + 1) n)
      | None => None
      end
    else None
  | _ => None
  end.

Definition opt_inst (inst : state -> bytes -> bytes -> bytes -> res state) (st : state) (o : option (bytes * bytes)) : res state :=
  match o with Some (g, a) => inst st g a (unmangle a) | None => Ok st end.
(** 2880-2981 *)
Fixpoint copy_fields (inst : state -> bytes -> bytes -> bytes -> res state) (tpls : list template) (p c : bytes)
    (st : state) (fs : list (bytes * fty)) : res (state * list (bytes * bytes)) :=
  match fs with
  | [] => Ok (st, [])
  | (f, t) :: fs' =>
    let text := replace_str (length (to_c t)) (to_c t) p c in
    do st1 <- opt_inst inst st (guess_text tpls text);
    do st2 <- opt_inst inst st1 (guess_formal tpls (replace_formal t p c));
    do '(st3, r) <- copy_fields inst tpls p c st2 fs';
    Ok (st3, (f, text) :: r)
  end.

(** 3100-3107: taken to be a parameter *)
Definition placeholder (a : bytes) : bool :=
  match a with [c] => ((65 <=? c) && (c <=? 90))%N | _ => false end.
(** 3095-3252 *)
Fixpoint inst_generic (fuel : nat) (tpls : list template) (st : state) (g a un : bytes) : res state :=
  match fuel with
  | 0 => Fuel
  | S fuel =>
    if placeholder a then Ok st
    else
      do m <- mangled g [a];
      if existsb (beq_bytes m) (s_insts st) then Ok st                  (* 3114-3122 *)
      else match find_template tpls g with
           | None => Panic
           | Some t =>
             do '(st1, fs) <- copy_fields (inst_generic fuel tpls) tpls (t_param t) un
                                (St (m :: s_insts st) (s_structs st)) (t_fields t);
             Ok (St (s_insts st1) ((m, fs) :: s_structs st1))           (* 3234-3240 *)
           end
  end.

(** parser_type.c:553-690; [known] are the parameters in scope *)
Fixpoint read_type (fuel : nat) (tpls : list template) (known : list bytes) (st : state) (t : sty) : res (state * fty) :=
  match t with
  | SPrim s c => Ok (st, FPrim s c)
  | SName n => Ok (st, FName n)
  | SPtr t => do '(st, f) <- read_type fuel tpls known st t; Ok (st, FPtr f)
  | SApp g t =>
    do '(st, f) <- read_type fuel tpls known st t;
    let a := to_str f in
    do st <- (if existsb (beq_bytes a) known then Ok st else inst_generic fuel tpls st g a a);
    do m <- mangled g [a];                                              (* 674-677: char mangled[256] *)
    Ok (st, FName m)
  end.
Fixpoint read_fields (fuel : nat) (tpls : list template) (known : list bytes) (st : state) (fs : list (bytes * sty))
  : res (state * list (bytes * fty)) :=
  match fs with
  | [] => Ok (st, [])
  | (f, t) :: fs' =>
    do '(st, ft) <- read_type fuel tpls known st t;
    do '(st, r) <- read_fields fuel tpls known st fs';
    Ok (st, (f, ft) :: r)
  end.

(** parser_struct.c:795-1066: a struct with or without a parameter; any other use of a type *)
Inductive item :=
| ITemplate (name param : bytes) (fields : list (bytes * sty))
| IStruct (name : bytes) (fields : list (bytes * sty))
| IUse (t : sty).
(** The templates (newest first), the instances, the other structs (newest first) *)
Record prog := Prog { p_tpls : list template; p_st : state; p_plain : list (bytes * list (bytes * bytes)) }.
Definition run_item (fuel : nat) (pr : prog) (i : item) : res prog :=
  match i with
  | ITemplate n p fs =>
    do '(st, ffs) <- read_fields fuel (p_tpls pr) [p] (p_st pr) fs;
    Ok (Prog (Template n p ffs :: p_tpls pr) st (p_plain pr))
  | IStruct n fs =>
    do '(st, ffs) <- read_fields fuel (p_tpls pr) [] (p_st pr) fs;
    Ok (Prog (p_tpls pr) st ((n, map (fun '(f, t) => (f, to_c t)) ffs) :: p_plain pr))
  | IUse t =>
    do '(st, _) <- read_type fuel (p_tpls pr) [] (p_st pr) t;
    Ok (Prog (p_tpls pr) st (p_plain pr))
  end.
Fixpoint run_items (fuel : nat) (pr : prog) (l : list item) : res prog :=
  match l with [] => Ok pr | i :: l' => do pr' <- run_item fuel pr i; run_items fuel pr' l' end.
(** codegen_main.c:381-420: the structs written to the output *)
Definition output (pr : prog) : list (bytes * list (bytes * bytes)) := s_structs (p_st pr) ++ p_plain pr.
Definition compile (fuel : nat) (l : list item) : res (list (bytes * list (bytes * bytes))) :=
  do pr <- run_items fuel (Prog [] (St [] []) []) l; Ok (output pr).
