(** Model of enums: their declaration (parser_struct.c:1088-1261, parser_utils.c:850-872), the C
    type and the constructors generated for them (codegen_decl.c:531-580), and the match
    statement on enum values with bindings (parser_stmt.c:262-345, codegen_stmt.c:84-155,
    280-470).

    A payload is a list of values; several values are one tuple in C.  [Panic]: the C compiler
    rejects the text.  [UB]: the union member read is not the one written (its bytes are taken
    for a value of another type), memory is overwritten, or a variable has no value.
    Simplification: names are identifiers, so the texts of alternatives are kept as a list
    (Match_Model has their text); tags do not overflow; generic enums are not modelled. *)
From Verif Require Import Common.
Local Open Scope Z_scope.

Section Enum.
Variable T : Type.

Record variant := V { vname : bytes; explicit : option Z; payload : nat }.
(** [prefix]: the module the enum is declared in, if it is imported under a name *)
Record enum := E { prefix : option bytes; ename : bytes; variants : list variant }.
Definition under := bs "_".
Definition mangle (e v : bytes) : bytes := e ++ under ++ v.
(** parser_struct.c:1237-1243 *)
Definition c_name (e : enum) : bytes := match prefix e with Some p => p ++ under ++ ename e | None => ename e end.

(** parser_utils.c:850-858: the newest first; the enum, the text of the variant, the tag *)
Definition registry := list (bytes * bytes * Z).
(** parser_struct.c:1110-1228: registered before the explicit value is read (1192, 1213-1218) *)
Fixpoint reg_variants (en : bytes) (v : Z) (l : list variant) (reg : registry) : registry :=
  match l with
  | [] => reg
  | x :: l => reg_variants en (match explicit x with Some k => k + 1 | None => v + 1 end) l ((en, mangle en (vname x), v) :: reg)
  end.
Definition register (es : list enum) : registry := fold_left (fun reg e => reg_variants (ename e) 0 (variants e) reg) es [].
(** parser_utils.c:860-872 *)
Fixpoint find_variant (reg : registry) (p : bytes) : option (bytes * Z) :=
  match reg with
  | [] => None
  | (en, m, tag) :: reg => if beq_bytes m p then Some (en, tag) else find_variant reg p
  end.

(** codegen_decl.c:538-544: the constants of the C enum are numbered from 0 *)
Fixpoint position (l : list variant) (v : bytes) : option (Z * variant) :=
  match l with
  | [] => None
  | x :: l => if beq_bytes (vname x) v then Some (0, x) else match position l v with Some (k, y) => Some (k + 1, y) | None => None end
  end.
(** the C value: the tag, and the member of the union that was written *)
Record value := Val { tag : Z; member : option (bytes * list T) }.
(** codegen_decl.c:557-579: the constructors *)
Definition construct (e : enum) (v : bytes) (args : list T) : res value :=
  match position (variants e) v with
  | None => Panic
  | Some (k, x) => if (length args =? payload x)%nat then Ok (Val k (match args with [] => None | _ => Some (v, args) end)) else Panic
  end.

(** An arm: the wildcard, or alternatives Enum::Variant and how many names are bound *)
Inductive arm := Wild | Pat (alts : list (bytes * bytes)) (binds : nat).

(** codegen_stmt.c:401-409: strrchr *)
Fixpoint until_under (l : bytes) : bytes := match l with [] => [] | c :: l => if (c =? 95)%N then [] else c :: until_under l end.
Definition suffix (p : bytes) : bytes := rev (until_under (rev p)).

(** codegen_stmt.c:411-446 with the union of codegen_decl.c:545-556 *)
Definition member_ok (e : enum) (m : bytes) (binds : nat) : bool :=
  match position (variants e) m with
  | Some (_, x) => (0 <? payload x)%nat && ((binds =? 1)%nat || ((2 <=? payload x)%nat && (binds <=? payload x)%nat))
  | None => false
  end.
Definition arm_compiles (reg : registry) (e : enum) (a : arm) : res unit :=
  match a with
  | Wild => Ok tt
  | Pat alts binds =>
    if forallb (fun a => match find_variant reg (mangle (fst a) (snd a)) with Some _ => true | None => false end) alts then
      match binds with
      | O => Ok tt
      | _ => match alts with
             | [(en, v)] => if (8 <? binds)%nat then UB else if member_ok e (suffix (mangle en v)) binds then Ok tt else Panic
             | _ => Panic
             end
      end
    else Panic
  end.
Fixpoint all_compile (reg : registry) (e : enum) (l : list arm) : res unit :=
  match l with [] => Ok tt | a :: l => do _ <- arm_compiles reg e a; all_compile reg e l end.
(** codegen_stmt.c:88-155, 334-336 *)
Definition fits (reg : registry) (v : value) (a : arm) : bool :=
  match a with
  | Wild => true
  | Pat alts _ => existsb (fun a => match find_variant reg (mangle (fst a) (snd a)) with Some (_, k) => tag v =? k | None => false end) alts
  end.
(** the values bound: each is one value, or a whole tuple *)
Definition bind_values (v : value) (a : arm) : res (list (list T)) :=
  match a with
  | Wild | Pat _ 0 => Ok []
  | Pat alts binds =>
    match alts, member v with
    | (en, x) :: _, Some (m, xs) =>
      if beq_bytes m (suffix (mangle en x)) then Ok (if (binds =? 1)%nat then [xs] else map (fun x => [x]) (firstn binds xs)) else UB
    | _, _ => UB
    end
  end.
Fixpoint select (reg : registry) (v : value) (k : nat) (l : list arm) : res (option (nat * list (list T))) :=
  match l with
  | [] => Ok None
  | a :: l => if fits reg v a then do b <- bind_values v a; Ok (Some (k, b)) else select reg v (S k) l
  end.
Definition run_match (es : list enum) (e : enum) (arms : list arm) (v : value) : res (option (nat * list (list T))) :=
  do _ <- all_compile (register es) e arms; select (register es) v 0 arms.
(** codegen_stmt.c:272-275, 495-498: used for its value, _r has none if no arm ran *)
Definition run_match_expr (es : list enum) (e : enum) (arms : list arm) (v : value) : res (nat * list (list T)) :=
  do r <- run_match es e arms v; match r with Some x => Ok x | None => UB end.

(** codegen_stmt.c:280-326: the variants reported as missing *)
Definition text (a : arm) : bytes :=
  match a with
  | Wild => under
  | Pat alts _ => match map (fun a => mangle (fst a) (snd a)) alts with [] => [] | t :: l => fold_left (fun s u => s ++ bs "|" ++ u) l t end
  end.
Fixpoint matched_enum (reg : registry) (l : list arm) : option bytes :=
  match l with
  | [] => None
  | a :: l => if beq_bytes (text a) under then matched_enum reg l
              else match find_variant reg (text a) with Some (en, _) => Some en | None => matched_enum reg l end
  end.
Definition warnings (es : list enum) (arms : list arm) : list bytes :=
  let reg := register es in
  match matched_enum reg arms with
  | None => []
  | Some en =>
    if existsb (fun a => beq_bytes (text a) under) arms then []
    else map (fun r => snd (fst r)) (filter (fun r => beq_bytes (fst (fst r)) en && negb (existsb (fun a => beq_bytes (text a) (snd (fst r))) arms)) reg)
  end.
End Enum.
Arguments Val {T}. Arguments tag {T}. Arguments member {T}.
