(** Conditional compilation with @cfg: the condition made of the attributes
    (src/parser/parser_core.c:248-504, 925-946) and the #if lines around declarations
    (src/codegen/codegen_decl.c:247-310, 421-584, 609-740, 747-795, 798-990, 1136-1168;
    src/codegen/codegen_main.c:365-806). *)
From Verif Require Import Common.

(** Tokens of an attribute; an identifier has a text. *)
Inductive ztok := ZAt | ZId (n : bytes) | ZLp | ZRp | ZComma | ZOther.
(** The condition, as the C preprocessing tokens of the text written with sprintf;
    [Tdef n] is [defined(n)]. *)
Inductive ptok := Tdef (n : bytes) | Tbang | Tand | Tor | Tlp | Trp.

(** parser_core.c:268-281 and the like: the first condition, or "%s && ..." *)
Definition add_cond (op : ptok) (cond : option (list ptok)) (c : list ptok) : option (list ptok) :=
  match cond with None => Some c | Some old => Some (old ++ op :: c) end.

(** parser_core.c:295-353 and 401-459: the list inside any(...) or all(...).  [t] is the token the
    code tests where it means the one just read: the loop over attributes runs while it is the @
    sign. *)
Fixpoint list_loop (fuel : nat) (t : ztok) (op : ptok) (cond : option (list ptok)) (toks : list ztok) : res (option (list ptok) * list ztok) :=
  match fuel with
  | O => Fuel
  | S fuel =>
    let next (cond : option (list ptok)) (r : list ztok) :=
      match r with
      | ZComma :: r' => list_loop fuel t op cond r'
      | ZRp :: r' => Ok (cond, r')
      | _ => Panic
      end in
    let plain (r : list ztok) :=
      match t with
      | ZId m => next (add_cond op cond [Tdef m]) r
      | _ => Panic
      end in
    match toks with
    | ZId n :: r =>
      if beq_bytes n (bs "not") then
        match r with
        | ZLp :: ZId m :: ZRp :: r' => next (add_cond op cond [Tbang; Tdef m]) r'
        | _ => Panic
        end
      else plain r
    | _ :: r => plain r
    | [] => Panic
    end
  end.

(** parser_core.c:248-504: one @cfg attribute, from behind its name *)
Definition cfg_attr (t : ztok) (cond : option (list ptok)) (toks : list ztok) : res (option (list ptok) * list ztok) :=
  do '(cond', r) <-
    match toks with
    | ZLp :: ZId n :: r =>
      if beq_bytes n (bs "not") then
        match r with
        | ZLp :: ZId m :: ZRp :: r' => Ok (add_cond Tand cond [Tbang; Tdef m], r')
        | _ => Panic
        end
      else if beq_bytes n (bs "any") || beq_bytes n (bs "all") then
        match r with
        | ZLp :: r' =>
          do '(c, r'') <- list_loop (S (length r')) t (if beq_bytes n (bs "any") then Tor else Tand) None r';
          Ok (match c with Some c => add_cond Tand cond (Tlp :: c ++ [Trp]) | None => cond end, r'')
        | _ => Panic
        end
      else Ok (add_cond Tand cond [Tdef n], r)
    | _ => Panic
    end;
  match r with ZRp :: r' => Ok (cond', r') | _ => Panic end.

(** parser_core.c:102-606: the loop over attributes; other attributes are not modelled (they do
    not touch the condition). *)
Fixpoint attrs (fuel : nat) (cond : option (list ptok)) (toks : list ztok) : res (option (list ptok) * list ztok) :=
  match fuel with
  | O => Fuel
  | S fuel =>
    match toks with
    | ZAt :: ZId n :: r =>
      if beq_bytes n (bs "cfg") then do '(c, r') <- cfg_attr ZAt cond r; attrs fuel c r' else Panic
    | ZAt :: _ => Panic
    | _ => Ok (cond, toks)
    end
  end.

(** Declarations.  [icond]: the condition (cfg_condition in the AST). *)
Inductive kind := KFn | KImpl | KImplTrait | KStruct | KEnum | KTrait | KGlobal | KAlias | KRaw | KTest.
Record item := mkitem { ikind : kind; iname : bytes; icond : option (list ptok) }.
(** Lines of the generated file; a [Part] is everything one pass writes for a declaration. *)
Inductive pass := PProto | PDef | PBody | PVtable.
Inductive line := LIf (c : list ptok) | LEndif | Part (p : pass) (k : kind) (n : bytes).

(** parser_core.c:925-941: the condition is stored in the first of the declarations that parsing
    an item yields (an import yields all those of the file). *)
Definition attach (c : option (list ptok)) (l : list item) : list item :=
  match l with [] => [] | i :: r => mkitem (ikind i) (iname i) c :: r end.

(** [#if] and [#endif] around what is written for a declaration *)
Definition guarded (p : pass) (i : item) : list line :=
  match icond i with
  | Some c => [LIf c; Part p (ikind i) (iname i); LEndif]
  | None => [Part p (ikind i) (iname i)]
  end.
Definition bare (p : pass) (i : item) : list line := [Part p (ikind i) (iname i)].
(** codegen_decl.c:968-987: the prototypes of a trait implementation; the [#endif] is missing. *)
Definition opened (p : pass) (i : item) : list line :=
  match icond i with
  | Some c => [LIf c; Part p (ikind i) (iname i)]
  | None => [Part p (ikind i) (iname i)]
  end.
Definition of_kind (ks : list kind) (i : item) : bool :=
  existsb (fun k => match k, ikind i with
    | KFn, KFn | KImpl, KImpl | KImplTrait, KImplTrait | KStruct, KStruct | KEnum, KEnum | KTrait, KTrait
    | KGlobal, KGlobal | KAlias, KAlias | KRaw, KRaw | KTest, KTest => true
    | _, _ => false end) ks.
Definition pass_over (ks : list kind) (f : item -> list line) (l : list item) : list line :=
  concat (map f (filter (of_kind ks) l)).

(** codegen_main.c:570-606: globals whose name is already in the list are left out *)
Fixpoint merge_globals (acc : list item) (l : list item) : list item :=
  match l with
  | [] => acc
  | i :: r =>
    if existsb (fun j => beq_bytes (iname j) (iname i)) acc then merge_globals acc r else merge_globals (i :: acc) r
  end.

(** codegen_main.c:365-806: the passes over the declarations.  [l]: the top-level declarations in
    order; the compiler's own lists of structures, globals (latest first) and functions hold the
    same nodes.  Simplifications: structures come in the order they were declared (see Topo_Model);
    generic declarations, forward typedefs of structures and drop glue are left out; raw blocks are
    all in one pass and each has its own text. *)
Definition emit (l : list item) : list line :=
  pass_over [KEnum] (guarded PProto) l                                          (* emit_enum_protos *)
  ++ pass_over [KAlias] (bare PProto) (rev l)                                   (* emit_global_aliases *)
  ++ pass_over [KAlias] (guarded PDef) l                                        (* emit_type_aliases *)
  ++ pass_over [KTrait] (guarded PDef) l                                        (* emit_trait_defs *)
  ++ pass_over [KStruct; KEnum] (guarded PDef) l                                (* emit_struct_defs *)
  ++ pass_over [KRaw] (bare PDef) l                                             (* raw statements *)
  ++ concat (map (guarded PDef) (merge_globals [] (filter (of_kind [KGlobal]) (rev l))))   (* emit_globals *)
  ++ pass_over [KFn; KImpl; KImplTrait] (fun i => if of_kind [KImplTrait] i then opened PProto i else guarded PProto i) l
                                                                                (* emit_protos *)
  ++ pass_over [KImplTrait] (bare PVtable) l                                    (* emit_impl_vtables *)
  ++ pass_over [KTest] (bare PBody) l                                           (* emit_tests_and_runner *)
  ++ pass_over [KFn; KImpl; KImplTrait] (guarded PBody) l.                      (* codegen_main.c:797-805 *)
