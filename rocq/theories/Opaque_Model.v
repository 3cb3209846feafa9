(** Model of opaque structs and opaque type aliases: the checks at member accesses and struct
    literals (parser_expr.c:2616-2629, 5205-5229, 5259-5283, 6037-6062), at declarations with a
    type (parser_decl.c:678-727) and between aliases (parser_expr.c:3-39), and the struct made of
    a generic one (parser_utils.c:3153-3176).

    [Panic]: an error message.  Simplification: aliases that are not opaque have been resolved
    (parser_type.c:54), so a struct type has the name of its definition; every alias name
    belongs to one file. *)
From Verif Require Import Common Types_Model.
Local Open Scope nat_scope.

(** ast.h:467-468: a struct definition and the file it was read in (parser_struct.c:1049-1052) *)
Record def := Def { dname : bytes; dopaque : bool; dfile : option bytes }.
Fixpoint find_def (ds : list def) (n : bytes) : option def :=
  match ds with [] => None | d :: ds => if beq_bytes (dname d) n then Some d else find_def ds n end.
(** the test of all four checks; [cur]: g_current_filename *)
Definition barred (cur : bytes) (d : def) : bool :=
  dopaque d && match dfile d with None => true | Some f => negb (beq_bytes f cur) end.
(** parser_expr.c:4413-4595, without generic arguments *)
Definition resolve (t : option ty) : option bytes :=
  match t with
  | Some (TStruct n) | Some (TPointer (TStruct n)) => Some n
  | _ => None
  end.
Definition access (cur : bytes) (ds : list def) (t : option ty) : bool :=
  match resolve t with
  | None => true
  | Some n => match find_def ds n with Some d => negb (barred cur d) | None => true end
  end.
(** parser_expr.c:2617-2629 *)
Definition literal (cur : bytes) (ds : list def) (n : bytes) : bool :=
  match find_def ds n with Some d => negb (barred cur d) | None => true end.
(** parser_decl.c:324-515: destructuring looks neither at the definition nor at the file *)
Definition destructure (cur : bytes) (ds : list def) (n : bytes) : bool := true.
(** parser_utils.c:3153-3176: what is copied to the instance of a generic struct *)
Definition instance (d : def) (name : bytes) : def := Def name false None.

(** Expressions; [EOther]: one whose type the parser does not know *)
Inductive ex :=
  | EVar (x : bytes) | ECall (f : bytes) | EOther
  | EDot (e : ex) (f : bytes) | EArrow (e : ex) (f : bytes) | ESafe (e : ex) (f : bytes)
  | EIndex (e : ex) | EDeref (e : ex) | EAddr (e : ex).

Section Check.
Variable vars : bytes -> option ty.               (* the symbol table: type_info *)
Variable funs : bytes -> option ty.               (* what functions return *)
Variable fields : bytes -> bytes -> option ty.    (* the fields of each struct *)
Variable ds : list def.

(** parser_expr.c:4272-4411 get_field_type *)
Definition field_type (t : option ty) (f : bytes) : option ty :=
  match resolve t with Some n => fields n f | None => None end.
Definition inner (t : option ty) : option ty :=
  match t with Some (TPointer u) | Some (TArray _ u) | Some (TVector _ u) => Some u | _ => None end.
Fixpoint check (cur : bytes) (e : ex) : res (option ty) :=
  match e with
  | EVar x => Ok (vars x)
  | ECall f => Ok (funs f)
  | EOther => Ok None
  | EDot e f | EArrow e f | ESafe e f =>
    do t <- check cur e; if access cur ds t then Ok (field_type t f) else Panic
  | EIndex e | EDeref e => do t <- check cur e; Ok (inner t)
  | EAddr e => do t <- check cur e; Ok (match t with Some u => Some (TPointer u) | None => None end)
  end.
End Check.

(** parser_expr.c:3-39; [file]: where an alias was read *)
Section Alias.
Variable file : bytes -> option bytes.
Definition here (cur n : bytes) : bool := match file n with Some f => beq_bytes f cur | None => false end.
Fixpoint compat_right (cur : bytes) (b : ty) : bool :=
  match b with TAlias true n u => if here cur n then compat_right cur u else false | _ => true end.
Fixpoint compat (cur : bytes) (a b : ty) : bool :=
  match a with
  | TAlias true n u => if here cur n then compat cur u b else false
  | _ => compat_right cur b
  end.
(** parser_decl.c:678-727: a declaration with a type and a value of the type [t], if known *)
Definition let_ok (cur : bytes) (declared : ty) (t : option ty) : bool :=
  match t with None => true | Some t => type_eq declared t || compat cur declared t end.
End Alias.
