(** Struct composition and method calls (src/parser/parser_struct.c:795-1066,
    src/codegen/codegen.c:523-727).

    Modelled: the fields and the list of mixins parse_struct makes of the members of a struct
    (with the array of eight names), and the C call a method call becomes: which function, and
    how the receiver is passed.  Simplified: types are their names; generics, vectors, the enum
    variants and len of a call (codegen.c:452-520) are left out; infer_type is given by the
    receiver. *)
From Verif Require Import Common.
Local Open Scope Z_scope.

(** A member of a struct as written, and a field of its definition *)
Inductive member := Field (n t : bytes) (width : Z) | Use (s : bytes) | Named (n t : bytes).
Record field := F { fname : bytes; ftype : bytes; fwidth : Z }.
Record sdef := SD { fields : list field; used : list bytes; packed : bool }.
Definition defs := list (bytes * sdef).

(** parser_utils.c:1071-1126 find_struct_def, of the structs parsed so far, the last first *)
Fixpoint find_def (ds : defs) (n : bytes) : option sdef :=
  match ds with
  | [] => None
  | (m, d) :: ds => if beq_bytes m n then Some d else find_def ds n
  end.

(** parser_struct.c:932-936: an array of eight *)
Definition add_used (us : list bytes) (s : bytes) : res (list bytes) :=
  if (Z.of_nat (length us) <? 8) then Ok (us ++ [s]) else UB.

(** parser_struct.c:860-1018: one member; a copied field has no bit width (940-943), neither has
    a named use (897-900) *)
Definition add_member (ds : defs) (st : list field * list bytes) (m : member) : res (list field * list bytes) :=
  let '(fs, us) := st in
  match m with
  | Field n t w => Ok (fs ++ [F n t w], us)
  | Named n t => Ok (fs ++ [F n t 0], us)
  | Use s =>
    match find_def ds s with
    | Some d => do us <- add_used us s; Ok (fs ++ map (fun f => F (fname f) (ftype f) 0) (fields d), us)
    | None => Ok (fs, us)
    end
  end.
Fixpoint add_members (ds : defs) (st : list field * list bytes) (ms : list member) : res (list field * list bytes) :=
  match ms with
  | [] => Ok st
  | m :: ms => do st <- add_member ds st m; add_members ds st ms
  end.
(** parser_struct.c:795-1066 parse_struct *)
Definition parse_struct (ds : defs) (pack : bool) (ms : list member) : res sdef :=
  do '(fs, us) <- add_members ds ([], []) ms; Ok (SD fs us pack).

(** What codegen knows: functions, impls of traits, generic impls of traits, structs *)
Record env := E { funcs : list bytes; impls : list (bytes * bytes); templates : list bytes; structs : defs }.
Definition has (e : env) (f : bytes) : bool := existsb (beq_bytes f) (funcs e).
Definition method_name (t m : bytes) : bytes := t ++ bs "__" ++ m.
Definition trait_name (t tr m : bytes) : bytes := t ++ bs "__" ++ tr ++ bs "_" ++ m.

(** The receiver: its type without stars, whether it is a pointer, and whether it is a call,
    literal, operator or cast (codegen.c:558-561) *)
Record receiver := R { rtype : bytes; is_ptr : bool; is_temp : bool }.
Inductive passing := ByTemp | Addr | Direct | CastAddr (t : bytes) | CastDirect (t : bytes).

(** codegen.c:616-634: the first impl of a trait for the type with such a method *)
Fixpoint find_impl (e : env) (is : list (bytes * bytes)) (t m : bytes) : option bytes :=
  match is with
  | [] => None
  | (t', tr) :: is => if beq_bytes t' t && has e (firstn 255 (trait_name t tr m)) then Some tr else find_impl e is t m
  end.
(** codegen.c:636-659 *)
Fixpoint find_template (e : env) (is : list bytes) (t m : bytes) : option bytes :=
  match is with
  | [] => None
  | tr :: is => if has e (firstn 511 (trait_name t tr m)) then Some tr else find_template e is t m
  end.
(** codegen.c:666-683: the first mixin with such a method; a buffer of 128 *)
Fixpoint find_mixin (e : env) (us : list bytes) (m : bytes) : option bytes :=
  match us with
  | [] => None
  | u :: us => if has e (firstn 127 (method_name u m)) then Some u else find_mixin e us m
  end.

(** codegen.c:558-720 *)
Definition method_call (e : env) (r : receiver) (m : bytes) : bytes * passing :=
  let t := rtype r in
  let plain := if is_ptr r then Direct else Addr in
  if negb (is_ptr r) && is_temp r then (method_name t m, ByTemp)
  else if has e (firstn 511 (method_name t m)) then (method_name t m, plain)
  else match find_impl e (impls e) t m with
       | Some tr => (trait_name t tr m, plain)
       | None =>
         match find_template e (templates e) t m with
         | Some tr => (trait_name t tr m, plain)
         | None =>
           match find_def (structs e) t with
           | Some d =>
             match find_mixin e (used d) m with
             | Some u => (method_name u m, if is_ptr r then CastDirect u else CastAddr u)
             | None => (method_name t m, plain)
             end
           | None => (method_name t m, plain)
           end
         end
       end.
