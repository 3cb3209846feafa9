(** What a user knows about comptime blocks. *)
From Verif Require Import Common Lexer_Model Comptime_Model.
Local Open Scope nat_scope.

Definition is_decl (i : item) : bool :=
  match fst i with KInclude | KStruct | KEnum | KConst | KFunction => true | _ => false end.
Definition is_impl (i : item) : bool := match fst i with KImpl => true | _ => false end.
Definition is_stmt (i : item) : bool := negb (is_decl i) && negb (is_impl i).

(** A compiler about to run a block. *)
Definition fresh (d p : bytes) : proc := P d p Begin.

(** What the block of a program gives when nobody else is there. *)
Definition result (cc : bytes -> bool) (exec : bytes -> bytes * Z) (p : bytes) : option bytes :=
  if cc p then if (snd (exec p) =? 0)%Z then Some (fst (exec p)) else None else None.

(** One of the three files of a block. *)
Definition mine (d x : bytes) : Prop := x = src_name d \/ x = bin_name d \/ x = out_name d.
