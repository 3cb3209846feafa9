(** Model of the names given to instances of generic types:
    src/parser/parser_utils.c:2214-2253 (sanitize_mangled_name),
    2256-2288 (unmangle_ptr_suffix), 3108-3121 and 3274-3295 (instantiate_generic,
    instantiate_generic_multi: the name and the search for an earlier instance).

    Strings are lists of bytes without NUL.  The fixed buffer char m[256] is modelled:
    a name that does not fit, with its terminator, is [UB]. *)
From Verif Require Import Common.
Local Open Scope nat_scope.

(** parser_utils.c:2238-2239 *)
Definition ident_char (c : N) : bool :=
  ((97 <=? c) && (c <=? 122))%N || ((65 <=? c) && (c <=? 90))%N || ((48 <=? c) && (c <=? 57))%N || (c =? 95)%N.
(** parser_utils.c:2227-2247: one character *)
Definition clean_char (c : N) : bytes :=
  if (c =? 42)%N then bs "Ptr"
  else if (c =? 60)%N || (c =? 44)%N || (c =? 32)%N then [95%N]
  else if (c =? 62)%N || (c =? 38)%N then []
  else if ident_char c then [c]
  else [95%N].
(** parser_utils.c:2214-2251 *)
Definition sanitize (s : bytes) : bytes :=
  flat_map clean_char (if is_prefix (bs "struct ") s then skipn 7 s else s).

(** the buffer xmalloc(strlen(s) * 4 + 1), line 2216 *)
Definition sanitize_capacity (s : bytes) : nat := length s * 4 + 1.

(** parser_utils.c:3109-3111 and 3275-3282: char m[256] *)
Definition mangled (tpl : bytes) (args : list bytes) : res bytes :=
  let m := tpl ++ flat_map (fun a => 95%N :: sanitize a) args in
  if length m <? 256 then Ok m else UB.

(** The list of instances, most recent first: its name, and what it was made from.
    parser_utils.c:3113-3121, 3137-3146; [instantiate] models the early return and the
    addition to the list *)
Record inst := Inst { i_name : bytes; i_tpl : bytes; i_args : list bytes }.
Definition instantiate (insts : list inst) (tpl : bytes) (args : list bytes) : res (list inst) :=
  do m <- mangled tpl args;
  if existsb (fun i => beq_bytes (i_name i) m) insts then Ok insts
  else Ok (Inst m tpl args :: insts).
(** parser_utils.c:1073-1081: the instance a type expression refers to *)
Definition resolve (insts : list inst) (tpl : bytes) (args : list bytes) : res (option inst) :=
  do m <- mangled tpl args;
  Ok (find (fun i => beq_bytes (i_name i) m) insts).
Fixpoint instantiate_all (insts : list inst) (l : list (bytes * list bytes)) : res (list inst) :=
  match l with
  | [] => Ok insts
  | (t, a) :: l' => do insts' <- instantiate insts t a; instantiate_all insts' l'
  end.
