(** Interpolated strings as a user writes them: pieces of text, doubled braces and
    expressions in braces with an optional format. *)
From Verif Require Import Common StrLit_Spec FStr_Model.
Local Open Scope nat_scope.

Inductive piece (expr : Type) :=
| PText (t v : bytes)                          (* characters [t] denoting the bytes [v] *)
| POpen | PClose                               (* doubled braces *)
| PExpr (src : bytes) (e : expr) (fmt : option bytes). (* {src} or {src:fmt} *)
Arguments PText {expr}. Arguments POpen {expr}. Arguments PClose {expr}. Arguments PExpr {expr}.

Definition show {expr} (p : piece expr) : bytes :=
  match p with
  | PText t _ => t
  | POpen => [123; 123]%N
  | PClose => [125; 125]%N
  | PExpr src _ None => 123%N :: src ++ [125]%N
  | PExpr src _ (Some f) => 123%N :: src ++ 58%N :: f ++ [125]%N
  end.

(** Colons only in pairs *)
Inductive paired : bytes -> Prop :=
| pr_nil : paired []
| pr_char c r : c <> 58%N -> paired r -> paired (c :: r)
| pr_two r : paired r -> paired (58%N :: 58%N :: r).

Definition no_brace (s : bytes) : Prop := ~ In 123%N s /\ ~ In 125%N s.
(** The parser reads [src] as [e] and stops at the brace or colon behind it. *)
Definition reads_as {expr} (parse : bytes -> option (expr * bytes)) (src : bytes) (e : expr) : Prop :=
  forall r, (exists r', r = 125%N :: r') \/ (exists c r', r = 58%N :: c :: r' /\ c <> 58%N) ->
    parse (src ++ r) = Some (e, r).

Definition piece_ok {expr} (parse : bytes -> option (expr * bytes)) (p : piece expr) : Prop :=
  match p with
  | PText t v => t <> [] /\ no_brace t /\ Denotes z_multi_plain t v /\ ~ In 0%N v
  | POpen | PClose => True
  | PExpr src e fmt => no_brace src /\ paired src /\ reads_as parse src e /\
      match fmt with
      | None => True
      | Some f => ~ In 125%N f /\ f <> [] /\ ~ (exists r, f = 58%N :: r)
      end
  end.
(** Text is not cut in two. *)
Fixpoint no_adjacent {expr} (ps : list (piece expr)) : Prop :=
  match ps with
  | PText _ _ :: ((PText _ _ :: _) as r) => False
  | _ :: r => no_adjacent r
  | [] => True
  end.

Definition fstring_ok {expr} parse (ps : list (piece expr)) : Prop := Forall (piece_ok parse) ps /\ no_adjacent ps.

(** What the C compiler makes of the inside of a string literal *)
Definition decodes (decode : bytes -> bytes) : Prop := forall s v, Denotes c_plain s v -> decode s = v.
(** The C library's conversions used for values of each type (a bool is no string). *)
Definition libc_ok (decimal : Z -> bytes) (fmt : bytes -> cval -> option bytes) : Prop :=
  (forall z, fmt (bs "%d") (VInt z) = Some (decimal z)) /\
  (forall c, fmt (bs "%c") (VChar c) = Some [c]) /\
  (forall s, fmt (bs "%s") (VStr s) = Some s) /\
  (forall b, fmt (bs "%s") (VBool b) = None).

(** The text a user expects for a value and for a piece; [None] where the user's own format
    does not fit the value. *)
Definition value_text (decimal : Z -> bytes) (v : cval) : bytes :=
  match v with
  | VBool true => bs "true"
  | VBool false => bs "false"
  | VChar c => [c]
  | VInt z => decimal z
  | VStr s => s
  end.
Definition piece_text {expr} decimal (fmt : bytes -> cval -> option bytes) (eval : expr -> cval) (p : piece expr) : option bytes :=
  match p with
  | PText _ v => Some v
  | POpen => Some [123]%N
  | PClose => Some [125]%N
  | PExpr _ e None => Some (value_text decimal (eval e))
  | PExpr _ e (Some f) => fmt (37%N :: f) (eval e)
  end.
