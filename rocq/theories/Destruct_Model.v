(** Model of struct literals, of vector literals and of destructuring declarations:
    src/codegen/codegen.c:1640-1771, src/parser/parser_decl.c:324-515 and
    src/codegen/codegen_stmt.c:858-950.

    Values are of any type [V]; an expression is a function from the state to its value
    and the new state.  A struct value is the list of its fields with their values.  In C the
    expressions of an initialiser list are evaluated one after the other in an order the
    compiler chooses: the model takes the order as an argument.  An error of the C compiler
    and [zpanic_at] are [Panic].  The heap arrays of 16 names are a bound: a write behind
    them is [UB]. *)
From Verif Require Import Common.
Local Open Scope nat_scope.

Section Values.
  Variables (V St : Type) (zero : V).

  Definition expr : Type := St -> V * St.
  Definition sval : Type := list (bytes * V).

  Definition get (f : bytes) (s : sval) : option V :=
    match find (fun p => beq_bytes (fst p) f) s with Some p => Some (snd p) | None => None end.
  Definition has (f : bytes) (l : list bytes) : bool := existsb (beq_bytes f) l.

  (** The initialisers evaluated in the order given *)
  Fixpoint eval_inits (order : list (bytes * expr)) (s : St) : sval * St :=
    match order with
    | [] => ([], s)
    | (f, e) :: order =>
      let '(v, s) := e s in
      let '(l, s) := eval_inits order s in ((f, v) :: l, s)
    end.

  (** codegen.c:1751-1770: [(struct S){.f = e, ...}] with the fields [def] of S; a literal 0 is
      written [{0}], which is the zero value of any field *)
  Definition literal (def : list bytes) (order : list (bytes * expr)) (s : St) : res (sval * St) :=
    if forallb (fun i => has (fst i) def) order then
      let '(l, s) := eval_inits order s in
      Ok (map (fun f => (f, match get f l with Some v => v | None => zero end)) def, s)
    else Panic.

  (** codegen.c:1690-1741: a vector literal of [n] lanes *)
  Fixpoint eval_all (l : list expr) (s : St) : list V * St :=
    match l with
    | [] => ([], s)
    | e :: l => let '(v, s) := e s in let '(vs, s) := eval_all l s in (v :: vs, s)
    end.
  Definition vector_literal (n : nat) (inits : list expr) (s : St) : list V * St :=
    match inits with
    | [] => (repeat zero n, s)
    | [e] => eval_all (repeat e n) s
    | _ => let '(vs, s) := eval_all inits s in (vs ++ repeat zero (n - length vs), s)
    end.

  (** The tokens of a pattern *)
  Inductive ptok := Name (s : bytes) | Colon | Comma | RBrace | RParen | Op (s : bytes) | Other.
  Definition tok_text (t : ptok) : bytes :=
    match t with
    | Name s | Op s => s
    | Colon => bs ":" | Comma => bs "," | RBrace => bs "}" | RParen => bs ")" | Other => []
    end.

  (** parser_decl.c:403-437: [S { f, g: n, ... }], from the token after the opening brace;
      the pairs of field and name *)
  Fixpoint fields_loop (ts : list ptok) (count : nat) (acc : list (bytes * bytes)) {struct ts}
    : res (list (bytes * bytes) * list ptok) :=
    match ts with
    | [] => Panic
    | t :: ts =>
      match ts with
      | Colon :: ts' =>
        match ts' with
        | v :: ts'' =>
          if 16 <=? count then UB
          else let acc := acc ++ [(tok_text t, tok_text v)] in
            match ts'' with
            | RBrace :: rest => Ok (acc, rest)
            | Comma :: rest => fields_loop rest (S count) acc
            | _ => Panic
            end
        | [] => Panic
        end
      | _ =>
        if 16 <=? count then UB
        else let acc := acc ++ [(tok_text t, tok_text t)] in
          match ts with
          | RBrace :: rest => Ok (acc, rest)
          | Comma :: rest => fields_loop rest (S count) acc
          | _ => Panic
          end
      end
    end.

  (** parser_decl.c:333-368: [{ f, g }] and [(a, b)]; type annotations are left out *)
  Fixpoint names_loop (close : ptok) (ts : list ptok) (count : nat) (acc : list bytes)
    : res (list bytes * list ptok) :=
    match ts with
    | [] => Panic
    | t :: ts =>
      if 16 <=? count then UB
      else let acc := acc ++ [tok_text t] in
        match ts with
        | RBrace :: rest => match close with RBrace => Ok (acc, rest) | _ => Panic end
        | RParen :: rest => match close with RParen => Ok (acc, rest) | _ => Panic end
        | Comma :: rest => names_loop close rest (S count) acc
        | _ => Panic
        end
    end.

  (** parser_decl.c:369-372, 438-441: the operator before the value *)
  Definition expect_op (ts : list ptok) : res (list ptok) :=
    match ts with Op _ :: ts => Ok ts | _ => Panic end.

  (** Variables of the block, the newest first *)
  Definition env : Type := list (bytes * V).
  Definition declare (e : env) (n : bytes) (v : V) : res env :=
    if existsb (fun p => beq_bytes (fst p) n) e then Panic else Ok ((n, v) :: e).

  (** codegen_stmt.c:909-925: one declaration for each field *)
  Fixpoint bind_fields (ps : list (bytes * bytes)) (v : sval) (e : env) : res env :=
    match ps with
    | [] => Ok e
    | (f, n) :: ps =>
      match get f v with
      | None => Panic
      | Some x => do e <- declare e n x; bind_fields ps v e
      end
    end.
  (** codegen_stmt.c:926-946: [.v0], [.v1], ... of a tuple *)
  Fixpoint bind_tuple (ns : list bytes) (v : list V) (e : env) : res env :=
    match ns with
    | [] => Ok e
    | n :: ns =>
      match v with
      | [] => Panic
      | x :: v => do e <- declare e n x; bind_tuple ns v e
      end
    end.

  (** ** Guards *)
  (** std/option.zc, std/result.zc: the tag and the two fields *)
  Record tagged := Tagged { flag : bool; val : V; err : V }.
  (** what the else block does *)
  Inductive outcome := Leaves | FallsThrough.
  (** what happens at a guard: the block was left, or execution goes on with a variable *)
  Inductive after := Left | GoOn (e : env).

  (** parser_decl.c:479 *)
  Definition is_else (word : bytes) : bool := is_prefix (bs "else") word.

  (** codegen_stmt.c:867-906: [let K(n) = t else { ... }] *)
  Definition guard (variant n : bytes) (t : tagged) (els : outcome) (e : env) : res after :=
    let test (miss : bool) (x : V) :=
      if miss then
        match els with
        | Leaves => Ok Left
        | FallsThrough => do e <- declare e n x; Ok (GoOn e)
        end
      else do e <- declare e n x; Ok (GoOn e) in
    if beq_bytes variant (bs "Some") then test (negb (flag t)) (val t)
    else if beq_bytes variant (bs "Ok") then test (negb (flag t)) (val t)
    else if beq_bytes variant (bs "Err") then test (flag t) (err t)
    else Panic.       (* no field is_K *)
End Values.
Arguments Tagged {V}. Arguments flag {V}. Arguments val {V}. Arguments err {V}.
Arguments Left {V}. Arguments GoOn {V}.
Arguments get {V}. Arguments declare {V}. Arguments bind_fields {V}. Arguments bind_tuple {V}.
Arguments guard {V}. Arguments literal {V St}. Arguments eval_inits {V St}. Arguments vector_literal {V St}.
Arguments eval_all {V St}.
