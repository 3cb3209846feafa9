(** Model of loops, jumps and conditions: README.md 576-592; src/parser/parser_stmt.c 532-600
    (loop, repeat, unless, guard), 1107-1184 (if, while), 2515-2608 (words that start a
    statement), 2800-2822 (labels), 2951-3030 (blocks); src/codegen/codegen_stmt.c 1150-1330.
    Simplified: conditions, counts and lists of arguments are single tokens with a number, whose
    meaning is left open; the statements are calls, the use of a name as a statement, and those
    above; return, defer, match, for and goto are not here (C32, C33, C65, C66, C75); words that
    start other statements do not occur; the counter of repeat does not overflow. *)
From Verif Require Import Common.
Local Open Scope nat_scope.

(** Tokens.  [Lit w]: a token that starts with a quote, of which w is what stands behind the quote
    without the last character; [Args a]: the arguments of a call in parentheses. *)
Inductive tok := Word (w : bytes) | Lit (w : bytes) | LBrace | RBrace | Semi | Colon | Cond (c : nat) | Args (a : nat).

(** What the parser makes.  [AName x] is the expression x; [AParen a] an expression in parentheses. *)
Inductive ast :=
| ACall (f : bytes) (a : nat)
| AName (x : bytes)
| AParen (a : nat)
| ALabel (x : bytes)
| ABreak (l : option bytes)
| AContinue (l : option bytes)
| AIf (c : nat) (t : asts) (e : asts)
| AUnless (c : nat) (b : asts)      (* unless and guard: if (!(c)) b *)
| AWhile (c : nat) (b : asts)
| ALoop (b : asts)
| ARepeat (n : nat) (b : asts)
with asts := ANil | ACons (s : ast) (l : asts).

Definition word (t : tok) (w : bytes) : bool := match t with Word v => beq_bytes v w | _ => false end.
(** strncmp(start, w, strlen(w)) == 0 without a look at the length *)
Definition word_prefix (t : tok) (w : bytes) : bool := match t with Word v => is_prefix w v | _ => false end.
Definition eat_semi (ts : list tok) : list tok := match ts with Semi :: ts => ts | _ => ts end.
(** parser_stmt.c 2547-2560 and 2577-2590 *)
Definition jump_label (ts : list tok) : option bytes * list tok :=
  match ts with Lit w :: ts => (Some w, eat_semi ts) | _ => (None, eat_semi ts) end.

(** parse_statement and parse_block; [Panic]: a message and exit. *)
Fixpoint statement (fuel : nat) (ts : list tok) : res (ast * list tok) :=
  match fuel with O => Fuel | S fuel =>
    match ts with
    | [] => Panic
    | t :: r =>
      if word t (bs "if") then if_statement fuel r
      else if word t (bs "while") then
        match r with
        | Cond c :: LBrace :: r => do '(b, r) <- block fuel r; Ok (AWhile c b, r)
        | Cond c :: r => do '(s, r) <- statement fuel r; Ok (AWhile c (ACons s ANil), r)
        | _ => Panic
        end
      else if word t (bs "break") then let '(l, r) := jump_label r in Ok (ABreak l, r)
      else if word t (bs "continue") then let '(l, r) := jump_label r in Ok (AContinue l, r)
      else if word t (bs "loop") then
        do '(b, r) <- block fuel (tl r); Ok (ALoop b, r)
      else if word t (bs "repeat") then
        match r with Cond n :: r => do '(b, r) <- block fuel (tl r); Ok (ARepeat n b, r) | _ => Panic end
      else if word t (bs "unless") then
        match r with Cond c :: r => do '(b, r) <- block fuel (tl r); Ok (AUnless c b, r) | _ => Panic end
      else if word t (bs "guard") then
        match r with
        | Cond c :: e :: r =>
          if word_prefix e (bs "else") then
            match r with
            | LBrace :: r => do '(b, r) <- block fuel r; Ok (AUnless c b, r)
            | _ => do '(s, r) <- statement fuel r; Ok (AUnless c (ACons s ANil), r)
            end
          else Panic
        | _ => Panic
        end
      else
        match t, r with
        | Word x, Colon :: Colon :: _ => Panic
        | Word x, Colon :: r => Ok (ALabel x, r)
        | Word x, Args a :: r => Ok (ACall x a, eat_semi r)
        | Word x, r => Ok (AName x, eat_semi r)
        | Args a, r => Ok (AParen a, eat_semi r)
        | _, _ => Panic
        end
    end
  end
(** parse_if, behind the word if *)
with if_statement (fuel : nat) (ts : list tok) : res (ast * list tok) :=
  match fuel with O => Fuel | S fuel =>
    match ts with
    | Cond c :: r =>
      do '(t, r) <- match r with
                    | LBrace :: r => block fuel r
                    | _ => do '(s, r) <- statement fuel r; Ok (ACons s ANil, r)
                    end;
      match r with
      | e :: r' =>
        if word_prefix e (bs "else") then
          match r' with
          | i :: r'' =>
            if word_prefix i (bs "if") then do '(s, r) <- if_statement fuel r''; Ok (AIf c t (ACons s ANil), r)
            else match i with
                 | LBrace => do '(b, r) <- block fuel r''; Ok (AIf c t b, r)
                 | _ => do '(s, r) <- statement fuel r'; Ok (AIf c t (ACons s ANil), r)
                 end
          | [] => Panic
          end
        else Ok (AIf c t ANil, r)
      | [] => Ok (AIf c t ANil, r)
      end
    | _ => Panic
    end
  end
(** parse_block behind its first token *)
with block (fuel : nat) (ts : list tok) : res (asts * list tok) :=
  match fuel with O => Fuel | S fuel =>
    match ts with
    | [] => Ok (ANil, [])
    | RBrace :: r => Ok (ANil, r)
    | _ => do '(s, r) <- statement fuel ts; do '(l, r) <- block fuel r; Ok (ACons s l, r)
    end
  end.

Section Run.
Variable St : Type.
Variable test : nat -> St -> bool.              (* conditions *)
Variable count : nat -> St -> Z.                (* counts of repeat *)
Variable act : bytes -> nat -> St -> St.        (* calls *)
Variable declared : bytes -> bool.              (* the names known as variables *)

(** Labels of the C function: NODE_LABEL, codegen_stmt.c 1295; and where gotos go: 1254, 1273 *)
Fixpoint labels (s : ast) : list bytes :=
  match s with
  | ALabel x => [x]
  | AIf _ t e => labels_all t ++ labels_all e
  | AUnless _ b | AWhile _ b | ALoop b | ARepeat _ b => labels_all b
  | _ => []
  end
with labels_all (l : asts) : list bytes := match l with ANil => [] | ACons s l => labels s ++ labels_all l end.
Fixpoint gotos (s : ast) : list bytes :=
  match s with
  | ABreak (Some l) => [bs "__break_" ++ l]
  | AContinue (Some l) => [bs "__continue_" ++ l]
  | AIf _ t e => gotos_all t ++ gotos_all e
  | AUnless _ b | AWhile _ b | ALoop b | ARepeat _ b => gotos_all b
  | _ => []
  end
with gotos_all (l : asts) : list bytes := match l with ANil => [] | ACons s l => gotos s ++ gotos_all l end.
Fixpoint names (s : ast) : list bytes :=
  match s with
  | AName x => [x]
  | AIf _ t e => names_all t ++ names_all e
  | AUnless _ b | AWhile _ b | ALoop b | ARepeat _ b => names_all b
  | _ => []
  end
with names_all (l : asts) : list bytes := match l with ANil => [] | ACons s l => names s ++ names_all l end.
(** break and continue outside of loops *)
Fixpoint loose (s : ast) : bool :=
  match s with
  | ABreak None | AContinue None => true
  | AIf _ t e => loose_all t || loose_all e
  | AUnless _ b => loose_all b
  | _ => false
  end
with loose_all (l : asts) : bool := match l with ANil => false | ACons s l => loose s || loose_all l end.

Definition mem (x : bytes) (l : list bytes) : bool := existsb (beq_bytes x) l.
Fixpoint distinct (l : list bytes) : bool := match l with [] => true | x :: l => negb (mem x l) && distinct l end.
(** What the C compiler checks *)
Definition compiles (p : asts) : bool :=
  distinct (labels_all p) && forallb (fun g => mem g (labels_all p)) (gotos_all p)
  && forallb declared (names_all p) && negb (loose_all p).

(** How a C statement ends *)
Inductive signal := Next | Brk | Cnt | Jump (l : bytes).
Definition outcome : Type := signal * St.
(** while (1) and the like: at most [fuel] rounds; [more i s]: another round *)
Fixpoint rounds (fuel : nat) (i : Z) (more : Z -> St -> bool) (body : St -> res outcome) (s : St) : res outcome :=
  if more i s then
    match fuel with
    | O => Fuel
    | S fuel =>
      do '(g, s) <- body s;
      match g with
      | Brk => Ok (Next, s)
      | Jump l => Ok (Jump l, s)
      | _ => rounds fuel (i + 1)%Z more body s
      end
    end
  else Ok (Next, s).

(** The C statements, codegen_stmt.c 1150-1330; where a goto goes on is not modelled. *)
Fixpoint exec (fuel : nat) (p : ast) (s : St) : res outcome :=
  match p with
  | ACall f a => Ok (Next, act f a s)
  | AName _ | AParen _ | ALabel _ => Ok (Next, s)
  | ABreak None => Ok (Brk, s)
  | ABreak (Some l) => Ok (Jump (bs "__break_" ++ l), s)
  | AContinue None => Ok (Cnt, s)
  | AContinue (Some l) => Ok (Jump (bs "__continue_" ++ l), s)
  | AIf c t e => if test c s then exec_all fuel t s else exec_all fuel e s
  | AUnless c b => if negb (test c s) then exec_all fuel b s else Ok (Next, s)
  | AWhile c b => rounds fuel 0 (fun _ s => test c s) (exec_all fuel b) s
  | ALoop b => rounds fuel 0 (fun _ _ => true) (exec_all fuel b) s
  | ARepeat n b => rounds fuel 0 (fun i s => (i <? count n s)%Z) (exec_all fuel b) s
  end
with exec_all (fuel : nat) (l : asts) (s : St) : res outcome :=
  match l with
  | ANil => Ok (Next, s)
  | ACons p l => do '(g, s) <- exec fuel p s; match g with Next => exec_all fuel l s | _ => Ok (g, s) end
  end.

(** A function with these tokens, behind its first brace *)
Definition run (fuel : nat) (ts : list tok) (s : St) : res outcome :=
  do '(p, _) <- block (2 * length ts + 2) ts;
  if compiles p then exec_all fuel p s else Panic.
End Run.
