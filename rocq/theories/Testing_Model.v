(** Model of test blocks and assertions: parser_stmt.c:962-1020 (parse_test, parse_assert),
    codegen_stmt.c:827-839 (the assert statement), codegen_decl.c:156-159 (the assert macro),
    1136-1168 (emit_tests_and_runner), codegen_main.c:704, 803-820 (main).

    A statement of a test is a change of the state of the program, a deferred one, or an assertion;
    what the code of the statements does is given.  [UB] is the undefined behaviour of fprintf with
    a conversion and no argument.  Simplifications: the bytes of a message are those the C string
    has; stderr can be written; a test has no return; cfg conditions are left out. *)
From Verif Require Import Common.

Section Run.
Variable S : Type.
Inductive stmt := SDo (f : S -> S) | SDefer (f : S -> S) | SAssert (c : S -> bool) (msg : bytes).
Inductive outcome := Finished (s : S) | Exited (status : Z) (err : bytes) (s : S).

(** fprintf(stderr, text) without arguments *)
Fixpoint format (s : bytes) : res bytes :=
  match s with
  | [] => Ok []
  | 37%N :: r => match r with 37%N :: q => do t <- format q; Ok (37%N :: t) | _ => UB end
  | c :: r => do t <- format r; Ok (c :: t)
  end.
(** #define assert(cond, ...): if (!(cond)) { fprintf(stderr, "Assertion failed: " msg); exit(1); } *)
Definition assert (c : S -> bool) (msg : bytes) (s : S) : res (option outcome) :=
  if c s then Ok None else do t <- format (bs "Assertion failed: " ++ msg); Ok (Some (Exited 1 t s)).
(** a block: the deferred statements run at its end, the last one first *)
Fixpoint block (defers : list (S -> S)) (b : list stmt) (s : S) : res outcome :=
  match b with
  | [] => Ok (Finished (fold_left (fun s f => f s) defers s))
  | SDo f :: r => block defers r (f s)
  | SDefer f :: r => block (f :: defers) r s
  | SAssert c msg :: r => do o <- assert c msg s; match o with Some x => Ok x | None => block defers r s end
  end.
(** _z_run_tests: the test functions one after the other *)
Fixpoint run_tests (ts : list (list stmt)) (s : S) : res outcome :=
  match ts with
  | [] => Ok (Finished s)
  | t :: r => do o <- block [] t s; match o with Finished s => run_tests r s | _ => Ok o end
  end.
Inductive item := ITest (name : bytes) (body : list stmt) | IFun (name : bytes) (body : list stmt) | IOther.
Definition tests (p : list item) : list (list stmt) := flat_map (fun i => match i with ITest _ b => [b] | _ => [] end) p.
Definition user_main (p : list item) : option (list stmt) :=
  match List.find (fun i => match i with IFun n _ => beq_bytes n (bs "main") | _ => false end) p with Some (IFun _ b) => Some b | _ => None end.
(** codegen_main.c:803-820: what runs; [None]: the C program has no main and cannot be linked *)
Definition run (p : list item) (s : S) : option (res outcome) :=
  match user_main p with
  | Some b => Some (block [] b s)
  | None => match tests p with [] => None | ts => Some (run_tests ts s) end
  end.
Definition status (o : outcome) : Z := match o with Finished _ => 0%Z | Exited z _ _ => z end.
End Run.
Arguments SDo {S}. Arguments SDefer {S}. Arguments SAssert {S}. Arguments Finished {S}. Arguments Exited {S}.
Arguments ITest {S}. Arguments IFun {S}. Arguments IOther {S}.

(** ** The assert statement in the C text: the arguments of the macro.  Only parentheses protect a
    comma in the argument of a macro (C11 6.10.3p11); braces and brackets do not. *)
Inductive pp := PComma | PLp | PRp | POther (text : bytes).
(** the first argument and what follows the comma *)
Fixpoint first_arg (depth : nat) (ts : list pp) : list pp * option (list pp) :=
  match ts with
  | [] => ([], None)
  | t :: r =>
    match t, depth with
    | PComma, O => ([], Some r)
    | _, _ => let d := match t with PLp => Datatypes.S depth | PRp => Nat.pred depth | _ => depth end in
              let '(a, q) := first_arg d r in (t :: a, q)
    end
  end.
(** codegen_stmt.c:827-839: assert(COND, MSG) *)
Definition assert_args (cond : list pp) (msg : pp) : list pp := cond ++ [PComma; msg].
Definition condition_seen (cond : list pp) (msg : pp) : list pp := fst (first_arg 0 (assert_args cond msg)).

(** ** Reading an assert statement: parser_stmt.c:984-1020.  The expression parser is given. *)
Section Parse.
Variable expr : Type.
Inductive tk := TLp | TRp | TComma | TSemi | TStr (s : bytes) | TOther (s : bytes).
Variable parse_expression : list tk -> res (expr * list tk).
Definition skip (f : tk -> bool) (ts : list tk) : list tk := match ts with t :: r => if f t then r else ts | [] => ts end.
(** the tokens after the word assert *)
Definition parse_assert (ts : list tk) : res (expr * option bytes * list tk) :=
  do '(c, ts) <- parse_expression (skip (fun t => match t with TLp => true | _ => false end) ts);
  do '(m, ts) <- (match ts with
    | TComma :: TStr s :: r => Ok (Some s, r)
    | TComma :: _ => Panic
    | _ => Ok (None, ts) end);
  let ts := skip (fun t => match t with TRp => true | _ => false end) ts in
  let ts := skip (fun t => match t with TSemi => true | _ => false end) ts in
  Ok (c, m, ts).
End Parse.
