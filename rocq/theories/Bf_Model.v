(** Model of plugins/brainfuck.c: the C text it writes for a block, and what that text does.

    The text is kept as a list of its lines; [line_text] gives the characters.  The C
    compiler reads the lines as one block: [read_block] is the nesting of braces.  Running
    the block: the array [tape] is static, so its contents are a parameter of a run; the
    pointer is its offset, and using it outside the array, or moving it before the first
    or more than one past the last element, is undefined behaviour ([UB]).  The cells are
    unsigned char.  [putchar] appends to the output; [getchar] takes the next byte of the
    input and is -1, stored as 255, at its end. *)
From Verif Require Import Common.
Local Open Scope Z_scope.

(** The lines: brainfuck.c:7-8, 15, 18, 21, 24, 27, 30, 33, 36, 41 *)
Inductive line := LBegin | LRight | LLeft | LInc | LDec | LPut | LGet | LWhile | LClose | LEnd.
Definition nl : bytes := [10%N].
Definition line_text (l : line) : bytes :=
  match l with
  | LBegin => bs "{" ++ nl ++ bs "    static unsigned char tape[30000] = {0};" ++ nl ++
              bs "    unsigned char *ptr = tape;" ++ nl
  | LRight => bs "    ++ptr;" ++ nl
  | LLeft => bs "    --ptr;" ++ nl
  | LInc => bs "    ++*ptr;" ++ nl
  | LDec => bs "    --*ptr;" ++ nl
  | LPut => bs "    putchar(*ptr);" ++ nl
  | LGet => bs "    *ptr = getchar();" ++ nl
  | LWhile => bs "    while (*ptr) {" ++ nl
  | LClose => bs "    }" ++ nl
  | LEnd => bs "}" ++ nl
  end.

(** brainfuck.c:12-38: the switch *)
Definition bf_char (c : N) : list line :=
  if (c =? 62)%N then [LRight]
  else if (c =? 60)%N then [LLeft]
  else if (c =? 43)%N then [LInc]
  else if (c =? 45)%N then [LDec]
  else if (c =? 46)%N then [LPut]
  else if (c =? 44)%N then [LGet]
  else if (c =? 91)%N then [LWhile]
  else if (c =? 93)%N then [LClose]
  else [].

(** brainfuck.c:4-42 bf_transpile *)
Definition bf_transpile (body : bytes) : list line := LBegin :: flat_map bf_char body ++ [LEnd].

(** The statements of the C text *)
Inductive stmt := SRight | SLeft | SInc | SDec | SPut | SGet | SWhile (body : list stmt).

(** C: the statements up to the brace that closes the innermost open block; [stack] are
    the statements before each enclosing while, newest first.  The result is the contents
    of the block and the lines after it; [None]: a block is not closed. *)
Fixpoint read_block (ls : list line) (cur : list stmt) (stack : list (list stmt)) : option (list stmt * list line) :=
  match ls with
  | [] => None
  | l :: ls =>
    match l with
    | LBegin => None
    | LRight => read_block ls (cur ++ [SRight]) stack
    | LLeft => read_block ls (cur ++ [SLeft]) stack
    | LInc => read_block ls (cur ++ [SInc]) stack
    | LDec => read_block ls (cur ++ [SDec]) stack
    | LPut => read_block ls (cur ++ [SPut]) stack
    | LGet => read_block ls (cur ++ [SGet]) stack
    | LWhile => read_block ls [] (cur :: stack)
    | LClose | LEnd =>
      match stack with
      | [] => Some (cur, ls)
      | up :: stack => read_block ls (up ++ [SWhile cur]) stack
      end
    end
  end.

(** The text of a plugin is a C block of its own if its first brace closes with its last *)
Definition c_block (ls : list line) : option (list stmt) :=
  match ls with
  | LBegin :: ls => match read_block ls [] [] with Some (b, []) => Some b | _ => None end
  | _ => None
  end.

(** The state of a run of the block *)
Record cst := C { tape : Z -> Z; ptr : Z; inp : bytes; out : bytes }.
Definition tape_size : Z := 30000.
Definition upd_tape (t : Z -> Z) (p v : Z) : Z -> Z := fun q => if q =? p then v else t q.
Definition deref (s : cst) : res Z := if (0 <=? ptr s) && (ptr s <? tape_size) then Ok (tape s (ptr s)) else UB.
Definition assign (s : cst) (v : Z) : res cst :=
  if (0 <=? ptr s) && (ptr s <? tape_size)
  then Ok (C (upd_tape (tape s) (ptr s) (v mod 256)) (ptr s) (inp s) (out s)) else UB.
Definition move (s : cst) (d : Z) : res cst :=
  if (0 <=? ptr s + d) && (ptr s + d <=? tape_size) then Ok (C (tape s) (ptr s + d) (inp s) (out s)) else UB.

(** One statement other than a loop *)
Definition simple (x : stmt) (s : cst) : res cst :=
  match x with
  | SRight => move s 1
  | SLeft => move s (-1)
  | SInc => do v <- deref s; assign s (v + 1)
  | SDec => do v <- deref s; assign s (v - 1)
  | SPut => do v <- deref s; Ok (C (tape s) (ptr s) (inp s) (out s ++ [Z.to_N v]))
  | SGet =>
    match inp s with
    | [] => assign s (-1)
    | c :: r => assign (C (tape s) (ptr s) r (out s)) (Z.of_N c)
    end
  | SWhile _ => UB
  end.

(** Running statements, with a bound on the number of statements and loop tests *)
Fixpoint exec (fuel : nat) (b : list stmt) (s : cst) : res cst :=
  match fuel with
  | O => Fuel
  | S fuel =>
    match b with
    | [] => Ok s
    | SWhile w :: r =>
      do v <- deref s;
      if v =? 0 then exec fuel r s
      else do s <- exec fuel w s; exec fuel (SWhile w :: r) s
    | x :: r => do s <- simple x s; exec fuel r s
    end
  end.

(** One run of the block: the tape is what the last run left, the pointer is new *)
Definition run (fuel : nat) (body : bytes) (t : Z -> Z) (input : bytes) : res cst :=
  match c_block (bf_transpile body) with
  | Some b => exec fuel b (C t 0 input [])
  | None => Panic (* not a block: the C compiler rejects it, or takes the text after it in *)
  end.
