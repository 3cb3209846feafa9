(** What the C compiler does with an asm statement, and what a user means by a block. *)
From Verif Require Import Common Asm_Model.
Local Open Scope nat_scope.

(** ** C: adjacent string literals; only the escapes that are written occur *)
Inductive lit := Between | Within | Escaped.
Fixpoint c_string (m : lit) (t : bytes) : res bytes :=
  match t with
  | [] => match m with Between => Ok [] | _ => Panic end
  | c :: t =>
    match m with
    | Between => if (c =? 34)%N then c_string Within t else if (c =? 32)%N || (c =? 10)%N then c_string Between t else Panic
    | Within =>
      if (c =? 34)%N then c_string Between t
      else if (c =? 92)%N then c_string Escaped t
      else if (c =? 10)%N then Panic
      else do r <- c_string Within t; Ok (c :: r)
    | Escaped =>
      if (c =? 110)%N then do r <- c_string Within t; Ok (10%N :: r)
      else if (c =? 34)%N || (c =? 92)%N then do r <- c_string Within t; Ok (c :: r)
      else Panic
    end
  end.

(** ** GNU C: the template.  What reaches the assembler: characters and operands.  Braces and
    bars, which choose between dialects, are not described and stop here. *)
Inductive piece := Ch (c : N) | Op (i : nat).
Inductive pct := Plain | Percent | Num (n : nat).
Definition digit (c : N) : option nat := if (48 <=? c)%N && (c <=? 57)%N then Some (N.to_nat (c - 48)) else None.
Definition dialect (c : N) : bool := (c =? 123)%N || (c =? 124)%N || (c =? 125)%N.
Fixpoint expand (nops : nat) (m : pct) (t : bytes) : res (list piece) :=
  match t with
  | [] => match m with Plain => Ok [] | Percent => Panic | Num n => if n <? nops then Ok [Op n] else Panic end
  | c :: t =>
    let plain := if (c =? 37)%N then expand nops Percent t else if dialect c then Panic else do r <- expand nops Plain t; Ok (Ch c :: r) in
    match m with
    | Plain => plain
    | Percent =>
      match digit c with
      | Some d => expand nops (Num d) t
      | None => if (c =? 37)%N then do r <- expand nops Plain t; Ok (Ch c :: r) else Panic
      end
    | Num n =>
      match digit c with
      | Some d => expand nops (Num (10 * n + d)) t
      | None => if n <? nops then do r <- plain; Ok (Op n :: r) else Panic
      end
    end
  end.

(** GNU C: the first list holds the outputs, the second the inputs, the third the clobbers *)
Definition is_out (o : operand) : bool := match o with Out _ _ => true | _ => false end.
Definition is_in (o : operand) : bool := match o with In_ _ => true | _ => false end.
Definition is_clob (o : operand) : bool := match o with Clob _ => true | _ => false end.
Definition c_sections (l : list (list operand)) : res (list operand * list operand * list operand) :=
  let o := nth 0 l [] in let i := nth 1 l [] in let c := nth 2 l [] in
  if (length l <=? 3) && forallb is_out o && forallb is_in i && forallb is_clob c then Ok (o, i, c) else Panic.
(** the whole statement: without any colon the template is taken as it is *)
Definition c_asm (a : bytes * list (list operand)) : res (list piece * list operand * list operand) :=
  do t <- c_string Between (fst a);
  do '(o, i, c) <- c_sections (snd a);
  do p <- match snd a with [] => Ok (map Ch t) | _ => expand (length (o ++ i)) Plain t end;
  Ok (p, o ++ i, c).

(** ** The user: text with variables in braces *)
Inductive part := Lit (l : bytes) | Hole (v : bytes).
Definition source (l : list part) : bytes := flat_map (fun p => match p with Lit l => l | Hole v => bs "{" ++ v ++ bs "}" end) l.
(** the operand a variable stands for: the first of its name *)
Definition meant (names : list bytes) (p : part) : list piece :=
  match p with
  | Lit l => map Ch l
  | Hole v => match index_of v names with Some i => [Op i] | None => [] end
  end.
(** text without braces or bars, variables of the operand lists of less than 64 bytes, no digit
    right behind a placeholder *)
Fixpoint good (names : list bytes) (l : list part) : Prop :=
  match l with
  | [] => True
  | Lit s :: l => forallb (fun c => negb (dialect c)) s = true /\ good names l
  | Hole v :: l => In v names /\ length v < 64 /\ ~ In 125%N v /\ (forall c r, source l = c :: r -> digit c = None) /\ good names l
  end.
