(** Model of the forth plugin, plugins/forth.c: a block is run when the program is compiled, and what it
    writes is the code of the block.
    The state is kept from one block to the next (static variables, 8-23).
    Simplified: the text of a %ld is given ([dec]); memory suffices, and so does the C stack.
    Left out: floating point (words that start with f, words with a point), the memory (variable, constant, @, !, s",
    allot), strings (."), and what goes to stderr. *)
From Verif Require Import Common.
Local Open Scope nat_scope.

Definition is_blank (c : N) : bool := ((c =? 32) || (c =? 9) || (c =? 10))%N.
(** next_token, 71-96, until the end of the text *)
Fixpoint tokens_from (p cur : bytes) : list bytes :=
  match p with
  | [] => match cur with [] => [] | _ => [cur] end
  | c :: p => if is_blank c then match cur with [] => tokens_from p [] | _ => cur :: tokens_from p [] end else tokens_from p (cur ++ [c])
  end.
Definition tokens (p : bytes) : list bytes := tokens_from p [].

(** strtol(token, &end, 0) with *end = 0, 525-527; the values beyond a long are the nearest long *)
Definition digit_in (base : Z) (c : N) : option Z :=
  let v := if ((48 <=? c) && (c <=? 57))%N then Some (Z.of_N c - 48)%Z
           else if ((97 <=? c) && (c <=? 122))%N then Some (Z.of_N c - 87)%Z
           else if ((65 <=? c) && (c <=? 90))%N then Some (Z.of_N c - 55)%Z else None in
  match v with Some v => if (v <? base)%Z then Some v else None | None => None end.
Fixpoint all_digits (base acc : Z) (s : bytes) : option Z :=
  match s with
  | [] => Some acc
  | c :: s => match digit_in base c with Some v => all_digits base (acc * base + v)%Z s | None => None end
  end.
Definition unsigned (s : bytes) : option Z :=
  match s with
  | [] => None
  | c :: s1 =>
    if (c =? 48)%N then
      match s1 with
      | x :: (_ :: _) as s2 => if ((x =? 120) || (x =? 88))%N then all_digits 16 0 (tl s2) else all_digits 8 0 s1
      | _ => all_digits 8 0 s1
      end
    else all_digits 10 0 s
  end.
Definition clamp (z : Z) : Z := Z.max (-9223372036854775808) (Z.min 9223372036854775807 z).
Definition number (t : bytes) : option Z :=
  match t with
  | c :: r => if (c =? 45)%N then option_map (fun z => clamp (- z)) (unsigned r)
              else if (c =? 43)%N then option_map clamp (unsigned r) else option_map clamp (unsigned t)
  | [] => None
  end.

Record st := St { stk : list Z; lps : list Z; dict : list (bytes * bytes); out : bytes }.   (* the top, the newest first *)
Definition with_stk (s : st) (l : list Z) : st := St l (lps s) (dict s) (out s).
(** push, pop, peek, 26-41 *)
Definition push (v : Z) (s : st) : st := if length (stk s) <? 256 then with_stk s (v :: stk s) else s.
Definition pop (s : st) : Z * st := match stk s with v :: l => (v, with_stk s l) | [] => (0%Z, s) end.
Definition peek (s : st) : Z := match stk s with v :: _ => v | [] => 0%Z end.
(** sprintf to the buffer of 8192, 618-634 *)
Definition write (t : bytes) (s : st) : res st :=
  if (Z.of_nat (length (out s) + length t) <? 8192)%Z then Ok (St (stk s) (lps s) (dict s) (out s ++ t)) else UB.
Definition long (z : Z) : res Z := if ((-9223372036854775808 <=? z) && (z <=? 9223372036854775807))%Z then Ok z else UB.
Definition flag (b : bool) : Z := if b then 1%Z else 0%Z.

(** The operations on the stack, 118-192, 320-345.  / and % do not take the second number if the first is 0. *)
Definition two (f : Z -> Z -> res Z) (s : st) : res st :=
  let '(b, s) := pop s in let '(a, s) := pop s in do v <- f a b; Ok (push v s).
Definition divided (f : Z -> Z -> Z) (s : st) : res st :=
  let '(b, s) := pop s in
  if (b =? 0)%Z then Ok (push 0 s)
  else let '(a, s) := pop s in do v <- long (Z.quot a b); Ok (push (f a b) s).
Definition shift_left (a b : Z) : res Z := if ((0 <=? a) && (0 <=? b) && (b <? 64))%Z then long (Z.shiftl a b) else UB.
Definition shift_right (a b : Z) : res Z := if ((0 <=? b) && (b <? 64))%Z then Ok (Z.shiftr a b) else UB.
Definition operation (t : bytes) : option (st -> res st) :=
  if beq_bytes t (bs "+") then Some (two (fun a b => long (a + b)))
  else if beq_bytes t (bs "-") then Some (two (fun a b => long (a - b)))
  else if beq_bytes t (bs "*") then Some (two (fun a b => long (a * b)))
  else if beq_bytes t (bs "/") then Some (divided Z.quot)
  else if beq_bytes t (bs "%") then Some (divided Z.rem)
  else if beq_bytes t (bs "<<") then Some (two shift_left)
  else if beq_bytes t (bs ">>") then Some (two shift_right)
  else if beq_bytes t (bs "&") then Some (two (fun a b => Ok (Z.land a b)))
  else if beq_bytes t (bs "|") then Some (two (fun a b => Ok (Z.lor a b)))
  else if beq_bytes t (bs "^") then Some (two (fun a b => Ok (Z.lxor a b)))
  else if beq_bytes t (bs "~") then Some (fun s => let '(a, s) := pop s in Ok (push (Z.lnot a) s))
  else if beq_bytes t (bs "=") then Some (two (fun a b => Ok (flag (a =? b)%Z)))
  else if beq_bytes t (bs ">") then Some (two (fun a b => Ok (flag (b <? a)%Z)))
  else if beq_bytes t (bs "<") then Some (two (fun a b => Ok (flag (a <? b)%Z)))
  else if beq_bytes t (bs "choose") then
    Some (fun s => let '(f, s) := pop s in let '(t, s) := pop s in let '(c, s) := pop s in Ok (push (if (c =? 0)%Z then f else t) s))
  else if beq_bytes t (bs "dup") then Some (fun s => Ok (push (peek s) s))
  else if beq_bytes t (bs "drop") then Some (fun s => Ok (snd (pop s)))
  else if beq_bytes t (bs "swap") then Some (fun s => let '(a, s) := pop s in let '(b, s) := pop s in Ok (push b (push a s)))
  else if beq_bytes t (bs "rot") then
    Some (fun s => let '(a, s) := pop s in let '(b, s) := pop s in let '(c, s) := pop s in Ok (push c (push a (push b s))))
  else if beq_bytes t (bs "-rot") then
    Some (fun s => let '(a, s) := pop s in let '(b, s) := pop s in let '(c, s) := pop s in Ok (push b (push c (push a s))))
  else None.

(** skip_tokens_until, 98-112 *)
Fixpoint skip_until (ts : list bytes) (stop : bytes -> bool) : list bytes :=
  match ts with [] => [] | t :: r => if stop t then r else skip_until r stop end.
(** the body of do, with its loop, 216-247 *)
Fixpoint loop_body (ts : list bytes) (depth : nat) : option (list bytes * list bytes) :=
  match ts with
  | [] => None
  | t :: r =>
    if beq_bytes t (bs "loop") then
      match depth with
      | 0 => Some ([t], r)
      | S d => option_map (fun '(a, b) => (t :: a, b)) (loop_body r d)
      end
    else option_map (fun '(a, b) => (t :: a, b)) (loop_body r (if beq_bytes t (bs "do") then S depth else depth))
  end.
Fixpoint find (d : list (bytes * bytes)) (t : bytes) : option bytes :=
  match d with [] => None | (n, b) :: d => if beq_bytes n t then Some b else find d t end.

Section Run.
Variable dec : Z -> bytes.

(** eval_forth_token, 114-556: one token, with those behind it; the tokens of a body, 255-263, 540-545;
    the rounds of a loop, 248-266 *)
Fixpoint token (fuel : nat) (s : st) (t : bytes) (r : list bytes) : res (st * list bytes) :=
  match fuel with 0 => Fuel | S fuel =>
    match operation t with
    | Some f => do s <- f s; Ok (s, r)
    | None =>
      if beq_bytes t (bs "if") then
        let '(c, s) := pop s in
        Ok (s, if (c =? 0)%Z then skip_until r (fun t => beq_bytes t (bs "then") || beq_bytes t (bs "else")) else r)
      else if beq_bytes t (bs "else") then Ok (s, skip_until r (fun t => beq_bytes t (bs "then")))
      else if beq_bytes t (bs "then") then Ok (s, r)
      else if beq_bytes t (bs "(") then Ok (s, skip_until r (fun t => existsb (N.eqb 41) t))
      else if beq_bytes t (bs "do") then
        let '(start, s) := pop s in let '(limit, s) := pop s in
        match loop_body r 0 with
        | None => Panic
        | Some (body, r) => do s <- rounds fuel s body start limit; Ok (s, r)
        end
      else if beq_bytes t (bs "loop") then Ok (s, r)
      else if beq_bytes t (bs "i") then match lps s with i :: _ => Ok (push i s, r) | [] => Panic end
      else if beq_bytes t (bs "emit") then let '(v, s) := pop s in do s <- write (dec v) s; Ok (s, r)
      else if beq_bytes t (bs ",") then do s <- write (bs ", ") s; Ok (s, r)
      else
        match number t with
        | Some v => Ok (push v s, r)
        | None =>
          match find (dict s) t with
          | Some b => do s <- body fuel s (tokens b); Ok (s, r)
          | None => do s <- write (t ++ bs " ") s; Ok (s, r)
          end
        end
    end
  end
with body (fuel : nat) (s : st) (ts : list bytes) : res st :=
  match fuel with 0 => Fuel | S fuel =>
    match ts with [] => Ok s | t :: r => do '(s, r) <- token fuel s t r; body fuel s r end
  end
with rounds (fuel : nat) (s : st) (ts : list bytes) (i limit : Z) : res st :=
  match fuel with 0 => Fuel | S fuel =>
    if (i <? limit)%Z then
      if length (lps s) <? 32 then
        do s <- body fuel (St (stk s) (i :: lps s) (dict s) (out s)) ts;
        rounds fuel (St (stk s) (tl (lps s)) (dict s) (out s)) ts (i + 1) limit
      else Panic
    else Ok s
  end.

(** process_forth_source, 558-613; a definition: its name, cut to 31, and its body so far, in 512 bytes *)
Inductive mode := Plain | Name | Body (name text : bytes).
Definition add_token (text t : bytes) : res bytes :=
  let n := length text in
  if (0 <? n) && (n =? 511) then UB
  else let text := if 0 <? n then text ++ bs " " else text in
       Ok (if length text + length t <? 512 then text ++ t else text).
Fixpoint process (fuel : nat) (s : st) (m : mode) (ts : list bytes) : res st :=
  match fuel with 0 => Fuel | S fuel =>
    match ts with
    | [] => Ok s
    | t :: r =>
      if beq_bytes t (bs "#end") then Ok s
      else match m with
           | Plain => if beq_bytes t (bs ":") then process fuel s Name r else do '(s, r) <- token fuel s t r; process fuel s Plain r
           | Name => process fuel s (Body (firstn 31 t) []) r
           | Body n b =>
             if beq_bytes t (bs ";") then
               process fuel (if length (dict s) <? 128 then St (stk s) (lps s) ((n, b) :: dict s) (out s) else s) Plain r
             else do b <- add_token b t; process fuel s (Body n b) r
           end
    end
  end.
(** A block: the state behind it, and what it wrote *)
Definition block (fuel : nat) (s : st) (text : bytes) : res st := process fuel (St (stk s) (lps s) (dict s) []) Plain (tokens text).
Definition fresh : st := St [] [] [] [].
End Run.
