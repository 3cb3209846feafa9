(** Model of plugins/befunge.c: the grid it reads (14-41) and what the C code does that it
    writes (43-195).

    [Panic]: the C code does not compile; [UB]: undefined behaviour of the C code, of an
    access outside [stack] or an overflow of long.  The grid is a function of row and column.
    What is printed is a list of the numbers and characters.  Simplification: bytes that are
    no instructions stand in a character literal as they are; only the single quote makes it
    one that C rejects. *)
From Verif Require Import Common.
Local Open Scope nat_scope.

Definition BF_W : nat := 80.
Definition BF_H : nat := 25.
Definition grid := nat -> nat -> N.
(** befunge.c:14-15 *)
Definition blank : grid := fun _ _ => 32%N.
Definition put (g : grid) (r c : nat) (v : N) : res grid :=
  if (r <? BF_H) && (c <? BF_W) then Ok (fun r' c' => if (r' =? r) && (c' =? c) then v else g r' c') else UB.
(** befunge.c:19-22 *)
Fixpoint skip_newlines (p : bytes) : bytes :=
  match p with c :: q => if (c =? 10)%N || (c =? 13)%N then skip_newlines q else p | [] => [] end.
(** befunge.c:24-41 *)
Fixpoint fill (p : bytes) (row col : nat) (g : grid) : res grid :=
  match p with
  | [] => Ok g
  | c :: p =>
    if (c =? 10)%N then if BF_H <=? S row then Ok g else fill p (S row) 0 g
    else if col <? BF_W then do g <- put g row col c; fill p row (S col) g
    else fill p row col g
  end.
Definition load (body : bytes) : res grid := fill (skip_newlines body) 0 0 blank.

(** the statement written for a cell, befunge.c:80-184 *)
Inductive code :=
  | CSpace | CDigit (c : N) | CToggle | CDir (dx dy : Z) | CAdd | CSub | CMul | CDiv | CMod | CNot | CGreater
  | CDup | CSwap | CDrop | CNum | CChar | CIfX | CIfY | CEnd | CSkip | CPlain (c : N).
Definition cell_code (op : N) : code :=
  if (op =? 32)%N then CSpace
  else if ((48 <=? op) && (op <=? 57))%N then CDigit op
  else if (op =? 34)%N then CToggle
  else if (op =? 62)%N then CDir 1 0 else if (op =? 60)%N then CDir (-1) 0
  else if (op =? 94)%N then CDir 0 (-1) else if (op =? 118)%N then CDir 0 1
  else if (op =? 43)%N then CAdd else if (op =? 45)%N then CSub else if (op =? 42)%N then CMul
  else if (op =? 47)%N then CDiv else if (op =? 37)%N then CMod else if (op =? 33)%N then CNot
  else if (op =? 96)%N then CGreater else if (op =? 58)%N then CDup else if (op =? 92)%N then CSwap
  else if (op =? 36)%N then CDrop else if (op =? 46)%N then CNum else if (op =? 44)%N then CChar
  else if (op =? 95)%N then CIfX else if (op =? 124)%N then CIfY else if (op =? 64)%N then CEnd
  else if (op =? 35)%N then CSkip else CPlain op.
(** C: a character literal of one byte; char is signed *)
Definition char_value (c : N) : Z := if (c <? 128)%N then Z.of_N c else Z.of_N c - 256.
(** every cell that is not blank is written out, so one single quote spoils the block *)
Definition compiles (g : grid) : bool :=
  forallb (fun r => forallb (fun c => negb (g r c =? 39)%N) (seq 0 BF_W)) (seq 0 BF_H).

Inductive out := ONum (v : Z) | OChar (c : Z).
(** befunge.c:44-46 *)
Record st := St { x : Z; y : Z; dx : Z; dy : Z; str : bool; stack : list Z; sp : nat; printed : list out }.
Definition start : st := St 0 0 1 0 false (repeat 0%Z (Z.to_nat 1024)) 0 [].

Definition long (v : Z) : res Z := if ((- 2 ^ 63 <=? v) && (v <? 2 ^ 63))%Z then Ok v else UB.
Definition get (l : list Z) (i : nat) : res Z := match nth_error l i with Some v => Ok v | None => UB end.
Definition set (l : list Z) (i : nat) (v : Z) : res (list Z) := if i <? length l then Ok (upd l i v) else UB.
Definition with_stack (s : st) (l : list Z) (n : nat) : st := St (x s) (y s) (dx s) (dy s) (str s) l n (printed s).
(** stack[sp++] = v *)
Definition push (s : st) (v : Z) : res st := do l <- set (stack s) (sp s) v; Ok (with_stack s l (S (sp s))).
(** stack[--sp] *)
Definition pop (s : st) : res (Z * st) :=
  match sp s with O => UB | S k => do v <- get (stack s) k; Ok (v, with_stack s (stack s) k) end.
(** { long a=stack[--sp]; stack[sp-1] = f(stack[sp-1], a); } *)
Definition binary (f : Z -> Z -> res Z) (s : st) : res st :=
  do '(a, s) <- pop s;
  match sp s with O => UB | S j => do b <- get (stack s) j; do v <- f b a; do l <- set (stack s) j v; Ok (with_stack s l (sp s)) end.
Definition turn (s : st) (a b : Z) : st := St (x s) (y s) a b (str s) (stack s) (sp s) (printed s).
Definition print (s : st) (o : out) : st := St (x s) (y s) (dx s) (dy s) (str s) (stack s) (sp s) (printed s ++ [o]).
(** befunge.c:180-183: x += dx; y += dy; and back to the other edge *)
Definition wrap (v size : Z) : Z := if (size <=? v)%Z then 0%Z else if (v <? 0)%Z then (size - 1)%Z else v.
Definition move (s : st) : st :=
  St (wrap (x s + dx s) 80) (wrap (y s + dy s) 25) (dx s) (dy s) (str s) (stack s) (sp s) (printed s).

(** [inl]: goto *dispatch[y][x] goes on; [inr]: end_befunge *)
Definition statement (k : code) (s : st) : res (st + st) :=
  match k with
  | CSpace => Ok (inl s)
  | CDigit c => do s <- push s (if str s then Z.of_N c else Z.of_N c - 48); Ok (inl s)
  | CToggle => Ok (inl (St (x s) (y s) (dx s) (dy s) (negb (str s)) (stack s) (sp s) (printed s)))
  | CDir a b => Ok (inl (turn s a b))
  | CAdd => do s <- binary (fun b a => long (b + a)) s; Ok (inl s)
  | CSub => do s <- binary (fun b a => long (b - a)) s; Ok (inl s)
  | CMul => do s <- binary (fun b a => long (b * a)) s; Ok (inl s)
  | CDiv => do s <- binary (fun b a => if (a =? 0)%Z then Ok 0%Z else long (Z.quot b a)) s; Ok (inl s)
  | CMod => do s <- binary (fun b a => if (a =? 0)%Z then Ok 0%Z else do _ <- long (Z.quot b a); Ok (Z.rem b a)) s; Ok (inl s)
  | CNot => match sp s with O => UB | S j => do v <- get (stack s) j; do l <- set (stack s) j (if (v =? 0)%Z then 1%Z else 0%Z); Ok (inl (with_stack s l (sp s))) end
  | CGreater => do s <- binary (fun b a => Ok (if (a <? b)%Z then 1%Z else 0%Z)) s; Ok (inl s)
  | CDup => match sp s with O => Ok (inl s) | S j => do v <- get (stack s) j; do s <- push s v; Ok (inl s) end
  | CSwap =>
    match sp s with
    | S (S j) => do t <- get (stack s) (S j); do u <- get (stack s) j; do l <- set (stack s) (S j) u; do l <- set l j t; Ok (inl (with_stack s l (sp s)))
    | _ => Ok (inl s)
    end
  | CDrop => Ok (inl (with_stack s (stack s) (pred (sp s))))
  | CNum => do '(v, s) <- pop s; Ok (inl (print s (ONum v)))
  | CChar => do '(v, s) <- pop s; Ok (inl (print s (OChar (v mod 256))))
  | CIfX => do '(v, s) <- pop s; Ok (inl (turn s (if (v =? 0)%Z then 1%Z else (-1)%Z) 0%Z))
  | CIfY => do '(v, s) <- pop s; Ok (inl (turn s 0%Z (if (v =? 0)%Z then 1%Z else (-1)%Z)))
  | CEnd => Ok (inr s)
  | CSkip => Ok (inl (St (x s + dx s) (y s + dy s) (dx s) (dy s) (str s) (stack s) (sp s) (printed s)))
  | CPlain c => if str s then do s <- push s (char_value c); Ok (inl s) else Ok (inl s)
  end.
(** dispatch[y][x] of int indices, then the statement, then the move *)
Definition step (g : grid) (s : st) : res (st + st) :=
  if ((0 <=? y s) && (y s <? 25) && (0 <=? x s) && (x s <? 80))%Z then
    do r <- statement (cell_code (g (Z.to_nat (y s)) (Z.to_nat (x s)))) s;
    Ok (match r with inl s => inl (move s) | inr s => inr s end)
  else UB.
(** [n] steps, or fewer if the block ends *)
Fixpoint steps (n : nat) (g : grid) (s : st) : res (st + st) :=
  match n with
  | O => Ok (inl s)
  | S n => do r <- step g s; match r with inl s => steps n g s | inr s => Ok (inr s) end
  end.
Definition run (n : nat) (body : bytes) : res (st + st) :=
  do g <- load body; if compiles g then steps n g start else Panic.
