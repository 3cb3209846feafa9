(** Befunge-93, without the instructions for input and chance: a torus of 80 columns and 25
    rows, a stack of numbers that gives 0 when it is empty, and a pointer that moves over it.
    A division by 0 gives 0 (the language leaves it to the user). *)
From Verif Require Import Common Befunge_Model.
Local Open Scope Z_scope.
Local Delimit Scope string_scope with string.

(** the lines of a text *)
Fixpoint lines (p : bytes) : list bytes :=
  match p with
  | [] => [[]]
  | c :: p => if (c =? 10)%N then [] :: lines p else match lines p with l :: ls => (c :: l) :: ls | [] => [[c]] end
  end.
Definition torus := Z -> Z -> Z.      (* row, column *)
Record bst := B { col : Z; row : Z; dcol : Z; drow : Z; quoted : bool; vals : list Z; cells : torus; said : list out }.
Definition hd (l : list Z) : Z := match l with v :: _ => v | [] => 0 end.
Definition forward (s : bst) : bst :=
  B ((col s + dcol s) mod 80) ((row s + drow s) mod 25) (dcol s) (drow s) (quoted s) (vals s) (cells s) (said s).
Definition vals_ (s : bst) (l : list Z) : bst := B (col s) (row s) (dcol s) (drow s) (quoted s) l (cells s) (said s).
Definition go (s : bst) (a b : Z) (l : list Z) : bst := B (col s) (row s) a b (quoted s) l (cells s) (said s).
Definition say (s : bst) (o : out) (l : list Z) : bst := B (col s) (row s) (dcol s) (drow s) (quoted s) l (cells s) (said s ++ [o]).
Definition quote (s : bst) : bst := B (col s) (row s) (dcol s) (drow s) (negb (quoted s)) (vals s) (cells s) (said s).
Definition c_ (s : String.string) : Z := match bs s with c :: _ => Z.of_N c | [] => 0 end.
Arguments c_ s%string.
(** one instruction; [None]: the program ends *)
Definition instr_at (c : Z) (s : bst) : option bst :=
  let l := vals s in let a := hd l in let b := hd (tl l) in let r := tl (tl l) in
  let is := fun t => c =? c_ t in
  if quoted s then if c =? 34 then Some (quote s) else Some (vals_ s (c :: l))
  else if c =? 34 then Some (quote s)
  else if (48 <=? c) && (c <=? 57) then Some (vals_ s ((c - 48) :: l))
  else if is "+"%string then Some (vals_ s (b + a :: r))
  else if is "-"%string then Some (vals_ s (b - a :: r))
  else if is "*"%string then Some (vals_ s (b * a :: r))
  else if is "/"%string then Some (vals_ s ((if a =? 0 then 0 else Z.quot b a) :: r))
  else if is "%"%string then Some (vals_ s ((if a =? 0 then 0 else Z.rem b a) :: r))
  else if is "!"%string then Some (vals_ s ((if a =? 0 then 1 else 0) :: tl l))
  else if is "`"%string then Some (vals_ s ((if a <? b then 1 else 0) :: r))
  else if is ">"%string then Some (go s 1 0 l)
  else if is "<"%string then Some (go s (-1) 0 l)
  else if is "^"%string then Some (go s 0 (-1) l)
  else if is "v"%string then Some (go s 0 1 l)
  else if is "_"%string then Some (go s (if a =? 0 then 1 else -1) 0 (tl l))
  else if is "|"%string then Some (go s 0 (if a =? 0 then 1 else -1) (tl l))
  else if is ":"%string then Some (vals_ s (a :: a :: tl l))
  else if is "\"%string then Some (vals_ s (b :: a :: r))
  else if is "$"%string then Some (vals_ s (tl l))
  else if is "."%string then Some (say s (ONum a) (tl l))
  else if is ","%string then Some (say s (OChar (a mod 256)) (tl l))
  else if is "#"%string then Some (forward s)
  else if is "g"%string then Some (vals_ s (cells s a b :: r))
  else if is "p"%string then Some (B (col s) (row s) (dcol s) (drow s) false (tl r) (fun i j => if (i =? a) && (j =? b) then hd r else cells s i j) (said s))
  else if is "@"%string then None
  else Some s.
Definition instr (s : bst) : option bst := instr_at (cells s (row s) (col s)) s.
Definition bstep (s : bst) : bst + bst := match instr s with Some s => inl (forward s) | None => inr s end.
Fixpoint bsteps (n : nat) (s : bst) : bst + bst :=
  match n with O => inl s | S n => match bstep s with inl s => bsteps n s | inr s => inr s end end.
Definition begin (t : torus) : bst := B 0 0 1 0 false [] t [].

(** The instructions that take at least so many values, and leave at most so many more *)
Definition needs (c : Z) : nat :=
  if existsb (fun t => c =? c_ t) ["+"; "-"; "*"; "/"; "%"; "`"; "\"]%string then 2
  else if existsb (fun t => c =? c_ t) ["!"; "_"; "|"; ":"; "."; ","]%string then 1 else 0.
Definition instruction (c : Z) : bool :=
  existsb (fun t => c =? c_ t) [" "; "+"; "-"; "*"; "/"; "%"; "`"; "\"; "!"; "_"; "|"; ":"; "."; ","; "$"; "#"; "@"; ">"; "<"; "^"; "v"]%string.
Definition fits (v : Z) : Prop := - 2 ^ 63 <= v < 2 ^ 63.
(** What the plugin handles: in a string, characters of ASCII that are neither blanks nor
    instructions; outside of it, enough values on the stack, fewer than 1024 before an instruction that adds one,
    results of 64 bits, no bridge over an edge, none of g and p. *)
Record handled (s : bst) : Prop := {
  h_string : quoted s = true -> let c := cells s (row s) (col s) in c = 34 \/ ((c < 128 /\ instruction c = false) /\ Z.of_nat (length (vals s)) < 1024);
  h_code : quoted s = false -> let c := cells s (row s) (col s) in let a := hd (vals s) in let b := hd (tl (vals s)) in
    (needs c <= length (vals s))%nat /\ (48 <= c <= 57 \/ c = c_ ":" -> Z.of_nat (length (vals s)) < 1024) /\
    (c = c_ "+" -> fits (b + a)) /\ (c = c_ "-" -> fits (b - a)) /\ (c = c_ "*" -> fits (b * a)) /\
    (c = c_ "/" \/ c = c_ "%" -> a <> 0 -> fits (Z.quot b a)) /\
    (c = c_ "#" -> 0 <= col s + dcol s < 80 /\ 0 <= row s + drow s < 25) /\ c <> c_ "g" /\ c <> c_ "p" }.

(** a state of the C code for a state of the language *)
Record same (g : grid) (m : st) (s : bst) : Prop := {
  s_pos : x m = col s /\ y m = row s /\ 0 <= col s < 80 /\ 0 <= row s < 25;
  s_dir : dx m = dcol s /\ dy m = drow s /\ -1 <= dcol s <= 1 /\ -1 <= drow s <= 1;
  s_str : str m = quoted s; s_out : printed m = said s;
  s_sp : sp m = length (vals s); s_len : length (stack m) = Z.to_nat 1024;
  s_val : firstn (sp m) (stack m) = rev (vals s);
  s_cells : forall i j, 0 <= i < 25 -> 0 <= j < 80 -> cells s i j = Z.of_N (g (Z.to_nat i) (Z.to_nat j)) }.
(** the torus of a text *)
Definition torus_of (text : bytes) : torus := fun i j => Z.of_N (nth (Z.to_nat j) (nth (Z.to_nat i) (lines text) []) 32%N).
