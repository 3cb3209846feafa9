(** The regex plugin (plugins/regex.c): a pattern becomes a C function that tells whether a
    text matches.

    Modelled: regex_transpile and emit_match_logic: which statements are written for a
    pattern, and what the function of these statements returns for a text.  A cursor into the
    text is the list of bytes left; moving past its terminator is undefined.  A function with a
    quote or a backslash between single quotes is not valid C: its [run] is [Panic], a build
    that fails.  Simplified: the text of the C statements is left out, they are values; bytes
    above 127 in a pattern are taken as they are (as gcc does). *)
From Verif Require Import Common.
Local Open Scope Z_scope.

(** isspace *)
Definition space (c : N) : bool := (((9 <=? c) && (c <=? 13)) || (c =? 32))%N.
Fixpoint skip_sp (p : bytes) : bytes :=
  match p with x :: r => if space x then skip_sp r else p | [] => [] end.

(** regex.c:142-171 the statements on [match]; 61-66, 72-221 the statements on the cursor [c] *)
Inductive test := TRange (a b : N) | TChar (c : N).
Inductive quant := Plus | Star.
Inductive rstmt := REnd | RAny | RLit (c : N) | RClass (q : option quant) (invert : bool) (l : list test).

(** regex.c:74-83: the text up to the first closing bracket *)
Fixpoint scan_class (p : bytes) : option (bytes * bytes) :=
  match p with
  | [] => None
  | x :: r => if (x =? 93)%N then Some ([], r)
              else match scan_class r with Some (a, b) => Some (x :: a, b) | None => None end
  end.

(** regex.c:138-172: the characters and ranges of a class *)
Fixpoint tests (n : nat) (p : bytes) : list test :=
  match n, p with
  | S n, x :: r =>
    if space x then tests n r
    else match skip_sp r with
         | 45%N :: r2 =>
           match skip_sp r2 with
           | e :: r3 => TRange x e :: tests n r3
           | [] => TChar x :: tests n r
           end
         | _ => TChar x :: tests n r
         end
  | _, _ => []
  end.

(** regex.c:121-136 *)
Definition class_body (inside : bytes) : bool * bytes :=
  match skip_sp inside with
  | 94%N :: r => (true, skip_sp r)
  | p => (false, p)
  end.

(** regex.c:86-95 *)
Definition quantifier (after : bytes) : option quant :=
  match skip_sp after with
  | 43%N :: _ => Some Plus
  | 42%N :: _ => Some Star
  | _ => None
  end.

(** regex.c:49-222 emit_match_logic *)
Fixpoint emit (n : nat) (p : bytes) : list rstmt :=
  match n, p with
  | S n, x :: r =>
    if space x then emit n r
    else if (x =? 94)%N then emit n r
    else if (x =? 36)%N then REnd :: emit n r
    else if (x =? 91)%N then
      match scan_class r with
      | None => []
      | Some (inside, after) =>
        let '(invert, body) := class_body inside in
        let q := quantifier after in
        RClass q invert (tests (length body) body) ::
          emit n (match q with Some _ => tl (skip_sp after) | None => after end)
      end
    else if (x =? 46)%N then RAny :: emit n r
    else RLit x :: emit n r
  | _, _ => []
  end.

(** regex.c:17-29: blanks are cut off both ends *)
Definition trim (p : bytes) : bytes := rev (skip_sp (rev (skip_sp p))).
(** regex.c:9-47 regex_transpile *)
Definition regex_transpile (body : bytes) : list rstmt := let p := trim body in emit (length p) p.

(** What may stand between single quotes in C *)
Definition quotable (c : N) : bool := negb ((c =? 39) || (c =? 92))%N.
Definition c_test (t : test) : bool := match t with TRange a b => quotable a && quotable b | TChar c => quotable c end.
Definition c_stmt (s : rstmt) : bool :=
  match s with REnd | RAny => true | RLit c => quotable c | RClass _ _ l => forallb c_test l end.

(** The C function at work.  A char is signed. *)
Definition schar (c : N) : Z := if (c <? 128)%N then Z.of_N c else Z.of_N c - 256.
Definition deref (c : bytes) : N := hd 0%N c.
Definition adv (c : bytes) : res bytes := match c with _ :: r => Ok r | [] => UB end.
Definition test_holds (ch : N) (t : test) : bool :=
  match t with TRange a b => (schar a <=? schar ch) && (schar ch <=? schar b) | TChar c => schar ch =? schar c end.
Definition matched (invert : bool) (l : list test) (ch : N) : bool :=
  let m := existsb (test_holds ch) l in if invert then negb m else m.
(** regex.c:103-114, 179-187: the loop of a class with a quantifier: whether any character was
    taken, and the cursor *)
Fixpoint eat (invert : bool) (l : list test) (c : bytes) (some : bool) : bool * bytes :=
  match c with
  | [] => (some, [])
  | ch :: r => if matched invert l ch then eat invert l r true else (some, c)
  end.

Fixpoint exec (p : list rstmt) (c : bytes) : res bool :=
  match p with
  | [] => Ok true
  | REnd :: p => if (deref c =? 0)%N then exec p c else Ok false
  | RAny :: p => if (deref c =? 0)%N then Ok false else do c <- adv c; exec p c
  | RLit x :: p => if (deref c =? x)%N then do c <- adv c; exec p c else Ok false
  | RClass None invert l :: p =>
    if (deref c =? 0)%N then Ok false
    else if matched invert l (deref c) then do c <- adv c; exec p c else Ok false
  | RClass (Some q) invert l :: p =>
    let '(some, c) := eat invert l c false in
    match q, some with
    | Plus, false => Ok false
    | _, _ => exec p c
    end
  end.

(** What the block yields for a text *)
Definition run (body text : bytes) : res bool :=
  let p := regex_transpile body in if forallb c_stmt p then exec p text else Panic.
