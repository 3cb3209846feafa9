(** Model of src/utils/colors.c: what printf and fprintf write in the whole compiler (colors.h, 21-26, replaces them).
    Simplified: the text is given as it is after the conversions of the format; writing to a terminal and vsnprintf do
    not fail. *)
From Verif Require Import Common.
Local Open Scope nat_scope.

Definition rd (b : bytes) (i : nat) : res N := match nth_error b i with Some c => Ok c | None => UB end.
Definition wr (b : bytes) (i : nat) (c : N) : res bytes := if i <? length b then Ok (upd b i c) else UB.
(** the inner loop, 27-34: the place behind the sequence *)
Fixpoint past (fuel : nat) (b : bytes) (r : nat) : res nat :=
  match fuel with 0 => Fuel | S fuel =>
    do c <- rd b r;
    if (c =? 0)%N then Ok r else if (c =? 109)%N then Ok (S r) else past fuel b (S r)
  end.
(** strip_ansi_codes, 19-42: two places in one buffer *)
Fixpoint strip (fuel : nat) (b : bytes) (r w : nat) : res bytes :=
  match fuel with 0 => Fuel | S fuel =>
    do c <- rd b r;
    if (c =? 0)%N then wr b w 0%N
    else do esc <- (if (c =? 27)%N then do d <- rd b (S r); Ok (d =? 91)%N else Ok false);
         if esc then do r <- past (S (length b)) b (S (S r)); strip fuel b r w
         else do b <- wr b w c; strip fuel b (S r) (S w)
  end.
(** strlen *)
Fixpoint cstring (b : bytes) : res bytes :=
  match b with [] => UB | c :: r => if (c =? 0)%N then Ok [] else do s <- cstring r; Ok (c :: s) end.

Record world := World { tty : bool; memory : bool; room : nat; junk : bytes }.
(** zvfprintf, 44-84: what is written and the value returned.  [room]: how many bytes fwrite takes; [junk]: what is in
    the buffer behind the text *)
Definition print (k : world) (text : bytes) : res (bytes * Z) :=
  if tty k then Ok (text, Z.of_nat (length text))
  else if (4096 <=? length text) && negb (memory k) then Ok ([], (-1)%Z)
  else let b := text ++ 0%N :: (if 4096 <=? length text then [] else junk k) in
       do b <- strip (S (length b)) b 0 0;
       do s <- cstring b;
       Ok (firstn (room k) s, Z.of_nat (length s)).
(** several calls *)
Fixpoint prints (k : world) (l : list bytes) : res bytes :=
  match l with [] => Ok [] | t :: l => do '(a, _) <- print k t; do b <- prints k l; Ok (a ++ b) end.
(** a string literal in the C file, src/codegen/codegen.c 39 *)
Definition literal (k : world) (s : bytes) : res (bytes * Z) := print k ([34%N] ++ s ++ [34%N]).
