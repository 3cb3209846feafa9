(** Model of readln, std/io.zc:83-122.  Standard input is the list of bytes still to
    be read; memory allocation succeeds; sizes are unbounded (a line of 2^63 bytes
    would be needed for cap * 2 to wrap). *)
From Verif Require Import Common String_Model.

(** The loop, io.zc:92-112.  Result: buffer, length, whether end of file stopped it,
    remaining input. *)
Fixpoint readln_loop (inp : bytes) (line : buf N) (len cap : nat) : res (buf N * nat * bool * bytes) :=
  match inp with
  | [] => Ok (line, len, true, [])
  | c :: inp =>
    if (c =? 10)%N then Ok (line, len, false, inp)
    else
      let grow := cap <=? len + 1 in
      let line := if grow then brealloc line (cap * 2) else line in
      let cap := if grow then cap * 2 else cap in
      do line <- bset line len c;
      readln_loop inp line (len + 1) cap
  end.

(** io.zc:83-122; [None] is NULL *)
Definition readln (inp : bytes) : res (option (buf N) * bytes) :=
  do '(line, len, eof, rest) <- readln_loop inp (bnew 64) 0 64;
  if (len =? 0) && eof then Ok (None, rest)
  else do line <- bset line len 0%N; Ok (Some line, rest).

(** A caller reading until NULL, each time looking at the text returned. *)
Fixpoint read_all (fuel : nat) (inp : bytes) : res (list bytes) :=
  match fuel with
  | 0 => Fuel
  | S f =>
    do '(o, rest) <- readln inp;
    match o with
    | None => Ok []
    | Some line => do t <- cread line; do ts <- read_all f rest; Ok (t :: ts)
    end
  end.
