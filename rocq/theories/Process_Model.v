(** Model of std/process.zc: building the command line, collecting a child's output.
    Not modelled: freeing, and read errors of the pipe. *)
From Verif Require Import Common Vec_Model String_Model.

(** process.zc:24-27: args is a Vec<String> *)
Record command := mkcmd { program : str; args : list str }.

(** process.zc:30-35 *)
Definition command_new (p : bytes) : res command := do p <- snew p; Ok (mkcmd p []).

(** process.zc:37-40 *)
Definition command_arg (c : command) (a : bytes) : res command :=
  do a <- snew a; Ok (mkcmd (program c) (args c ++ [a])).

(** process.zc:45-51 *)
Fixpoint put_args (o : str) (l : list str) : res str :=
  match l with
  | [] => Ok o
  | a :: l =>
    do sp <- snew (bs " ");
    do o <- sappend o sp;
    do o <- sappend o a;
    put_args o l
  end.

(** process.zc:42-54 *)
Definition build_cmd (c : command) : res str :=
  do s <- ssubstring (program c) 0 (N.of_nat (slength (program c)));
  put_args s (args c).

(** C's fgets on the bytes the stream still holds: up to [n] - 1 bytes, through the first
    newline; [None] at the end of the stream *)
Fixpoint line (n : nat) (s : bytes) : bytes * bytes :=
  match n, s with
  | 0, _ => ([], s)
  | _, [] => ([], [])
  | S n, c :: s => if (c =? 10)%N then ([c], s) else let '(l, r) := line n s in (c :: l, r)
  end.
Definition fgets (n : nat) (s : bytes) : option (bytes * bytes) :=
  match s with [] => None | _ => Some (line (n - 1) s) end.

(** process.zc:75-82; [String::from] reads the buffer up to the first NUL *)
Fixpoint collect (fuel : nat) (out : str) (s : bytes) : res str :=
  match fuel with
  | 0 => Fuel
  | S fuel =>
    match fgets (N.to_nat 1024) s with
    | None => Ok out
    | Some (buf, s) =>
      do chunk <- snew buf;
      do out <- sappend out chunk;
      collect fuel out s
    end
  end.

(** How a child ends *)
Inductive ending := Exited (code : N) | Killed (signal : N).
(** pclose and system return the wait status (Linux encoding, no core dump) *)
Definition wait_status (e : ending) : Z :=
  match e with Exited n => 256 * Z.of_N n | Killed s => Z.of_N s end.

(** process.zc:19-22 *)
Record output := mkout { std_out : str; exit_code : Z }.

(** process.zc:56-92.  [popen l]: what the shell writes to the pipe when given the line
    [l] and how it ends; [None] if it cannot be started. *)
Definition command_output (popen : bytes -> option (bytes * ending)) (c : command) : res output :=
  do cmd <- build_cmd c;
  do l <- cread (data cmd);
  match popen l with
  | None => do e <- snew []; Ok (mkout e (-1))
  | Some (s, e) =>
    do out <- snew [];
    do out <- collect (S (length s)) out s;
    Ok (mkout out (wait_status e))
  end.

(** process.zc:94-99; system returns -1 when no child can be made *)
Definition command_status (system : bytes -> option ending) (c : command) : res Z :=
  do cmd <- build_cmd c;
  do l <- cread (data cmd);
  Ok (match system l with Some e => wait_status e | None => -1 end)%Z.
