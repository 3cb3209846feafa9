(** Model of the compiler driver after the command line is read: src/main.c:543-757
    (the checks, the temporary C file, the C compiler, running and removing), and
    src/platform/os.c:324-343 (z_run_command on POSIX).

    The parser, the checks, the code generator, the C compiler and the program are given: what
    each of them answers.  Files are a finite map from absolute paths (lists of components) to
    contents.  Simplifications: no links and no "..", files can be opened, renamed and removed,
    the extra source files (449-541) and messages are left out, the C compiler writes its output
    file or fails and writes nothing else; POSIX only. *)
From Verif Require Import Common.
Local Open Scope Z_scope.

(** ** Files *)
Definition path : Type := list bytes.
Fixpoint split_slash (s : bytes) : path :=
  match s with
  | [] => [[]]
  | c :: r => if (c =? 47)%N then [] :: split_slash r
              else match split_slash r with [] => [[c]] | p :: q => (c :: p) :: q end
  end.
Definition real (p : bytes) : bool := negb (beq_bytes p []) && negb (beq_bytes p (bs ".")).
(** the file a name means, in the working directory [cwd] *)
Definition resolve (cwd : path) (name : bytes) : path :=
  (match name with 47%N :: _ => [] | _ => cwd end) ++ filter real (split_slash name).
Fixpoint path_eqb (p q : path) : bool :=
  match p, q with [], [] => true | a :: p, b :: q => beq_bytes a b && path_eqb p q | _, _ => false end.
Definition files : Type := list (path * bytes).
Fixpoint lookup (fs : files) (p : path) : option bytes :=
  match fs with [] => None | (q, c) :: r => if path_eqb p q then Some c else lookup r p end.
Definition remove (fs : files) (p : path) : files := filter (fun '(q, _) => negb (path_eqb p q)) fs.
Definition write (fs : files) (p : path) (c : bytes) : files := (p, c) :: remove fs p.

(** ** What the command line asked for *)
Inductive mode := Build | Run | Check | Transpile.
Record config := Config {
  c_mode : mode; c_output : option bytes; c_emit_c : bool;     (* transpile sets it: 86-90 *)
  c_typecheck : bool; c_ext : bytes }.                          (* .c .cpp .cu .m: 585-597 *)
(** what the phases answer *)
Record phases := Phases {
  p_types : bool; p_moves : bool; p_check : bool;
  p_code : bytes;                                   (* the C text *)
  p_cc : bytes -> option bytes;                     (* the C compiler: the program, or an error *)
  p_exec : option bytes -> Z }.                     (* running the file of this content: the wait status *)

(** os.c:324-343: an exit status of the child, or -1.  A file that is not there: 127 *)
Definition wifexited (s : Z) : bool := Z.land s 127 =? 0.
Definition wexitstatus (s : Z) : Z := Z.land (Z.shiftr s 8) 255.
Definition run_command (ph : phases) (file : option bytes) : Z :=
  match file with
  | None => 127
  | Some _ => let s := p_exec ph file in if wifexited s then wexitstatus s else -1
  end.

Definition snprintf1024 (s : bytes) : bytes := firstn 1023 s.
(** 599-606 *)
Definition temp_source (c : config) : bytes :=
  match c_output c with Some o => snprintf1024 (o ++ c_ext c) | None => snprintf1024 (bs "out" ++ c_ext c) end.
(** 649-650 *)
Definition outfile (c : config) : bytes := match c_output c with Some o => o | None => bs "a.out" end.

(** 543-757: the exit value of main and the files afterwards; [None] also says which file ran *)
Definition main (cwd : path) (c : config) (ph : phases) (fs : files) : Z * files * option path :=
  let checked := c_typecheck c || match c_mode c with Check => true | _ => false end in
  if negb (p_types ph) then (1, fs, None)                                                  (* 546-550 *)
  else if negb checked && negb (p_moves ph) then (1, fs, None)                             (* 552-559 *)
  else if checked && negb (p_check ph) then (1, fs, None)                                  (* 561-570 *)
  else match c_mode c with
  | Check => (0, fs, None)                                                                 (* 573-581 *)
  | m =>
    let src := resolve cwd (temp_source c) in
    let fs := write fs src (p_code ph) in                                                  (* 610-618 *)
    match m with
    | Transpile =>                                                                         (* 620-646 *)
      match c_output c with
      | Some o => match lookup fs src with
                  | Some t => (0, write (remove fs src) (resolve cwd o) t, None)
                  | None => (1, fs, None) end
      | None => (0, fs, None)
      end
    | _ =>
      let out := resolve cwd (outfile c) in
      match match lookup fs src with Some t => p_cc ph t | None => None end with
      | None => (1, if c_emit_c c then fs else remove fs src, None)                        (* 671-679 *)
      | Some exe =>
        let fs := write fs out exe in
        let fs := if c_emit_c c then fs else remove fs src in                              (* 681-684 *)
        match m with
        | Run =>                                                                           (* 686-746 *)
          let run := resolve cwd (snprintf1024 (bs "./" ++ outfile c)) in
          let ret := run_command ph (lookup fs run) in
          let fs := remove fs out in
          (if wifexited ret then wexitstatus ret else ret, fs, Some run)
        | _ => (0, fs, None)
        end
      end
    end
  end.
(** what the shell sees of main's int *)
Definition shell_status (r : Z) : Z := r mod 256.
