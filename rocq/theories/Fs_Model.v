(** Model of std/fs.zc and std/sys/fs.zc over a small model of POSIX files: File.open,
    write_string, close, read_to_string, read_all, exists, metadata, remove_file,
    read_dir, current_dir.
    Not modelled: freeing, directories as places (create_dir, remove_dir), files opened for
    writing twice at the same time, and files changed by others while they are read. *)
From Verif Require Import Common Vec_Model String_Model.

(** What a path names: a regular file, or something else that can be opened, with the
    position ftell reports at its end and the bytes it delivers (a pipe: -1) *)
Inductive node := Reg (content : bytes) | Other (tell : Z) (content : bytes).

(** The disk: the nodes by path, and how many more bytes it can hold *)
Record disk := mkdisk { nodes : list (bytes * node); room : nat }.

Fixpoint lookup (l : list (bytes * node)) (p : bytes) : option node :=
  match l with
  | [] => None
  | (q, n) :: l => if beq_bytes p q then Some n else lookup l p
  end.
Definition remove (l : list (bytes * node)) (p : bytes) : list (bytes * node) :=
  filter (fun e => negb (beq_bytes p (fst e))) l.
Definition store (l : list (bytes * node)) (p : bytes) (n : node) : list (bytes * node) := (p, n) :: remove l p.

(** result.zc: Result<T> *)
Inductive result (A : Type) := ok (v : A) | err (msg : bytes).
Arguments ok {A} _. Arguments err {A} _.

(** fs.zc:33-35: an open FILE: what it names and the bytes in its buffer not yet written;
    [None] is a NULL handle *)
Record stream := mkstream { s_path : bytes; pending : bytes }.
Definition file := option stream.

(** sys/fs.zc:13-15 with the modes w (create or empty the file), a (create it or keep it)
    and rb (it must exist) *)
Inductive mode := Wr | Ap | Rd.
Definition fopen (d : disk) (p : bytes) (m : mode) : disk * file :=
  match lookup (nodes d) p, m with
  | None, Rd => (d, None)
  | None, _ => (mkdisk (store (nodes d) p (Reg [])) (room d), Some (mkstream p []))
  | Some (Reg b), Wr => (mkdisk (store (nodes d) p (Reg [])) (room d + length b), Some (mkstream p []))
  | Some _, _ => (d, Some (mkstream p []))
  end.

(** fs.zc:49-55 *)
Definition open (d : disk) (p : bytes) (m : mode) : disk * result file :=
  match fopen d p m with
  | (d, None) => (d, err (bs "Failed to open file"))
  | (d, f) => (d, ok f)
  end.

(** Writing the buffer to the disk: as much as there is room for; [false] if that is not all *)
Definition flush (d : disk) (s : stream) : disk * bool :=
  match lookup (nodes d) (s_path s) with
  | Some (Reg b) =>
    let k := Nat.min (room d) (length (pending s)) in
    (mkdisk (store (nodes d) (s_path s) (Reg (b ++ firstn k (pending s)))) (room d - k), k =? length (pending s))
  | _ => (d, true)
  end.

(** fs.zc:107-118 with sys/fs.zc:25-27: fwrite keeps the bytes in the buffer or, when
    [now] (the library decides), writes the buffer out *)
Definition write_string (d : disk) (f : file) (content : bytes) (now : bool) : disk * file * result bool :=
  match f with
  | None => (d, f, err (bs "File not open"))
  | Some s =>
    let s := mkstream (s_path s) (pending s ++ cstr content) in
    if now then
      let '(d, all) := flush d s in
      (d, Some (mkstream (s_path s) []), if all then ok true else err (bs "Write incomplete"))
    else (d, Some s, ok true)
  end.

(** fs.zc:57-62: the result of fclose is dropped *)
Definition close (d : disk) (f : file) : disk * file :=
  match f with
  | None => (d, None)
  | Some s => (fst (flush d s), None)
  end.

(** fs.zc:64-90 for a file just opened for reading.  [malloc] tells whether so many bytes
    can be had; the bytes read must fit the buffer of (usize)size + 1 bytes *)
Definition read_to_string (malloc : N -> bool) (d : disk) (f : file) : res (result str) :=
  match f with
  | None => Ok (err (bs "File not open"))
  | Some s =>
    let '(size, content) :=
      match lookup (nodes d) (s_path s) with
      | Some (Reg b) => (Z.of_nat (length b), b)
      | Some (Other t b) => (t, b)
      | None => (0%Z, [])
      end in
    let usize := Z.to_N (size mod 2 ^ 64) in
    let cap := ((usize + 1) mod 2 ^ 64)%N in
    if malloc cap then
      let got := firstn (Nat.min (length content) (N.to_nat (N.min usize (N.of_nat (length content))))) content in
      if (N.of_nat (length got) + 1 <=? cap)%N then do s <- snew (got ++ [0%N]); Ok (ok s) else UB
    else Ok (err (bs "Out of memory"))
  end.

(** fs.zc:92-105 *)
Definition read_all (malloc : N -> bool) (d : disk) (p : bytes) : res (result str) :=
  match open d p Rd with
  | (_, err e) => Ok (err e)
  | (d, ok f) => read_to_string malloc d f
  end.

(** fs.zc:120-123 *)
Definition exists_ (d : disk) (p : bytes) : bool := match lookup (nodes d) p with Some _ => true | None => false end.

(** fs.zc:125-141: size and is_file *)
Definition metadata (d : disk) (p : bytes) : result (N * bool) :=
  match lookup (nodes d) p with
  | None => err (bs "Failed to get metadata")
  | Some (Reg b) => ok (N.of_nat (length b), true)
  | Some (Other _ _) => ok (0%N, false)
  end.

(** fs.zc:152-159 *)
Definition remove_file (d : disk) (p : bytes) : disk * result bool :=
  match lookup (nodes d) p with
  | None => (d, err (bs "Failed to remove file"))
  | Some n => (mkdisk (remove (nodes d) p) (room d + match n with Reg b => length b | Other _ _ => 0 end), ok true)
  end.

(** What readdir returns for an entry: its name and type *)
Inductive dtype := DtDir | DtReg | DtUnknown.
(** sys/fs.zc:57-68: strncpy of at most 255 bytes *)
Definition read_entry (e : bytes * dtype) : bytes * bool :=
  (firstn (N.to_nat 255) (fst e), match snd e with DtDir => true | _ => false end).

(** fs.zc:187-206 *)
Fixpoint read_dir_loop (es : list (bytes * dtype)) : res (list (str * bool)) :=
  match es with
  | [] => Ok []
  | e :: es =>
    let '(name, is_d) := read_entry e in
    if beq_bytes name (bs ".") || beq_bytes name (bs "..") then read_dir_loop es
    else do s <- snew name; do l <- read_dir_loop es; Ok ((s, is_d) :: l)
  end.
(** fs.zc:170-216; [None]: opendir fails *)
Definition read_dir (dir : option (list (bytes * dtype))) : res (result (list (str * bool))) :=
  match dir with
  | None => Ok (err (bs "Failed to open directory"))
  | Some es => do l <- read_dir_loop es; Ok (ok l)
  end.

(** fs.zc:218-234: getcwd fails when the path and its NUL do not fit *)
Definition current_dir (cwd : bytes) : res (result str) :=
  if (N.of_nat (length cwd) + 1 <=? 1024)%N then do s <- snew cwd; Ok (ok s)
  else Ok (err (bs "Failed to get current directory")).
