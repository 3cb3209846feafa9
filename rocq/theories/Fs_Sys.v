(** A program that uses the API. *)
From Verif Require Import Common Vec_Model String_Model Fs_Model Fs_Spec.

Definition is_ok {A} (r : result A) : bool := match r with ok _ => true | err _ => false end.

Fixpoint write_all (d : disk) (f : file) (ts : list (bytes * bool)) : disk * file * bool :=
  match ts with
  | [] => (d, f, true)
  | (t, now) :: ts =>
    let '(d, f, r) := write_string d f t now in
    let '(d, f, b) := write_all d f ts in (d, f, is_ok r && b)
  end.
Definition put (d : disk) (p : bytes) (m : mode) (ts : list (bytes * bool)) : disk * answer :=
  match open d p m with
  | (d, err _) => (d, Written false)
  | (d, ok f) => let '(d, f, b) := write_all d f ts in (fst (close d f), Written b)
  end.

Definition sys_step (malloc : N -> bool) (d : disk) (op : fsop) : res (disk * answer) :=
  match op with
  | Write p ts => Ok (put d p Wr ts)
  | Append p ts => Ok (put d p Ap ts)
  | Read p =>
    do r <- read_all malloc d p;
    match r with
    | ok s => do b <- cread (data s); Ok (d, Text (Some b))
    | err _ => Ok (d, Text None)
    end
  | Exists p => Ok (d, Yes (exists_ d p))
  | Size p => Ok (d, Bytes (match metadata d p with ok (n, _) => Some n | err _ => None end))
  | Remove p => let '(d, r) := remove_file d p in Ok (d, Written (is_ok r))
  end.
Fixpoint sys_run (malloc : N -> bool) (d : disk) (ops : list fsop) : res (list answer) :=
  match ops with
  | [] => Ok []
  | op :: ops =>
    do r <- sys_step malloc d op;
    do l <- sys_run malloc (fst r) ops;
    Ok (snd r :: l)
  end.
