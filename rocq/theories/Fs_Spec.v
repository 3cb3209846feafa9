(** Files as a map from paths to contents. *)
From Verif Require Import Common.

(** One use of the API by a program *)
Inductive fsop :=
| Write (p : bytes) (texts : list (bytes * bool))  (** open "w", write_string each, close *)
| Append (p : bytes) (texts : list (bytes * bool)) (** the same with "a" *)
| Read (p : bytes)     (** File::read_all *)
| Exists (p : bytes)
| Size (p : bytes)     (** File::metadata *)
| Remove (p : bytes).

(** What the program sees *)
Inductive answer := Written (all_ok : bool) | Text (t : option bytes) | Yes (b : bool) | Bytes (n : option N).

Definition files := bytes -> option bytes.
Definition set (f : files) (p : bytes) (v : option bytes) : files :=
  fun q => if beq_bytes q p then v else f q.

Definition all_texts (ts : list (bytes * bool)) : bytes := flat_map fst ts.

Definition fs_step (f : files) (op : fsop) : files * answer :=
  match op with
  | Write p ts => (set f p (Some (all_texts ts)), Written true)
  | Append p ts => (set f p (Some (match f p with Some b => b | None => [] end ++ all_texts ts)), Written true)
  | Read p => (f, Text (f p))
  | Exists p => (f, Yes (match f p with Some _ => true | None => false end))
  | Size p => (f, Bytes (option_map (fun b => N.of_nat (length b)) (f p)))
  | Remove p => (set f p None, Written (match f p with Some _ => true | None => false end))
  end.
Fixpoint fs_run (f : files) (ops : list fsop) : list answer :=
  match ops with
  | [] => []
  | op :: ops => let '(f, a) := fs_step f op in a :: fs_run f ops
  end.

(** Bytes an operation asks the disk to hold; texts are C strings *)
Definition asks (op : fsop) : nat :=
  match op with Write _ ts | Append _ ts => length (all_texts ts) | _ => 0 end.
Definition c_texts (op : fsop) : Prop :=
  match op with Write _ ts | Append _ ts => ~ In 0%N (all_texts ts) | _ => True end.
