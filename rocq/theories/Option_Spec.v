(** Options with ownership: an option holds an object or nothing until it is used up, and
    whoever holds an object when it ends drops it. *)
From Verif Require Import Common Option_Model.
Local Open Scope nat_scope.

(** [Gone]: the option was used up or has ended *)
Inductive iopt := Gone | Holds (x : option nat).
(** Variables: [None] after their end *)
Record ist := { iopts : list iopt; ivars : list (option nat); inext : nat }.
Definition iempty : ist := Build_ist [] [] 0.

(** [Some r]: allowed, with result [r]; a panic is [Some None].  [None]: the program uses an
    option again that was used up, or something that does not exist. *)
Definition held (s : ist) (i : nat) : option (option nat) :=
  match nth_error (iopts s) i with Some (Holds x) => Some x | _ => None end.
Definition drops (x : option nat) : list event := match x with Some n => [Dropped (Obj n)] | None => [] end.
Definition gives (s : ist) (i n m : nat) (ev : list event) : option (option (ist * list event)) :=
  Some (Some (Build_ist (upd (iopts s) i Gone) (ivars s ++ [Some n]) m, ev ++ [Got (Obj n)])).
Definition istep (s : ist) (o : op) : option (option (ist * list event)) :=
  match o with
  | OSome => Some (Some (Build_ist (iopts s ++ [Holds (Some (inext s))]) (ivars s) (S (inext s)), []))
  | ONone => Some (Some (Build_ist (iopts s ++ [Holds None]) (ivars s) (inext s), []))
  | OTest i => match held s i with Some x => Some (Some (s, [Told (match x with Some _ => true | None => false end)])) | None => None end
  | OUnwrap i | OExpect i =>
    match held s i with
    | Some (Some n) => gives s i n (inext s) []
    | Some None => Some None
    | None => None
    end
  | OUnwrapOr i =>
    match held s i with
    | Some (Some n) => gives s i n (S (inext s)) [Dropped (Obj (inext s))]
    | Some None => gives s i (inext s) (S (inext s)) []
    | None => None
    end
  | OOrElse i j =>
    if i =? j then None else
    match held s i, held s j with
    | Some x, Some y =>
      let l := upd (upd (iopts s) i Gone) j Gone in
      match x with
      | Some n => Some (Some (Build_ist (l ++ [Holds x]) (ivars s) (inext s), drops y))
      | None => Some (Some (Build_ist (l ++ [Holds y]) (ivars s) (inext s), []))
      end
    | _, _ => None
    end
  | OForget i | OEnd i =>
    match held s i with
    | Some x => Some (Some (Build_ist (upd (iopts s) i Gone) (ivars s) (inext s), drops x))
    | None => None
    end
  | ODrop k =>
    match nth_error (ivars s) k with
    | Some (Some n) => Some (Some (Build_ist (iopts s) (upd (ivars s) k None) (inext s), [Dropped (Obj n)]))
    | _ => None
    end
  end.
Fixpoint irun (s : ist) (l : list op) : option (option (ist * list event)) :=
  match l with
  | [] => Some (Some (s, []))
  | o :: r =>
    match istep s o with
    | Some (Some (s1, e1)) =>
      match irun s1 r with Some (Some (s2, e2)) => Some (Some (s2, e1 ++ e2)) | x => x end
    | x => x
    end
  end.
(** The places where an option is left with an object in it: its end, forget, and the
    second option of or_else *)
Definition abandons (s : ist) (o : op) : bool :=
  match o with
  | OForget i | OEnd i => match held s i with Some (Some _) => true | _ => false end
  | OOrElse i j => match held s i, held s j with Some (Some _), Some (Some _) => true | _, _ => false end
  | _ => false
  end.
Fixpoint careful (s : ist) (l : list op) : Prop :=
  match l with
  | [] => True
  | o :: r => abandons s o = false /\ match istep s o with Some (Some (s1, _)) => careful s1 r | _ => True end
  end.
(** How often an object is in an option, in a variable, or was dropped *)
Definition in_opt (n : nat) (x : iopt) : nat := match x with Holds (Some m) => if n =? m then 1 else 0 | _ => 0 end.
Definition in_var (n : nat) (x : option nat) : nat := match x with Some m => if n =? m then 1 else 0 | None => 0 end.
Definition in_event (n : nat) (e : event) : nat := match e with Dropped (Obj m) => if n =? m then 1 else 0 | _ => 0 end.
Fixpoint total {A} (f : A -> nat) (l : list A) : nat := match l with [] => 0 | x :: r => f x + total f r end.
Definition dropped (n : nat) (l : list event) : nat := total (in_event n) l.
