(** Specification of Vec: programs operating on several vectors, with mathematical
    lists as the reference. *)
From Verif Require Import Common.

(** A program step.  Vectors are named by their creation number. *)
Inductive vop (A : Type) :=
| VNew | VWithCap (n : nat)
| VPush (i : nat) (x : A) | VInsert (i k : nat) (x : A)
| VPop (i : nat) | VPopOpt (i : nat) | VRemove (i k : nat)
| VAppend (i j : nat)             (* moves vector j: j is empty afterwards *)
| VGet (i k : nat) | VFirst (i : nat) | VLast (i : nat) | VSet (i k : nat) (x : A)
| VLength (i : nat) | VIsEmpty (i : nat)
| VContains (i : nat) (x : A) | VEq (i j : nat)   (* moves vector j *)
| VClear (i : nat) | VFree (i : nat) | VClone (i : nat)
| VIterate (i : nat).             (* for x in v: collects the visited items *)
Arguments VNew {A}. Arguments VWithCap {A}. Arguments VPush {A}. Arguments VInsert {A}.
Arguments VPop {A}. Arguments VPopOpt {A}. Arguments VRemove {A}. Arguments VAppend {A}.
Arguments VGet {A}. Arguments VFirst {A}. Arguments VLast {A}. Arguments VSet {A}.
Arguments VLength {A}. Arguments VIsEmpty {A}. Arguments VContains {A}. Arguments VEq {A}.
Arguments VClear {A}. Arguments VFree {A}. Arguments VClone {A}. Arguments VIterate {A}.

(** What the caller sees. *)
Inductive vout (A : Type) :=
| Unit | Val (x : A) | Opt (o : option A) | Num (n : nat) | Bool (b : bool)
| Items (l : list A) | NoSuch.
Arguments Unit {A}. Arguments Val {A}. Arguments Opt {A}. Arguments Num {A}.
Arguments Bool {A}. Arguments Items {A}. Arguments NoSuch {A}.

Section Spec.
  Context {A : Type}.
  Variable rep_eq : A -> A -> bool.

  Fixpoint eq_lists (l1 l2 : list A) : bool :=
    match l1, l2 with
    | [], [] => true
    | x :: a, y :: b => rep_eq x y && eq_lists a b
    | _, _ => false
    end.

  (** Reference semantics; [None] = the program stops with a panic. *)
  Definition on (st : list (list A)) (i : nat)
             (f : list A -> option (list A * vout A)) : option (list (list A) * vout A) :=
    match nth_error st i with
    | None => Some (st, NoSuch)
    | Some l => match f l with
                | None => None
                | Some (l', o) => Some (upd st i l', o)
                end
    end.

  Definition spec_step (st : list (list A)) (op : vop A)
    : option (list (list A) * vout A) :=
    match op with
    | VNew | VWithCap _ => Some (st ++ [[]], Unit)
    | VPush i x => on st i (fun l => Some (l ++ [x], Unit))
    | VInsert i k x => on st i (fun l =>
        if k <=? length l then Some (firstn k l ++ x :: skipn k l, Unit) else None)
    | VPop i => on st i (fun l => match rev l with
                                  | [] => None
                                  | x :: r => Some (rev r, Val x)
                                  end)
    | VPopOpt i => on st i (fun l => match rev l with
                                     | [] => Some ([], Opt None)
                                     | x :: r => Some (rev r, Opt (Some x))
                                     end)
    | VRemove i k => on st i (fun l => match nth_error l k with
                                       | None => None
                                       | Some x => Some (firstn k l ++ skipn (S k) l, Val x)
                                       end)
    | VAppend i j =>
        if i =? j then Some (st, NoSuch) else
        match nth_error st j with
        | None => Some (st, NoSuch)
        | Some m => match nth_error st i with
                    | None => Some (st, NoSuch)
                    | Some l => Some (upd (upd st i (l ++ m)) j [], Unit)
                    end
        end
    | VGet i k => on st i (fun l => option_map (fun x => (l, Val x)) (nth_error l k))
    | VFirst i => on st i (fun l => option_map (fun x => (l, Val x)) (nth_error l 0))
    | VLast i => on st i (fun l => match rev l with [] => None | x :: _ => Some (l, Val x) end)
    | VSet i k x => on st i (fun l => if k <? length l then Some (upd l k x, Unit) else None)
    | VLength i => on st i (fun l => Some (l, Num (length l)))
    | VIsEmpty i => on st i (fun l => Some (l, Bool (match l with [] => true | _ => false end)))
    | VContains i x => on st i (fun l => Some (l, Bool (existsb (fun y => rep_eq y x) l)))
    | VEq i j =>
        if i =? j then Some (st, NoSuch) else
        match nth_error st j with
        | None => Some (st, NoSuch)
        | Some m => match nth_error st i with
                    | None => Some (st, NoSuch)
                    | Some l => Some (upd st j [], Bool (eq_lists l m))
                    end
        end
    | VClear i | VFree i => on st i (fun l => Some ([], Unit))
    | VClone i => match nth_error st i with
                  | None => Some (st, NoSuch)
                  | Some l => Some (st ++ [l], Unit)
                  end
    | VIterate i => on st i (fun l => Some (l, Items l))
    end.

  Fixpoint spec_run (st : list (list A)) (ops : list (vop A))
    : option (list (list A) * list (vout A)) :=
    match ops with
    | [] => Some (st, [])
    | op :: ops => match spec_step st op with
                   | None => None
                   | Some (st, o) => match spec_run st ops with
                                     | None => None
                                     | Some (st, os) => Some (st, o :: os)
                                     end
                   end
    end.
End Spec.
