(** What a regular expression library promises, and what the wrappers should do. *)
From Verif Require Import Common.

(** A pattern: [lang t i j] when it matches the bytes i..j of the text t. *)
Definition pattern := bytes -> nat -> nat -> Prop.

(** The library returns a match with the leftmost start, if there is a match. *)
Definition implements (e : bytes -> option (nat * nat)) (lang : pattern) : Prop :=
  forall t, match e t with
  | Some (i, j) => i <= j <= length t /\ lang t i j /\ (forall i' j', i' <= j' <= length t -> lang t i' j' -> i <= i')
  | None => forall i j, i <= j <= length t -> ~ lang t i j
  end.

(** Bytes i..j of t *)
Definition piece (t : bytes) (i j : nat) : bytes := firstn (j - i) (skipn i t).

(** The pattern that is a plain string *)
Definition literal (w : bytes) : pattern := fun t i j => piece t i j = w.

(** Somewhere in t there is the string w *)
Definition occurs (w t : bytes) : Prop := exists a b, t = a ++ w ++ b.
