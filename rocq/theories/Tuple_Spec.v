(** What a tuple type and a tuple literal should become. *)
From Verif Require Import Common Tuple_Model.

(** [x] with [s] between the elements *)
Fixpoint join (s : bytes) (l : list bytes) : bytes :=
  match l with [] => [] | [x] => x | x :: r => x ++ s ++ join s r end.
(** [s] occurs in [t] *)
Definition occurs (s t : bytes) : Prop := exists a b, t = a ++ s ++ b.
(** a name that keeps apart from the separator *)
Definition plain (t : bytes) : Prop := ~ occurs (bs "__") (t ++ bs "_").
(** what a C name is made of *)
Definition ident_char (c : N) : Prop := (48 <= c <= 57 \/ 65 <= c <= 90 \/ 97 <= c <= 122 \/ c = 95)%N.

(** the C text of a number, string or variable *)
Definition simple (e : elem) : option bytes :=
  match e with EInt t => Some t | EStr s => Some (quoted s) | EVar n => Some n | _ => None end.

(** An element of a literal: its parentheses are closed and its commas are inside them *)
Fixpoint closed (d : nat) (ts : list tok) : Prop :=
  match ts with
  | [] => d = O
  | t :: r => match tk_kind t, d with
              | KLp, _ => closed (S d) r
              | KRp, O => False
              | KRp, S d => closed d r
              | KComma, O => False
              | _, _ => closed d r
              end
  end.
Definition text (ts : list tok) : bytes := concat (map tk_text ts).
(** the elements with commas between them and a closing parenthesis *)
Fixpoint written (comma rp : bytes) (es : list (list tok)) : list tok :=
  match es with
  | [] => [Tok KRp rp]
  | [e] => e ++ [Tok KRp rp]
  | e :: r => e ++ Tok KComma comma :: written comma rp r
  end.

(** C wants the type of a field, and the target of a pointer, declared before *)
Fixpoint in_order (declared : list bytes) (l : list item) : Prop :=
  match l with
  | [] => True
  | ISlice t :: r => In t declared /\ in_order ((bs "Slice_" ++ t) :: declared) r
  | ITuple s :: r => Forall (fun t => In t declared) (pieces s) /\ in_order (tuple_name s :: declared) r
  | ITypedef n :: r => in_order (n :: declared) r
  end.
