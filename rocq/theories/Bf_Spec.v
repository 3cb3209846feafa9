(** The language: eight commands on a tape of byte cells, a head, an instruction pointer, an
    input and an output.  Any other character is a comment. *)
From Verif Require Import Common.
Local Open Scope Z_scope.

Definition opens (c : N) : Prop := c = 91%N.
Definition closes (c : N) : Prop := c = 93%N.

(** Texts whose brackets match *)
Inductive Balanced : bytes -> Prop :=
| Bal_nil : Balanced []
| Bal_char c r : ~ opens c -> ~ closes c -> Balanced r -> Balanced (c :: r)
| Bal_loop b r : Balanced b -> Balanced r -> Balanced (91%N :: b ++ 93%N :: r).

(** The brackets at [i] and [j] match *)
Definition Partner (p : bytes) (i j : nat) : Prop :=
  exists a b c, p = a ++ 91%N :: b ++ 93%N :: c /\ Balanced b /\ i = length a /\ j = (i + S (length b))%nat.

Record machine := M { ip : nat; cells : Z -> Z; head : Z; input : bytes; output : bytes }.

Definition written (m : machine) (v : Z) : Z -> Z := fun q => if q =? head m then v mod 256 else cells m q.

Inductive Step (p : bytes) : machine -> machine -> Prop :=
| S_right m : nth_error p (ip m) = Some 62%N ->
    Step p m (M (S (ip m)) (cells m) (head m + 1) (input m) (output m))
| S_left m : nth_error p (ip m) = Some 60%N ->
    Step p m (M (S (ip m)) (cells m) (head m - 1) (input m) (output m))
| S_inc m : nth_error p (ip m) = Some 43%N ->
    Step p m (M (S (ip m)) (written m (cells m (head m) + 1)) (head m) (input m) (output m))
| S_dec m : nth_error p (ip m) = Some 45%N ->
    Step p m (M (S (ip m)) (written m (cells m (head m) - 1)) (head m) (input m) (output m))
| S_put m : nth_error p (ip m) = Some 46%N ->
    Step p m (M (S (ip m)) (cells m) (head m) (input m) (output m ++ [Z.to_N (cells m (head m))]))
| S_get m c r : nth_error p (ip m) = Some 44%N -> input m = c :: r ->
    Step p m (M (S (ip m)) (written m (Z.of_N c)) (head m) r (output m))
| S_eof m : nth_error p (ip m) = Some 44%N -> input m = [] ->
    Step p m (M (S (ip m)) (written m 255) (head m) [] (output m))
| S_enter m : nth_error p (ip m) = Some 91%N -> cells m (head m) <> 0 ->
    Step p m (M (S (ip m)) (cells m) (head m) (input m) (output m))
| S_skip m j : nth_error p (ip m) = Some 91%N -> cells m (head m) = 0 -> Partner p (ip m) j ->
    Step p m (M (S j) (cells m) (head m) (input m) (output m))
| S_again m i : nth_error p (ip m) = Some 93%N -> cells m (head m) <> 0 -> Partner p i (ip m) ->
    Step p m (M (S i) (cells m) (head m) (input m) (output m))
| S_leave m : nth_error p (ip m) = Some 93%N -> cells m (head m) = 0 ->
    Step p m (M (S (ip m)) (cells m) (head m) (input m) (output m))
| S_comment m c : nth_error p (ip m) = Some c -> ~ In c [62; 60; 43; 45; 46; 44; 91; 93]%N ->
    Step p m (M (S (ip m)) (cells m) (head m) (input m) (output m)).

(** [n] steps *)
Inductive Steps (p : bytes) : nat -> machine -> machine -> Prop :=
| St_0 m : Steps p 0 m m
| St_S n m m1 m2 : Step p m m1 -> Steps p n m1 m2 -> Steps p (S n) m m2.

(** The head is on the tape of 30000 cells. *)
Definition on_tape (m : machine) : Prop := 0 <= head m < 30000.
(** The machine halts when it has passed the last character. *)
Definition halted (p : bytes) (m : machine) : Prop := ip m = length p.
Definition start (t : Z -> Z) (i : bytes) : machine := M 0 t 0 i [].
Definition blank_tape : Z -> Z := fun _ => 0.
