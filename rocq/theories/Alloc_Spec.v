(** An allocator as its users see it: every allocation is an array of its own. *)
From Verif Require Import Common Alloc_Model.
Local Open Scope N_scope.

(** A byte not yet written is None. *)
Definition array : Type := list (option N).
(** The arrays, and which array each call returned *)
Record heap := { arrays : list array; handles : list nat }.
Definition empty : heap := {| arrays := []; handles := [] |}.
Definition get (h : heap) (k : nat) : option array :=
  match nth_error (handles h) k with Some a => nth_error (arrays h) a | None => None end.
Definition fresh (h : heap) (a : array) : heap :=
  {| arrays := arrays h ++ [a]; handles := handles h ++ [length (arrays h)] |}.
Definition set {A} (l : list A) (i : nat) (x : A) : list A := firstn i l ++ x :: skipn (S i) l.

(** Sizes a program can have *)
Definition size_ok (n : N) : Prop := n < 2 ^ 62.

(** [Eff h op h' out]: what an operation does, and what it returns if it is a read.  An
    access outside an array has no effect: the user may not do it. *)
Inductive eff : heap -> op -> heap -> list (option N) -> Prop :=
| EMalloc h n : size_ok n -> eff h (Malloc n) (fresh h (repeat None (N.to_nat n))) []
| ECalloc h n s : size_ok (n * s) -> eff h (Calloc n s) (fresh h (repeat (Some 0) (N.to_nat (n * s)))) []
| EReallocNull h n : size_ok n -> eff h (Realloc None n) (fresh h (repeat None (N.to_nat n))) []
| EReallocGrow h k n a : size_ok n -> get h k = Some a -> (length a < N.to_nat n)%nat ->
    eff h (Realloc (Some k) n) (fresh h (a ++ repeat None (N.to_nat n - length a))) []
| EReallocSame h k n a i : size_ok n -> nth_error (handles h) k = Some i -> nth_error (arrays h) i = Some a ->
    (N.to_nat n <= length a)%nat ->
    eff h (Realloc (Some k) n) {| arrays := arrays h; handles := handles h ++ [i] |} []
| EStrdup h s : size_ok (N.of_nat (length s) + 1) -> eff h (Strdup s) (fresh h (map Some s ++ [Some 0])) []
| EWrite h k i v a x : nth_error (handles h) k = Some x -> nth_error (arrays h) x = Some a -> (N.to_nat i < length a)%nat ->
    eff h (Write k i v) {| arrays := set (arrays h) x (set a (N.to_nat i) (Some v)); handles := handles h |} []
| ERead h k i a v : get h k = Some a -> nth_error a (N.to_nat i) = Some v -> eff h (Read k i) h [v].
Inductive effs : heap -> list op -> heap -> list (option N) -> Prop :=
| ENil h : effs h [] h []
| ECons h o h' out l h'' out' : eff h o h' out -> effs h' l h'' out' -> effs h (o :: l) h'' (out ++ out').

(** A read returns what was last written there, if anything was. *)
Definition agrees (expected : option N) (got : N) : Prop := match expected with Some v => got = v | None => True end.
