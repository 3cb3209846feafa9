(** What running tests should do. *)
From Verif Require Import Common Testing_Model.

Section Spec.
Context {S : Type}.
(** a test in words: do the statements in order; stop at the first assertion that does not hold *)
Inductive ends : list (stmt S) -> list (S -> S) -> S -> outcome S -> Prop :=
| E_end ds s : ends [] ds s (Finished (fold_left (fun s f => f s) ds s))
| E_do f r ds s o : ends r ds (f s) o -> ends (SDo f :: r) ds s o
| E_defer f r ds s o : ends r (f :: ds) s o -> ends (SDefer f :: r) ds s o
| E_holds c m r ds s o : c s = true -> ends r ds s o -> ends (SAssert c m :: r) ds s o
| E_fails c m r ds s : c s = false -> ends (SAssert c m :: r) ds s (Exited 1 (bs "Assertion failed: " ++ m) s).
Inductive all_end : list (list (stmt S)) -> S -> outcome S -> Prop :=
| A_nil s : all_end [] s (Finished s)
| A_next t r s s' o : ends t [] s (Finished s') -> all_end r s' o -> all_end (t :: r) s o
| A_stop t r s z e s' : ends t [] s (Exited z e s') -> all_end (t :: r) s (Exited z e s').
(** messages without a percent sign *)
Definition plain_stmt (x : stmt S) : Prop := match x with SAssert _ m => ~ In 37%N m | _ => True end.
Definition plain_item (i : item S) : Prop := match i with ITest _ b | IFun _ b => Forall plain_stmt b | IOther => True end.
Definition no_main (p : list (item S)) : Prop := forall b, ~ In (IFun (bs "main") b) p.
End Spec.

(** every comma of the condition is inside parentheses, which are balanced *)
Fixpoint protected (depth : nat) (ts : list pp) : bool :=
  match ts with
  | [] => Nat.eqb depth 0
  | PComma :: r => negb (Nat.eqb depth 0) && protected depth r
  | PLp :: r => protected (Datatypes.S depth) r
  | PRp :: r => negb (Nat.eqb depth 0) && protected (Nat.pred depth) r
  | POther _ :: r => protected depth r
  end.
