(** C31: the move checker has no false negatives *)
From Verif Require Import Common Move_Model Move_Spec Move_Proofs.
Local Open Scope nat_scope.

(** An accepted function within the limits [fine_l] (Move_Spec.v) never uses a moved value:
    whatever its conditions turn out to be, and however many turns its loops make. *)
Theorem C31_sound_partial : forall params body, NoDup (map fst params) -> fine_l (param_env params) body ->
  accepted (Function params body) = true -> ~ uses_moved (Function params body).
Proof. exact function_ok. Qed.
Definition arg (x : nat) : exprs := ECons (EVar x) ENil.
Definition call (x : nat) : stmt := SExpr (ECall (arg x)).
Definition make : expr := ECall ENil.
(** [fn f(n) { let x = make(); let y = make();
      while c { let z = make(); if c { take(z); break } else { take(z); } }
      if c { take(x); return y } else { take(y); x = make(); }
      x = make(); y = make(); match c { 1 => read(x), _ => take(y) } }] : n = 0, x = 1, y = 2, z = 3 *)
Definition sample : items :=
  Let 1 TOwned make (Let 2 TOwned make
  (Then (SWhile ELit (SBlock (Let 3 TOwned make (Then (SIfElse ELit (SBlock (Then (call 3) (Then SBreak Nil))) (call 3)) Nil))))
  (Then (SIfElse ELit (SBlock (Then (call 1) (Then (SReturn (EVar 2)) Nil))) (SBlock (Then (call 2) (Then (SExpr (EAssign 1 make)) Nil))))
  (Then (SExpr (EAssign 1 make)) (Then (SExpr (EAssign 2 make))
  (Then (SMatch ELit (CCons false (SExpr (EOp (arg 1))) (CCons true (call 2) CNil))) Nil)))))).
Example C31_example : fine_l (param_env [(0, false)]) sample /\ accepted (Function [(0, false)] sample) = true
  /\ (exists s, execs 5 sample [] 1 (start [(0, false)], [true; false; true; true; false; true]) = Some (ONormal, s))
  /\ accepted (Function [(0, false)] (Let 1 TOwned make (Then (call 1) (Then (call 1) Nil)))) = false.
Proof.
  split; [|split; [reflexivity|split; [eexists; reflexivity|reflexivity]]].
  repeat split; try discriminate; try (intros x X; cbn in X; repeat (destruct X as [<-|X]; [first [now left|now right]|]); contradiction).
Qed.
Print Assumptions C31_sound_partial.

(** Refuted: the check is not sound.  In each of the following functions every name is
    declared once; all are accepted, and some run uses a moved value. *)
Definition missed (params : list (nat * bool)) (body : items) : Prop := accepted (Function params body) = true /\ uses_moved (Function params body).
Ltac run n ch := split; [reflexivity|]; exists n, ch; eexists; reflexivity.
(** A loop body is checked once: [let x = make(); while c { take(x) }] *)
Theorem C31_loop_refuted : missed [] (Let 1 TOwned make (Then (SWhile ELit (call 1)) Nil)).
Proof. run 3 [true; true]. Qed.
(** The branches of match, unless and guard and loop bodies are checked as if always run:
    [let x = make(); take(x); unless c { x = make(); } take(x)]; so is the right side of && *)
Theorem C31_branch_refuted :
  missed [] (Let 1 TOwned make (Then (call 1) (Then (SUnless ELit (SExpr (EAssign 1 make))) (Then (call 1) Nil))))
  /\ missed [] (Let 1 TOwned make (Then (call 1) (Then (SMatch ELit (CCons false (SExpr (EAssign 1 make)) CNil)) (Then (call 1) Nil))))
  /\ missed [] (Let 1 TOwned make (Then (call 1) (Then (SWhile ELit (SExpr (EAssign 1 make))) (Then (call 1) Nil))))
  /\ missed [] (Let 1 TOwned make (Then (call 1) (Then (SExpr (ELogic ELit (EAssign 1 make))) (Then (call 1) Nil)))).
Proof. repeat split; try reflexivity; exists 3; [exists [true]|exists [false]|exists [false]|exists [false]]; eexists; reflexivity. Qed.
(** Do-while loops and loops over ranges are not checked:
    [let x = make(); take(x); do { take(x) } while c] *)
Theorem C31_unchecked_refuted :
  missed [] (Let 1 TOwned make (Then (call 1) (Then (SDo (call 1) ELit) Nil)))
  /\ missed [] (Let 1 TOwned make (Then (call 1) (Then (SRange 2 (call 1)) Nil))).
Proof. repeat split; try reflexivity; exists 3, [true]; eexists; reflexivity. Qed.
(** Parameters have no type information, so they never count as moved: [fn f(x) { take(x); take(x) }] *)
Theorem C31_parameter_refuted : missed [(1, true)] (Then (call 1) (Then (call 1) Nil)).
Proof. run 3 (@nil bool). Qed.
(** Methods are not checked at all, whatever they do *)
Theorem C31_method_refuted : (forall params body, accepted (Method params body) = true)
  /\ uses_moved (Method [] (Let 1 TOwned make (Then (call 1) (Then (call 1) Nil)))).
Proof. split; [reflexivity|]. exists 3, (@nil bool). eexists. reflexivity. Qed.
(** Elements of an array literal and the arms of a conditional are not moved:
    [let a = \[x, x\]] and [let a = c ? x : y; take(x)] *)
Theorem C31_unseen_move_refuted :
  missed [] (Let 1 TOwned make (Let 2 TOwned (EArray (ECons (EVar 1) (arg 1))) Nil))
  /\ missed [] (Let 1 TOwned make (Let 2 TOwned make (Let 3 TOwned (ECond ELit (EVar 1) (EVar 2)) (Then (call 1) Nil)))).
Proof. repeat split; try reflexivity; exists 3, [true]; eexists; reflexivity. Qed.
(** A deferred use is checked where it is written, but runs later:
    [let x = make(); defer use(&x); take(x)] *)
Theorem C31_defer_refuted : missed [] (Let 1 TOwned make (Defer (EOp (arg 1)) (Then (call 1) Nil))).
Proof. run 3 (@nil bool). Qed.
(** Uses on the left side of an assignment are not checked: [let x = make(); take(x); x.f = 1] *)
Theorem C31_left_side_refuted : missed [] (Let 1 TOwned make (Then (call 1) (Then (SExpr (EAssignTo (EOp (arg 1)) ELit)) Nil))).
Proof. run 3 (@nil bool). Qed.
(** Variables are told apart by name only, so assigning an inner x makes the outer one valid:
    [let x = make(); take(x); { let x = make(); x = make(); } take(x)] *)
Theorem C31_shadow_refuted : missed [] (Let 1 TOwned make (Then (call 1) (Then (SBlock (Let 1 TOwned make (Then (SExpr (EAssign 1 make)) Nil))) (Then (call 1) Nil)))).
Proof. run 3 (@nil bool). Qed.
Print Assumptions C31_loop_refuted.
Print Assumptions C31_branch_refuted.
Print Assumptions C31_unchecked_refuted.
Print Assumptions C31_parameter_refuted.
Print Assumptions C31_method_refuted.
Print Assumptions C31_unseen_move_refuted.
Print Assumptions C31_defer_refuted.
Print Assumptions C31_left_side_refuted.
Print Assumptions C31_shadow_refuted.
