(** C32: the missing-return check is sound *)
From Verif Require Import Common Ret_Model Ret_Spec Ret_Proofs.
Local Open Scope nat_scope.

(** In the generated program (guards on cases are not tested): an accepted function without
    goto never falls off its end, for every meaning of its parts, every state and after any
    number of steps. *)
Theorem C32_generated_partial : forall body, accepted body = true -> no_gotos body ->
  forall (St V : Type) act cond (val : nat -> St -> V * St) fits n st st', run act cond val fits false body n st <> Some (FellOff st').
Proof.
  intros body A NG St V act cond val fits n st st' R. apply (sound act cond val fits false body) in R; [exact R| |exact A].
  split; [exact NG|discriminate].
Qed.
(** As the language means it: the same where no "_" case has a guard. *)
Theorem C32_language_partial : forall body, accepted body = true -> no_gotos body -> plains body ->
  forall (St V : Type) act cond (val : nat -> St -> V * St) fits n st st', run act cond val fits true body n st <> Some (FellOff st').
Proof.
  intros body A NG PL St V act cond val fits n st st' R. apply (sound act cond val fits true body) in R; [exact R| |exact A].
  split; [exact NG|auto].
Qed.
(** [{ while c1 { if c2 { break } if c3 { return } } match e { p if g => return, _ => { 5; return } } }] *)
Definition sample : items :=
  Then (While 1 (Block (Then (IfThen 2 (Block (Then Break Nil))) (Then (IfThen 3 (Block (Then Return Nil))) Nil))))
  (Then (Match 4 (CCons (Some 6) (Some 7) Return (CCons None None (Block (Then (Prim 5) (Then Return Nil))) CNil))) Nil).
Example C32_example : accepted sample = true /\ no_gotos sample /\ plains sample
  /\ run (fun a s => a :: s) (fun c s => (negb (c =? 3), c :: s)) (fun e s => (e, e :: s)) (fun p v => p =? v) true sample 20 [] = Some (Returned [5; 4; 2; 1]).
Proof. split; [reflexivity|]. split; [cbn; tauto|]. split; [cbn; repeat split; discriminate|]. reflexivity. Qed.
Print Assumptions C32_generated_partial.
Print Assumptions C32_language_partial.

(** Refuted: a goto over the return: [{ goto out; return; out: }] is accepted and falls off
    its end, with any meaning of everything. *)
Theorem C32_goto_refuted : forall lbl,
  let body := Then (Goto lbl) (Then Return (Then (Label lbl) Nil)) in
  accepted body = true
  /\ forall (St V : Type) act cond (val : nat -> St -> V * St) fits guards st, exists n, run act cond val fits guards body n st = Some (FellOff st).
Proof.
  intros lbl body. split; [reflexivity|]. intros. exists 5. unfold run, body. cbn. now rewrite Nat.eqb_refl.
Qed.
(** Refuted: a "_" case counts as catching everything even if it has a guard:
    [{ match e { _ if g => return } }] is accepted; as the language means it, it falls off
    its end when g does not hold. *)
Theorem C32_guard_refuted : forall e g,
  let body := Then (Match e (CCons None (Some g) Return CNil)) Nil in
  accepted body = true
  /\ forall (St V : Type) act cond (val : nat -> St -> V * St) fits st v st1 st2, val e st = (v, st1) -> cond g st1 = (false, st2) ->
     exists n, run act cond val fits true body n st = Some (FellOff st2).
Proof.
  intros e g body. split; [reflexivity|]. intros St V act cond val fits st v st1 st2 E1 E2. exists 5. unfold run, body. cbn. rewrite E1. cbn. rewrite E2. reflexivity.
Qed.
Print Assumptions C32_goto_refuted.
Print Assumptions C32_guard_refuted.
