(** C74: Option and Result pass on what they hold, once *)
From Verif Require Import Common Option_Model Option_Spec Option_Proofs.
Local Open Scope nat_scope.

(** For every program that uses up each option at most once and leaves none with an object
    in it: it sees exactly what options with ownership give (the same values, the same
    answers, the same drops, the same panics), and every object is, at any time, in exactly
    one place or dropped exactly once. *)
Theorem C74_ownership_partial l : careful iempty l ->
  match irun iempty l with
  | None => True
  | Some None => run empty l = Panic
  | Some (Some (i, e)) =>
    (exists s, run empty l = Ok (s, e)) /\
    forall n, total (in_opt n) (iopts i) + total (in_var n) (ivars i) + dropped n e = if n <? inext i then 1 else 0
  end.
Proof.
  intros C. assert (R : rel iempty empty) by (constructor; constructor || reflexivity).
  pose proof (run_rel l iempty empty R C) as H. destruct (irun iempty l) as [[[i e]|]|] eqn:E; [|exact H|exact Logic.I].
  destruct H as (s & H & _). split; [eauto|]. intros n.
  pose proof (irun_places l iempty i e n E (fun _ _ => eq_refl)) as P. unfold places, alive in P. cbn in P. destruct (Nat.ltb_spec n 0); lia.
Qed.
(** Hence, once all variables have ended and all options are used up, every object created
    was dropped exactly once. *)
Theorem C74_exactly_once_partial l i e : careful iempty l -> irun iempty l = Some (Some (i, e)) ->
  Forall (fun x => x = Gone \/ x = Holds None) (iopts i) -> Forall (eq None) (ivars i) ->
  exists s, run empty l = Ok (s, e) /\ forall n, dropped n e = if n <? inext i then 1 else 0.
Proof.
  intros C E O V. pose proof (C74_ownership_partial l C) as H. rewrite E in H. destruct H as [[s H] P].
  exists s. split; [exact H|]. intros n. specialize (P n).
  assert (Z1 : total (in_opt n) (iopts i) = 0).
  { clear P. induction O as [|x r [-> | ->] _ IH]; [reflexivity| |]; exact IH. }
  assert (Z2 : total (in_var n) (ivars i) = 0).
  { clear P Z1. induction V as [|x r <- _ IH]; [reflexivity|exact IH]. }
  lia.
Qed.
(** Two objects, one taken with unwrap and one as an or_else; a default used and one not *)
Example C74_case :
  let l := [OSome; ONone; OTest 0; OOrElse 1 0; OUnwrap 2; OSome; OUnwrapOr 3; ONone; OUnwrapOr 4; ODrop 0; ODrop 1; ODrop 2; OTest 4] in
  let l' := [OSome; ONone; OTest 0; OOrElse 1 0; OUnwrap 2; OSome; OUnwrapOr 3; ONone; OUnwrapOr 4; ODrop 0; ODrop 1; ODrop 2] in
  irun iempty l = None /\ careful iempty l' /\
  exists i e, irun iempty l' = Some (Some (i, e)) /\ Forall (fun x => x = Gone \/ x = Holds None) (iopts i) /\
    Forall (eq None) (ivars i) /\ inext i = 4 /\
    e = [Told true; Got (Obj 0); Dropped (Obj 2); Got (Obj 1); Got (Obj 3); Dropped (Obj 0); Dropped (Obj 1); Dropped (Obj 3)].
Proof.
  cbn zeta. splits; [reflexivity|cbn; tauto|].
  eexists. eexists. split; [reflexivity|]. cbn. splits; auto; repeat constructor.
Qed.

(** * What goes wrong *)

(** An option that ends with an object in it does not drop it: after any such program, the
    end of the option drops nothing, whereas it should drop the object. *)
Theorem C74_leak_refuted l i e j n : careful iempty l -> irun iempty l = Some (Some (i, e)) -> held i j = Some (Some n) ->
  (exists s, run empty (l ++ [OEnd j]) = Ok (s, e) /\ dropped n e = 0) /\
  (exists i', irun iempty (l ++ [OEnd j]) = Some (Some (i', e ++ [Dropped (Obj n)]))).
Proof.
  intros C E H. assert (R : rel iempty empty) by (constructor; constructor || reflexivity).
  pose proof (run_rel l iempty empty R C) as RR. rewrite E in RR. destruct RR as (s & RS & [RO RV RN]).
  assert (A : forall l s0 s1 e1 o, run s0 l = Ok (s1, e1) -> run s0 (l ++ [o]) = do '(s2, e2) <- step s1 o; Ok (s2, e1 ++ e2)).
  { clear. induction l as [|p l IH]; intros s0 s1 e1 o E.
    - cbn in E. injection E as <- <-. cbn. destruct (step s0 o) as [[s2 e2]| | |]; cbn; auto. now rewrite app_nil_r.
    - cbn [run app] in *. destruct (step s0 p) as [[sa ea]| | |]; cbn [bind] in *; try discriminate.
      destruct (run sa l) as [[sb eb]| | |] eqn:Eb; cbn [bind] in E; try discriminate. injection E as <- <-.
      rewrite (IH sa sb eb o Eb). destruct (step sb o) as [[s2 e2]| | |]; cbn; auto. now rewrite app_assoc. }
  assert (B : forall l s0 s1 e1 o, irun s0 l = Some (Some (s1, e1)) ->
    irun s0 (l ++ [o]) = match istep s1 o with Some (Some (s2, e2)) => Some (Some (s2, e1 ++ e2)) | x => x end).
  { clear. induction l as [|p l IH]; intros s0 s1 e1 o E.
    - cbn in E. injection E as <- <-. cbn. destruct (istep s0 o) as [[[s2 e2]|]|]; cbn; auto. now rewrite app_nil_r.
    - cbn [irun app] in *. destruct (istep s0 p) as [[[sa ea]|]|]; try discriminate.
      destruct (irun sa l) as [[[sb eb]|]|] eqn:Eb; try discriminate. injection E as <- <-.
      rewrite (IH sa sb eb o Eb). destruct (istep sb o) as [[[s2 e2]|]|]; cbn; auto. now rewrite app_assoc. }
  split.
  - exists s. rewrite (A _ _ _ _ _ RS). apply held_nth in H. destruct (f2_nth _ _ _ _ _ RO H) as (y & Hy & _).
    cbn [step]. unfold at_. rewrite Hy. cbn [bind]. rewrite app_nil_r. split; [reflexivity|].
    pose proof (C74_ownership_partial l C) as P. rewrite E in P. destruct P as [_ P]. specialize (P n).
    assert (1 <= total (in_opt n) (iopts i)).
    { pose proof (total_upd (in_opt n) _ _ _ Gone H) as U. cbn [in_opt] in U. rewrite Nat.eqb_refl in U. lia. }
    destruct (n <? inext i); lia.
  - rewrite (B _ _ _ _ _ E). cbn [istep]. rewrite H. eauto.
Qed.

(** expect, unwrap_or and or_else leave the object in the option as well: the next use hands
    it out again, and it is dropped twice. *)
Theorem C74_twice_refuted :
  (exists s e, run empty [OSome; OExpect 0; OExpect 0; ODrop 0; ODrop 1] = Ok (s, e) /\ dropped 0 e = 2) /\
  (exists s e, run empty [OSome; OUnwrapOr 0; OUnwrap 0; ODrop 0; ODrop 1] = Ok (s, e) /\ dropped 0 e = 2) /\
  (exists s e, run empty [OSome; ONone; OOrElse 0 1; OUnwrap 0; OUnwrap 2; ODrop 0; ODrop 1] = Ok (s, e) /\ dropped 0 e = 2).
Proof. splits; eexists; eexists; (split; [reflexivity|]); reflexivity. Qed.

(** After unwrap the option still says it holds something, and a second unwrap returns a
    zeroed value instead of panicking - from every state. *)
Theorem C74_unwrap_twice_refuted s i x : nth_error (opts s) i = Some x -> is_some x = true ->
  exists s', run s [OUnwrap i; OTest i; OUnwrap i] = Ok (s', [Got (val x); Told true; Got Zeroed]).
Proof.
  intros H S1. cbn [run step]. unfold at_. rewrite H. cbn [bind]. unfold unwrap at 1. rewrite S1. cbn [bind opts].
  rewrite upd_nth, Nat.eqb_refl, H. cbn. rewrite upd_nth, Nat.eqb_refl, H. cbn. eauto.
Qed.

(** The same after forget: the value is gone, nothing is dropped, and the option still says
    it holds something - from every state. *)
Theorem C74_forget_refuted s i x : nth_error (opts s) i = Some x -> is_some x = true ->
  exists s', run s [OForget i; OTest i; OUnwrap i] = Ok (s', [Told true; Got Zeroed]).
Proof.
  intros H S1. cbn [run step]. unfold at_. rewrite H. cbn [bind opts]. unfold forget. rewrite S1.
  rewrite upd_nth, Nat.eqb_refl, H. cbn. rewrite upd_nth, Nat.eqb_refl, H. cbn. eauto.
Qed.
Print Assumptions C74_forget_refuted.

Print Assumptions C74_ownership_partial.
Print Assumptions C74_exactly_once_partial.
Print Assumptions C74_leak_refuted.
Print Assumptions C74_twice_refuted.
Print Assumptions C74_unwrap_twice_refuted.
