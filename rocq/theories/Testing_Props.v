(** C96: tests and assertions. *)
From Verif Require Import Common Testing_Model Testing_Spec Testing_Proofs.

(** A program with tests and no main: the tests run in order; the first assertion that does not
    hold ends the program with status 1 and its message; otherwise the status is 0. *)
Theorem C96_run_partial : forall S (p : list (item S)) s, no_main p -> tests S p <> [] -> Forall plain_item p ->
  exists o, run S p s = Some (Ok o) /\ all_end (tests S p) s o /\ (status S o = 0%Z <-> exists s', o = Finished s') /\ (status S o = 0%Z \/ status S o = 1%Z).
Proof.
  intros S p s N T F. unfold run. rewrite user_main_none by auto.
  destruct (run_tests_end S (tests S p) s) as (o & A & B).
  { unfold tests. rewrite Forall_forall in *. intros b X. apply in_flat_map in X as (i & X1 & X2). destruct i; try destruct X2 as [<-|[]]; try destruct X2. exact (F _ X1). }
  exists o. split; [destruct (tests S p); [congruence|now rewrite A]|]. split; auto.
  assert (Q : match o with Exited z _ _ => z = 1%Z | _ => True end).
  { clear A T F N. assert (R : forall (b : list (stmt S)) ds s0 x, ends b ds s0 x -> match x with Exited z _ _ => z = 1%Z | _ => True end) by (induction 1; auto).
    induction B; auto. apply (R _ _ _ _ H). }
  destruct o as [s'|z e s']; cbn [status]; split; [split; eauto|auto|split; [subst; discriminate|intros [? X]; discriminate]|auto].
Qed.
Print Assumptions C96_run_partial.
(** False: the tests of a program with a main run.  They never do. *)
Theorem C96_main_refuted : forall S (a p : list (item S)) b s, no_main a ->
  run S (a ++ IFun (bs "main") b :: p) s = Some (block S [] b s).
Proof. intros S a p b s N. unfold run. now rewrite user_main_app. Qed.
Print Assumptions C96_main_refuted.
(** A program with neither cannot be linked. *)
Theorem C96_neither : forall S (p : list (item S)) s, no_main p -> tests S p = [] -> run S p s = None.
Proof. intros S p s N T. unfold run. now rewrite user_main_none, T. Qed.
Print Assumptions C96_neither.
(** False: the message of a failed assertion is shown as written.  A percent sign is a conversion
    (undefined), and two are one. *)
Theorem C96_percent_refuted : forall S (c : S -> bool) a x b r ds s, c s = false -> ~ In 37%N a -> x <> 37%N ->
  block S ds (SAssert c (a ++ 37%N :: x :: b) :: r) s = UB.
Proof.
  intros S c a x b r ds s C A X. cbn [block]. unfold assert. rewrite C, app_assoc.
  rewrite format_bad; [reflexivity| |auto]. intros Y. apply in_app_or in Y as [Y|Y]; [exact (prefix_plain Y)|auto].
Qed.
Print Assumptions C96_percent_refuted.
Theorem C96_double_refuted : forall S (c : S -> bool) a b r ds s, c s = false -> ~ In 37%N a -> ~ In 37%N b ->
  block S ds (SAssert c (a ++ 37%N :: 37%N :: b) :: r) s = Ok (Exited 1 (bs "Assertion failed: " ++ a ++ 37%N :: b) s).
Proof.
  intros S c a b r ds s C A B. cbn [block]. unfold assert. rewrite C, app_assoc.
  assert (K : ~ In 37%N (bs "Assertion failed: " ++ a)) by (intros Y; apply in_app_or in Y as [Y|Y]; [exact (prefix_plain Y)|auto]).
  rewrite (format_double _ b K B). unfold bind. rewrite <- (app_assoc (bs "Assertion failed: ") a (37%N :: b)). reflexivity.
Qed.
Print Assumptions C96_double_refuted.
(** False: deferred statements run when an assertion fails.  The state at the exit is that of the
    assertion, whatever was deferred. *)
Theorem C96_defer_refuted : forall S (fs : list (S -> S)) (c : S -> bool) m r s, c s = false -> ~ In 37%N m ->
  block S [] (map SDefer fs ++ SAssert c m :: r) s = Ok (Exited 1 (bs "Assertion failed: " ++ m) s).
Proof.
  intros S fs c m r s C M. generalize (@nil (S -> S)) as ds. induction fs as [|f fs IH]; intros ds; [|apply IH].
  cbn [map app block]. unfold assert. rewrite C, message_plain; auto.
Qed.
Print Assumptions C96_defer_refuted.

(** The macro sees the condition as it was written, when every comma is inside parentheses... *)
Theorem C96_condition_partial : forall cond msg, protected 0 cond = true -> condition_seen cond msg = cond.
Proof. intros cond msg P. unfold condition_seen, assert_args. change (cond ++ [PComma; msg]) with (cond ++ PComma :: [msg]). now rewrite first_arg_protected. Qed.
Print Assumptions C96_condition_partial.
(** ... and not otherwise: a struct or array literal in the condition is cut at its first comma. *)
Theorem C96_comma_refuted : forall a b msg, protected 0 a = true -> condition_seen (a ++ PComma :: b) msg = a.
Proof. intros a b msg P. unfold condition_seen, assert_args. rewrite <- app_assoc. cbn [app]. now rewrite first_arg_protected. Qed.
Print Assumptions C96_comma_refuted.

(** An assertion is read whole when it does not begin with a parenthesis, or when one closes at its
    end... *)
Theorem C96_parse_partial : forall expr (pe : list tk -> res (expr * list tk)) ts c rest m tail,
  pe ts = Ok (c, rest) ->
  (rest = TSemi :: tail /\ m = None) \/ (exists s, rest = TComma :: TStr s :: TSemi :: tail /\ m = Some s) ->
  match ts with TLp :: _ => False | _ => True end -> parse_assert expr pe ts = Ok (c, m, tail).
Proof.
  intros expr pe ts c rest m tail E H L. unfold parse_assert.
  assert (K : skip (fun t => match t with TLp => true | _ => false end) ts = ts) by (destruct ts as [|[] ts]; auto; destruct L).
  rewrite K, E. destruct H as [[-> ->]|[s [-> ->]]]; reflexivity.
Qed.
Print Assumptions C96_parse_partial.
Theorem C96_parenthesis_partial : forall expr (pe : list tk -> res (expr * list tk)) ts c m tail rest,
  pe ts = Ok (c, rest) ->
  (rest = TRp :: TSemi :: tail /\ m = None) \/ (exists s, rest = TComma :: TStr s :: TRp :: TSemi :: tail /\ m = Some s) ->
  parse_assert expr pe (TLp :: ts) = Ok (c, m, tail).
Proof.
  intros expr pe ts c m tail rest E H. unfold parse_assert. cbn [skip]. rewrite E. destruct H as [[-> ->]|[s [-> ->]]]; reflexivity.
Qed.
Print Assumptions C96_parenthesis_partial.
(** ... and not when it goes on after that parenthesis: only what is inside is asserted, and the rest
    is left to be read as another statement. *)
Theorem C96_cut_refuted : forall expr (pe : list tk -> res (expr * list tk)) ts c op tail,
  pe ts = Ok (c, TRp :: TOther op :: tail) -> parse_assert expr pe (TLp :: ts) = Ok (c, None, TOther op :: tail).
Proof. intros expr pe ts c op tail E. unfold parse_assert. cbn [skip]. rewrite E. reflexivity. Qed.
Print Assumptions C96_cut_refuted.

(** The hypotheses are met: two tests over a counter, the second fails; a parser of one word. *)
Example C96_case :
  let p := [ITest (bs "one") [SDo (fun n => n + 2); SDefer (fun n => n * 10); SAssert (fun n => n =? 2)%nat (bs "two")];
            ITest (bs "other") [SAssert (fun n => n =? 0)%nat (bs "zero"); SDo (fun n => n + 1)]] in
  no_main p /\ Forall plain_item p /\ run nat p 0 = Some (Ok (Exited 1 (bs "Assertion failed: zero") 20)) /\
  run nat (IFun (bs "main") [SDo (fun n => n + 7)] :: p) 0 = Some (Ok (Finished 7)) /\
  let word (ts : list tk) := match ts with TOther w :: r => Ok (w, r) | TLp :: TOther w :: TRp :: r => Ok (w, r) | _ => Panic end in
  parse_assert bytes word [TLp; TOther (bs "n"); TRp; TOther (bs "-"); TOther (bs "2"); TSemi] =
    Ok (bs "n", None, [TOther (bs "-"); TOther (bs "2"); TSemi]) /\
  protected 0 [POther (bs "f"); PLp; POther (bs "a"); PComma; POther (bs "b"); PRp] = true.
Proof.
  cbv zeta. split; [|split; [|split; [vm_compute; reflexivity|split; [reflexivity|split; reflexivity]]]].
  - intros b [X|[X|[]]]; discriminate.
  - constructor; [|constructor; [|constructor]]; cbn; repeat constructor; cbn; intuition discriminate.
Qed.
