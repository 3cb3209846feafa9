(** C115: loops, jumps and conditions. *)
From Verif Require Import Common Loops_Model Loops_Spec Loops_Proofs.
Local Open Scope nat_scope.

Section Props.
Variable St : Type.
Variable test : nat -> St -> bool.
Variable count : nat -> St -> Z.
Variable act : bytes -> nat -> St -> St.
Variable declared : bytes -> bool.
Notation run := (run St test count act declared).

Lemma run_written p fuel s : named_all p -> run fuel (written_all p ++ [RBrace]) s =
  if compiles declared (made_all p ANil) then exec_all St test count act fuel (made_all p ANil) s else Panic.
Proof.
  intros N. unfold Loops_Model.run. rewrite block_program by (rewrite ?app_length; auto; cbn [length]; lia). reflexivity.
Qed.

(** PARTIAL: a program whose jumps name no label does exactly what it says, for every number of
    rounds its loops make; loops may have labels, if different.  The counts of repeat must not
    change. *)
Theorem C115_loops_partial : forall p fuel s, named_all p -> jump_targets_all p = [] ->
  NoDup (loop_labels_all p) -> inside_all p -> steady_all St count p ->
  run fuel (written_all p ++ [RBrace]) s = do '(_, s') <- means_all St test count act fuel p s; Ok (Next, s').
Proof.
  intros p fuel s N J D I S. rewrite run_written by auto.
  destruct (proj2 made_checks p ANil) as (L & Nm & G). cbn [labels_all names_all gotos_all] in L, Nm, G. rewrite app_nil_r in L, Nm.
  assert (C : compiles declared (made_all p ANil) = true).
  { unfold compiles. rewrite L, Nm, G, J, (proj2 made_loose p ANil I J). cbn [forallb loose_all negb]. now rewrite distinct_ok. }
  rewrite C. destruct (proj2 (run_made St test count act) p J S fuel ANil s) as [-> _].
  pose proof (proj2 (goes_next St test count act) p J I S fuel s) as W.
  destruct (means_all St test count act fuel p s) as [[w s']| | |]; cbn [then_do bind]; try reflexivity. subst. reflexivity.
Qed.

(** REFUTED: break L and continue L as documented do not compile, unless there is a variable L. *)
Theorem C115_label_refuted : forall p l fuel s, named_all p -> In l (jump_targets_all p) -> declared l = false ->
  run fuel (written_all p ++ [RBrace]) s = Panic.
Proof.
  intros p l fuel s N J D. rewrite run_written by auto.
  destruct (proj2 made_checks p ANil) as (L & Nm & G). cbn [labels_all names_all gotos_all] in L, Nm, G. rewrite app_nil_r in L, Nm.
  assert (F : forallb declared (names_all (made_all p ANil)) = false).
  { rewrite Nm. apply Bool.not_true_iff_false. intros X. rewrite forallb_forall in X. rewrite (X l J) in D. discriminate. }
  unfold compiles. rewrite F, Bool.andb_false_r. reflexivity.
Qed.
(** REFUTED: and if there is one, the innermost loop is left, whatever the label says. *)
Definition two_loops (l f : bytes) (a : nat) : stmts :=
  Cons (Loop (Some l) (Cons (Loop None (Cons (Break (Some l)) Nil)) (Cons (Call f a) (Cons (Break None) Nil)))) Nil.
Theorem C115_inner_refuted : forall l f a fuel s, name l -> name f -> declared l = true ->
  run (S fuel) (written_all (two_loops l f a) ++ [RBrace]) s = Ok (Next, act f a s)
  /\ means_all St test count act (S fuel) (two_loops l f a) s = Ok (Goes, s).
Proof.
  intros l f a fuel s Nl Nf D. split.
  - rewrite run_written by (cbn; tauto).
    assert (C : compiles declared (made_all (two_loops l f a) ANil) = true).
    { unfold compiles. change (names_all (made_all (two_loops l f a) ANil)) with [l]. cbn [forallb]. rewrite D. reflexivity. }
    rewrite C. reflexivity.
  - cbn. now rewrite beq_bytes_refl.
Qed.
(** REFUTED: two loops can have the same label, one behind the other or in each other. *)
Theorem C115_twice_refuted : forall p fuel s, named_all p -> ~ NoDup (loop_labels_all p) -> run fuel (written_all p ++ [RBrace]) s = Panic.
Proof.
  intros p fuel s N D. rewrite run_written by auto.
  destruct (proj2 made_checks p ANil) as (L & _ & _). cbn [labels_all] in L. rewrite app_nil_r in L. unfold compiles. rewrite L.
  destruct (distinct (loop_labels_all p)) eqn:E; [apply distinct_nodup in E; contradiction|reflexivity].
Qed.
(** A break or continue outside of all loops is rejected. *)
Theorem C115_outside : forall p fuel s, named_all p -> ~ inside_all p -> run fuel (written_all p ++ [RBrace]) s = Panic.
Proof.
  intros p fuel s N I. rewrite run_written by auto. destruct (proj2 loose_outside p ANil) as [X|E]; [contradiction|].
  unfold compiles. rewrite E. cbn [negb]. rewrite Bool.andb_false_r. reflexivity.
Qed.
(** REFUTED: with the label behind a quote, the goto has no label to go to. *)
Theorem C115_quote_refuted : forall o w fuel s, name_opt o -> o <> Some (bs "__break_" ++ w) ->
  run fuel (written_label o ++ [Word (bs "loop"); LBrace; Word (bs "break"); Lit w; Semi; RBrace; RBrace]) s = Panic.
Proof.
  intros o w fuel s N D. unfold Loops_Model.run.
  assert (P : parses 5 [Word (bs "loop"); LBrace; Word (bs "break"); Lit w; Semi; RBrace; RBrace] (ACons (ALoop (ACons (ABreak (Some w)) ANil)) ANil) []).
  { intros f L. destruct f as [|[|[|[|[|f]]]]]; try lia. reflexivity. }
  rewrite (label_parses o 5 _ _ _ _ N P) by (rewrite app_length; cbn [length]; lia). cbn [bind].
  assert (C : compiles declared (lab o (ACons (ALoop (ACons (ABreak (Some w)) ANil)) ANil)) = false).
  { unfold compiles. rewrite labels_lab, gotos_lab. cbn [labels_all labels gotos_all gotos app forallb].
    assert (M : mem (bs "__break_" ++ w) (opt_list o ++ []) = false).
    { apply Bool.not_true_iff_false. rewrite mem_in. destruct o as [l|]; cbn [opt_list app In]; [|tauto]. intros [X|[]]. subst. now apply D. }
    rewrite M. cbn [andb]. rewrite Bool.andb_false_r. reflexivity. }
  rewrite C. reflexivity.
Qed.
(** REFUTED: repeat runs as often as its count says at the start.  If every round increases the
    count, there is no end. *)
Theorem C115_repeat_refuted : forall n f a s, name f -> (forall s, count n (act f a s) = count n s + 1)%Z -> (0 < count n s)%Z ->
  let p := Cons (Repeat None n (Cons (Call f a) Nil)) Nil in
  (forall fuel, run fuel (written_all p ++ [RBrace]) s = Fuel) /\
  (forall fuel, Z.to_nat (count n s) <= fuel -> exists s', means_all St test count act fuel p s = Ok (Goes, s')).
Proof.
  intros n f a s N G P p. split.
  - intros fuel. unfold p. rewrite run_written by (cbn; tauto).
    assert (C : compiles declared (made_all (Cons (Repeat None n (Cons (Call f a) Nil)) Nil) ANil) = true) by reflexivity.
    rewrite C. clear C.
    assert (R : forall k i s, (i < count n s)%Z -> rounds St k i (fun i s => (i <? count n s)%Z) (exec_all St test count act fuel (ACons (ACall f a) ANil)) s = Fuel).
    { induction k as [|k IH]; intros i s0 L; cbn [rounds]; destruct (Z.ltb_spec i (count n s0)); try lia; [reflexivity|].
      cbn [exec_all exec bind]. apply IH. rewrite G. lia. }
    cbn [made_all made lab exec_all exec]. cbn [exec_all] in R. rewrite R by lia. reflexivity.
  - assert (R : forall k fuel s, k <= fuel -> exists s', looping St fuel None (Some k) (fun _ => true) (means_all St test count act fuel (Cons (Call f a) Nil)) s = Ok (Goes, s')).
    { assert (R' : forall k fuel g s, k <= fuel -> exists s', looping St fuel None (Some k) (fun _ => true) (means_all St test count act g (Cons (Call f a) Nil)) s = Ok (Goes, s')).
      { induction k as [|k IH]; intros [|fuel] g s0 L; try lia; try (exists s0; reflexivity).
        cbn [looping means_all means bind option_map Nat.pred]. apply (IH fuel g). lia. }
      intros. apply R'. auto. }
    intros fuel L. destruct (R _ fuel s L) as [s' E]. exists s'. unfold p.
    change (means_all St test count act fuel (Cons (Repeat None n (Cons (Call f a) Nil)) Nil) s) with
      (do '(w, s) <- looping St fuel None (Some (Z.to_nat (count n s))) (fun _ => true) (means_all St test count act fuel (Cons (Call f a) Nil)) s;
       match w with Goes => Ok (Goes, s) | _ => Ok (w, s) end).
    rewrite E. reflexivity.
Qed.
(** REFUTED: a call behind an if is made.  Not if its name starts with else: this is taken for the
    word else. *)
Theorem C115_else_refuted : forall c r a fuel s, let f := (bs "else" ++ r)%list in
  let p := Cons (If c Nil) (Cons (Call f a) Nil) in
  run fuel (written_all p ++ [RBrace]) s = Ok (Next, s) /\ means_all St test count act fuel p s = Ok (Goes, act f a s).
Proof.
  intros c r a fuel s f p. split.
  - assert (B : block 18 (written_all p ++ [RBrace]) = Ok (ACons (AIf c ANil (ACons (AParen a) ANil)) ANil, [])) by reflexivity.
    unfold Loops_Model.run. change (2 * length (written_all p ++ [RBrace]) + 2) with 18. rewrite B. cbn [bind].
    change (compiles declared (ACons (AIf c ANil (ACons (AParen a) ANil)) ANil)) with true. cbv iota.
    cbn [exec_all exec]. destruct (test c s); reflexivity.
  - unfold p. cbn [means_all means]. destruct (test c s); reflexivity.
Qed.
End Props.
Print Assumptions C115_loops_partial.
Print Assumptions C115_label_refuted.
Print Assumptions C115_inner_refuted.
Print Assumptions C115_twice_refuted.
Print Assumptions C115_outside.
Print Assumptions C115_quote_refuted.
Print Assumptions C115_repeat_refuted.
Print Assumptions C115_else_refuted.

(** A state with one number: a loop with a label and all kinds of statements *)
Definition ztest (c : nat) (s : Z) : bool := (s <? Z.of_nat c)%Z.
Definition zcount (n : nat) (s : Z) : Z := Z.of_nat n.
Definition zact (f : bytes) (a : nat) (s : Z) : Z := (s + Z.of_nat a)%Z.
Definition sample : stmts :=
  let add := fun n k => Cons (Call (bs "add") n) k in
  Cons (Loop (Some (bs "outer"))
    (add 1 (Cons (Unless 3 (Cons (Break None) Nil))
      (Cons (Repeat None 4 (Cons (IfElse 2 (add 10 Nil) (Cons (Continue None) Nil)) (add 1 Nil)))
        (Cons (Guard 5 (add 1 (Cons (Continue None) Nil))) Nil))))) (Cons (While None 100 (add 7 Nil)) Nil).
Example C115_sample : named_all sample /\ jump_targets_all sample = [] /\ NoDup (loop_labels_all sample) /\ inside_all sample
  /\ steady_all Z zcount sample /\ means_all Z ztest zcount zact 20 sample 0%Z = Ok (Goes, 105%Z).
Proof.
  assert (A : name (bs "add")) by (split; [vm_compute; intuition discriminate|intros [r X]; discriminate]).
  assert (O : name (bs "outer")) by (split; [vm_compute; intuition discriminate|intros [r X]; discriminate]).
  splits.
  - cbn [named_all named sample name_opt]. repeat split; auto; try apply A; try apply O.
  - reflexivity.
  - cbn. repeat constructor. intros [].
  - cbn. tauto.
  - cbn. tauto.
  - vm_compute. reflexivity.
Qed.
