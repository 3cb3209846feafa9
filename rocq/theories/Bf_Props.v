(** C102: the Brainfuck plugin. *)
From Verif Require Import Common Bf_Model Bf_Spec Bf_Proofs.
Local Open Scope Z_scope.

(** The C text of a block is one C block exactly if the brackets of the program match. *)
Theorem C102_brackets :
  forall p, (exists b, c_block (bf_transpile p) = Some b) <-> Balanced p.
Proof.
  intros p. split.
  - intros [b E]. eapply block_balanced; eauto.
  - intros B. destruct (code_ex p B) as [t C0]. exists t. now apply block_code.
Qed.
Print Assumptions C102_brackets.

(** For a program whose brackets match and whose head never leaves cells 0 to 29999, run on a
    tape [t0] and an input: the C text ends exactly when the program halts, with the same
    output, input left and tape, and it never does anything undefined. *)
Theorem C102_run_partial :
  forall p t0 i, Balanced p -> (forall k m, Steps p k (start t0 i) m -> on_tape m) ->
  (forall k m, Steps p k (start t0 i) m -> halted p m -> forall n, (k < n)%nat ->
     exists s, run n p t0 i = Ok s /\ out s = output m /\ inp s = input m /\ tape s = cells m) /\
  (forall n s, run n p t0 i = Ok s -> exists k m, Steps p k (start t0 i) m /\ halted p m /\
     out s = output m /\ inp s = input m /\ tape s = cells m) /\
  (forall n, run n p t0 i <> UB /\ run n p t0 i <> Panic).
Proof.
  intros p t0 i B T. destruct (code_ex p B) as [t C0].
  assert (K : forall n, outcome p n (start t0 i) (run n p t0 i) (length p)).
  { intros n. unfold run. rewrite (block_code p t C0).
    apply (proj1 (sim n) p t C0 p [] [] (Bf_Model.C t0 0 i []) (start t0 i)); auto.
    - cbn. now rewrite app_nil_r.
    - repeat split. }
  splits.
  - intros k m S H n L. specialize (K n). destruct (run n p t0 i) as [s| | |] eqn:E; cbn in K; try contradiction.
    + destruct K as (k' & m' & K1 & K2 & K3). destruct (steps_stuck _ _ _ _ S H _ _ K1) as [_ Q].
      rewrite (Q K2) in K3. destruct K3 as (A1 & A2 & A3 & A4). eauto.
    + destruct K as (k' & m' & K1 & K2). apply T in K1. contradiction.
    + destruct K as (k' & m' & K1 & K2). destruct (steps_stuck _ _ _ _ S H _ _ K2) as [Q _]. lia.
  - intros n s E. specialize (K n). rewrite E in K. cbn in K. destruct K as (k & m & K1 & K2 & (A1 & A2 & A3 & A4)).
    exists k, m. splits; auto.
  - intros n. specialize (K n). split; intros E; rewrite E in K; cbn in K; auto.
    destruct K as (k & m & K1 & K2). apply T in K1. contradiction.
Qed.
Print Assumptions C102_run_partial.

(** A program that meets the hypotheses: it copies its input, one byte at a time, until a
    zero byte; here with the input 7, 0. *)
Example C102_run_ex : Balanced (bs ",[.,]") /\ (forall k m, Steps (bs ",[.,]") k (start blank_tape [7; 0]%N) m -> on_tape m) /\
  (exists s, run 20 (bs ",[.,]") blank_tape [7; 0]%N = Ok s /\ out s = [7%N]).
Proof.
  splits.
  - apply Bal_char; [discriminate|discriminate|]. apply (Bal_loop (bs ".,") []); [|constructor].
    apply Bal_char; [discriminate|discriminate|]. apply Bal_char; [discriminate|discriminate|constructor].
  - assert (K : forall k m m', head m = 0 -> Steps (bs ",[.,]") k m m' -> head m' = 0).
    { intros k m m' H S. induction S as [|n m m1 m2 S1 S2 IH]; auto. apply IH. clear IH S2.
      inversion S1; subst; cbn; auto; exfalso;
      match goal with X : nth_error _ _ = Some _ |- _ =>
        destruct (ip m) as [|[|[|[|[|j]]]]]; cbn in X; try discriminate; destruct j; discriminate end. }
    intros k m S. unfold on_tape. rewrite (K k (start blank_tape [7; 0]%N) m eq_refl S). lia.
  - eexists. split; [vm_compute; reflexivity|reflexivity].
Qed.

(** False of the second run of a block: the tape is a static array, so a program finds what
    the last run left on it, not the blank tape it starts with by definition. *)
Theorem C102_again_refuted :
  exists s1 s2, run 5 (bs "+.") blank_tape [] = Ok s1 /\ out s1 = [1%N] /\
    run 5 (bs "+.") (tape s1) [] = Ok s2 /\ out s2 = [2%N] /\
    (forall k m, Steps (bs "+.") k (start blank_tape []) m -> halted (bs "+.") m -> output m = [1%N]).
Proof.
  assert (E1 : exists s1, run 5 (bs "+.") blank_tape [] = Ok s1 /\ out s1 = [1%N] /\
    exists s2, run 5 (bs "+.") (tape s1) [] = Ok s2 /\ out s2 = [2%N]).
  { eexists. split; [reflexivity|]. split; [reflexivity|]. eexists. split; [reflexivity|]. reflexivity. }
  destruct E1 as (s1 & E1 & O1 & s2 & E2 & O2). exists s1, s2. splits; auto.
  intros k m S H.
  assert (S2 : Steps (bs "+.") 2 (start blank_tape []) (M 2 (written (start blank_tape []) 1) 0 [] [1%N])).
  { econstructor; [apply S_inc; reflexivity|]. econstructor; [apply S_put; reflexivity|]. constructor. }
  destruct (steps_stuck _ _ _ _ S2 eq_refl _ _ S) as [_ Q]. rewrite (Q H). reflexivity.
Qed.
Print Assumptions C102_again_refuted.

(** False of a program that leaves the tape: moving left of the first cell, or using the
    cell after the last, is undefined behaviour of the C text. *)
Lemma exec_rights j : forall n r t p i o, 0 <= p -> p + Z.of_nat j <= 30000 ->
  exec (j + n) (repeat SRight j ++ r) (Bf_Model.C t p i o) = exec n r (Bf_Model.C t (p + Z.of_nat j) i o).
Proof.
  induction j as [|j IH]; intros n r t p i o A B.
  - cbn. now rewrite Z.add_0_r.
  - cbn [Nat.add repeat app exec simple]. unfold move, tape_size. cbn [ptr].
    destruct (Z.leb_spec 0 (p + 1)); [|lia]. destruct (Z.leb_spec (p + 1) 30000); [|lia]. cbn [andb bind tape inp out].
    rewrite IH by lia. f_equal. f_equal. lia.
Qed.
Lemma code_rights j : Code (repeat 62%N j ++ bs "+") (repeat SRight j ++ [SInc]).
Proof. induction j; cbn [repeat app]; [apply (Code_op 43%N SInc [] []); [reflexivity|constructor]|]. now apply Code_op. Qed.
Lemma far_right j t i n : Z.of_nat j = 30000 -> run (j + S n) (repeat 62%N j ++ bs "+") t i = UB.
Proof.
  intros J. unfold run. rewrite (block_code _ _ (code_rights j)). rewrite exec_rights by lia.
  rewrite J. reflexivity.
Qed.
Theorem C102_tape_refuted :
  (forall p t i n, c_block (bf_transpile (60%N :: p)) <> None -> run (S n) (60%N :: p) t i = UB) /\
  (forall t i n, run (N.to_nat 30000 + S n) (repeat 62%N (N.to_nat 30000) ++ bs "+") t i = UB).
Proof.
  split.
  - intros p t i n H. destruct (c_block (bf_transpile (60%N :: p))) as [b|] eqn:E; [|congruence].
    assert (B : Balanced p).
    { apply block_balanced in E. inversion E; auto. }
    destruct (code_ex p B) as [b' C0]. assert (C1 : Code (60%N :: p) (SLeft :: b')) by now apply Code_op.
    unfold run. rewrite (block_code _ _ C1). reflexivity.
  - intros t i n. apply far_right. rewrite N_nat_Z. reflexivity.
Qed.
Print Assumptions C102_tape_refuted.
Example C102_tape_ex : c_block (bf_transpile (bs "<[-]")) <> None.
Proof. vm_compute. discriminate. Qed.

(** False of a program whose brackets do not match: nothing is reported.  The plugin writes
    its C text all the same, in which a bracket too few leaves the block open, so that what
    comes after it in the source is inside, and a bracket too many ends it early. *)
Theorem C102_unmatched_refuted :
  forall p, ~ Balanced p -> (exists ls, bf_transpile p = LBegin :: ls ++ [LEnd]) /\ c_block (bf_transpile p) = None.
Proof.
  intros p B. split; [eexists; reflexivity|].
  destruct (c_block (bf_transpile p)) as [b|] eqn:E; auto. apply block_balanced in E. contradiction.
Qed.
Print Assumptions C102_unmatched_refuted.
Example C102_unmatched_ex : ~ Balanced (bs "+[-") /\
  read_block (tl (bf_transpile (bs "+[-"))) [] [] = None /\
  read_block (tl (bf_transpile (bs "+]-"))) [] [] = Some ([SInc], [LDec; LEnd]).
Proof.
  splits; try reflexivity. intros B. apply bal_depth in B. vm_compute in B. discriminate.
Qed.
