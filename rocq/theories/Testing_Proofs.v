From Verif Require Import Common Testing_Model Testing_Spec.

Lemma format_plain s : ~ In 37%N s -> format s = Ok s.
Proof.
  induction s as [|c s IH]; intros H; [reflexivity|]. assert (c <> 37%N) by (intros ->; apply H; now left).
  assert (E : format (c :: s) = do t <- format s; Ok (c :: t)).
  { cbn [format]. destruct c as [|p]; [reflexivity|]. do 6 (destruct p; try reflexivity). congruence. }
  rewrite E, IH; [reflexivity|]. intros X. apply H. now right.
Qed.
Lemma format_bad a c b : ~ In 37%N a -> c <> 37%N -> format (a ++ 37%N :: c :: b) = UB.
Proof.
  intros H N. induction a as [|x a IH].
  - cbn [app format]. destruct c as [|p]; [reflexivity|]. do 6 (destruct p; try reflexivity). congruence.
  - assert (x <> 37%N) by (intros ->; apply H; now left). cbn [app].
    assert (E : forall s, format (x :: s) = do t <- format s; Ok (x :: t)).
    { intros s. cbn [format]. destruct x as [|p]; [reflexivity|]. do 6 (destruct p; try reflexivity). congruence. }
    rewrite E, IH; [reflexivity|]. intros X. apply H. now right.
Qed.
Lemma format_double a b : ~ In 37%N a -> ~ In 37%N b -> format (a ++ 37%N :: 37%N :: b) = Ok (a ++ 37%N :: b).
Proof.
  intros H K. induction a as [|x a IH].
  - cbn [app format]. now rewrite format_plain.
  - assert (x <> 37%N) by (intros ->; apply H; now left). cbn [app].
    assert (E : forall s, format (x :: s) = do t <- format s; Ok (x :: t)).
    { intros s. cbn [format]. destruct x as [|p]; [reflexivity|]. do 6 (destruct p; try reflexivity). congruence. }
    rewrite E, IH; [reflexivity|]. intros X. apply H. now right.
Qed.
Lemma prefix_plain : ~ In 37%N (bs "Assertion failed: ").
Proof. cbn. intuition discriminate. Qed.
Lemma message_plain m : ~ In 37%N m -> format (bs "Assertion failed: " ++ m) = Ok (bs "Assertion failed: " ++ m).
Proof. intros H. apply format_plain. intros X. apply in_app_or in X as [X|X]; [exact (prefix_plain X)|auto]. Qed.

Lemma block_ends S (b : list (stmt S)) : forall ds s, Forall plain_stmt b -> exists o, block S ds b s = Ok o /\ ends b ds s o.
Proof.
  induction b as [|x b IH]; intros ds s F; [eexists; split; [reflexivity|constructor]|].
  inversion F as [|? ? F1 F2]; subst. destruct x as [f|f|c m].
  - destruct (IH ds (f s) F2) as (o & A & B). exists o. split; [exact A|now constructor].
  - destruct (IH (f :: ds) s F2) as (o & A & B). exists o. split; [exact A|now constructor].
  - cbn [block]. unfold assert. destruct (c s) eqn:C.
    + destruct (IH ds s F2) as (o & A & B). exists o. split; [exact A|now constructor].
    + cbn in F1. rewrite message_plain by auto. eexists. split; [reflexivity|now constructor].
Qed.
Lemma ends_det S (b : list (stmt S)) ds s o1 o2 : ends b ds s o1 -> ends b ds s o2 -> o1 = o2.
Proof. intros A. revert o2. induction A; intros o2 B; inversion B; subst; auto; congruence. Qed.
Lemma run_tests_end S (ts : list (list (stmt S))) : forall s, Forall (Forall plain_stmt) ts -> exists o, run_tests S ts s = Ok o /\ all_end ts s o.
Proof.
  induction ts as [|t ts IH]; intros s F; [eexists; split; [reflexivity|constructor]|].
  inversion F as [|? ? F1 F2]; subst. destruct (block_ends S t [] s F1) as (o & A & B). cbn [run_tests]. rewrite A. cbn [bind].
  destruct o as [s'|z e s'].
  - destruct (IH s' F2) as (o & C & D). exists o. split; auto. econstructor; eauto.
  - eexists. split; [reflexivity|]. now constructor.
Qed.
Lemma user_main_none S (p : list (item S)) : no_main p -> user_main S p = None.
Proof.
  intros N. unfold user_main. destruct (List.find _ p) as [i|] eqn:E; [|reflexivity]. apply List.find_some in E as [A B].
  destruct i as [n b|n b|]; try discriminate. apply beq_bytes_true in B. subst n. exfalso. exact (N b A).
Qed.
Lemma user_main_app S (a : list (item S)) b p : no_main a -> user_main S (a ++ IFun (bs "main") b :: p) = Some b.
Proof.
  intros N. unfold user_main. induction a as [|i a IH]; [reflexivity|]. cbn [app List.find].
  destruct i as [n c|n c|]; [apply IH; intros x X; apply (N x); now right| |apply IH; intros x X; apply (N x); now right].
  destruct (beq_bytes n (bs "main")) eqn:E; [apply beq_bytes_true in E; subst; exfalso; apply (N c); now left|].
  apply IH. intros x X. apply (N x). now right.
Qed.

Lemma first_arg_protected ts : forall d rest, protected d ts = true -> first_arg d (ts ++ PComma :: rest) = (ts, Some rest).
Proof.
  induction ts as [|t ts IH]; intros d rest H.
  - cbn in H. apply Nat.eqb_eq in H. subst d. reflexivity.
  - cbn [protected] in H. cbn [app first_arg]. destruct t as [| | |x].
    + apply andb_prop in H as [H1 H2]. destruct d; [discriminate|]. now rewrite IH.
    + now rewrite IH.
    + apply andb_prop in H as [H1 H2]. destruct d; [discriminate|]. cbn [Nat.pred] in *. now rewrite IH.
    + now rewrite IH.
Qed.
