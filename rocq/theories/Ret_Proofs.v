From Verif Require Import Common Ret_Model Ret_Spec.
Local Open Scope nat_scope.

Section P.
Context {St V : Type}.
Variable act : nat -> St -> St.
Variable cond : nat -> St -> bool * St.
Variable val : nat -> St -> V * St.
Variable fits : nat -> V -> bool.
Variable guards : bool.
Variable body : items.
(* what is known of every statement: no goto, and plain if guards count *)
Definition good (s : stmt) : Prop := no_goto s /\ (guards = true -> plain s).
Definition goods (l : items) : Prop := no_gotos l /\ (guards = true -> plains l).
Definition goodc (cs : cases) : Prop := no_gotoc cs /\ (guards = true -> plainc cs).

(** The rest of the function surely returns *)
Fixpoint kr (k : cont) : bool :=
  match k with Stop => false | Seq l k => block_always_returns l || kr k | InWhile _ _ k | InDo _ _ k => kr k end.
(** Loops were entered where what follows them surely returns *)
Fixpoint kinv (k : cont) : Prop :=
  match k with
  | Stop => True
  | Seq l k => goods l /\ kinv k
  | InWhile _ s k | InDo s _ k => good s /\ kr k = true /\ kinv k
  end.
Definition inv (x : @config St) : Prop :=
  match x with
  | At s k _ => good s /\ (stmt_always_returns s || kr k = true) /\ kinv k
  | In l k _ => goods l /\ (block_always_returns l || kr k = true) /\ kinv k
  | Next k _ => kr k = true /\ kinv k
  | Returned _ => True
  | FellOff _ => False
  end.
Lemma after_break_ok k k' : kinv k -> after_break k = Some k' -> kr k' = true /\ kinv k'.
Proof. induction k as [|l k IH|c s k IH|s c k IH]; cbn; intros I E; [discriminate|tauto| |]; injection E as <-; tauto. Qed.
Lemma after_continue_ok k k' : kinv k -> after_continue k = Some k' -> kr k' = true /\ kinv k'.
Proof. induction k as [|l k IH|c s k IH|s c k IH]; cbn; intros I E; [discriminate|tauto| |]; injection E as <-; cbn; tauto. Qed.
Lemma choose_ok cs v st : goodc cs ->
  match choose cond fits guards cs v st with
  | (Some b, _) => good b /\ forall d, cases_always_return cs d = true -> stmt_always_returns b = true
  | (None, _) => forall d, cases_always_return cs d = true -> d = true
  end.
Proof.
  revert st. induction cs as [|p g b cs IH]; intros st [G1 G2]; cbn [choose cases_always_return]; [auto|].
  cbn [no_gotoc plainc] in *.
  assert (GB : good b) by (split; [tauto|intros E; apply G2 in E; tauto]).
  assert (GC : goodc cs) by (split; [tauto|intros E; apply G2 in E; tauto]).
  assert (HERE : good b /\ forall d, (if stmt_always_returns b then cases_always_return cs (match p with None => true | Some _ => d end) else false) = true -> stmt_always_returns b = true).
  { split; [assumption|]. intros d. destruct (stmt_always_returns b); congruence. }
  assert (REST : forall st, (p = None -> False) -> match choose cond fits guards cs v st with
    | (Some b', _) => good b' /\ forall d, (if stmt_always_returns b then cases_always_return cs (match p with None => true | Some _ => d end) else false) = true -> stmt_always_returns b' = true
    | (None, _) => forall d, (if stmt_always_returns b then cases_always_return cs (match p with None => true | Some _ => d end) else false) = true -> d = true end).
  { intros st' NP. specialize (IH st' GC). destruct p; [|now destruct NP]. destruct (choose cond fits guards cs v st') as [[b'|] st1].
    - split; [tauto|]. intros d. destruct (stmt_always_returns b); [apply IH|discriminate].
    - intros d. destruct (stmt_always_returns b); [apply IH|discriminate]. }
  destruct (match p with None => true | Some p => fits p v end) eqn:EP.
  - destruct g as [g|]; [|exact HERE]. destruct guards eqn:GD; [|exact HERE]. destruct (cond g st) as [[] st1]; [exact HERE|].
    apply REST. intros ->. destruct (G2 eq_refl) as [Q _]. discriminate (Q eq_refl).
  - apply REST. intros ->. discriminate.
Qed.
Lemma step_ok x y : inv x -> step act cond val fits guards body x = Some y -> inv y.
Proof.
  destruct x as [s k st|l k st|k st|st|st]; cbn [inv].
  - intros (G & R & K) E. destruct s; cbn [step] in E; cbn [stmt_always_returns orb] in R.
    + injection E as <-. now split.
    + injection E as <-. exact I.
    + injection E as <-. split; [exact G|]. now split.
    + destruct (cond c st) as [[] st1]; injection E as <-; cbn [inv]; [|now split]. split; [exact G|]. rewrite R, orb_true_r. now split.
    + destruct (cond c st) as [b st1]. injection E as <-. cbn [inv]. destruct G as [G1 G2]. cbn in G1, G2.
      assert (GG : good (if b then s1 else s2)). { destruct b; (split; [tauto|]; intros Q; apply G2 in Q; tauto). }
      split; [exact GG|]. split; [|exact K]. destruct (kr k); [apply orb_true_r|]. rewrite orb_false_r in *. apply andb_prop in R as [R1 R2]. now destruct b.
    + destruct (val e st) as [v st1]. pose proof (choose_ok cs v st1 G) as C. destruct (choose cond fits guards cs v st1) as [[b|] st2]; injection E as <-; cbn [inv].
      * destruct C as [C1 C2]. split; [exact C1|]. split; [|exact K]. destruct (kr k); [apply orb_true_r|]. rewrite orb_false_r in *. now apply (C2 false).
      * split; [|exact K]. destruct (kr k); [reflexivity|]. rewrite orb_false_r in R. now apply C in R.
    + destruct (cond c st) as [[] st1]; injection E as <-; cbn [inv]; [|now split]. split; [exact G|]. cbn [kr kinv]. rewrite R, orb_true_r. split; [reflexivity|]. split; [exact G|]. now split.
    + injection E as <-. cbn [inv kr kinv]. split; [exact G|]. rewrite R, orb_true_r. split; [reflexivity|]. split; [exact G|]. now split.
    + destruct (after_break k) as [k'|] eqn:A; [|discriminate]. injection E as <-. now apply (after_break_ok k).
    + destruct (after_continue k) as [k'|] eqn:A; [|discriminate]. injection E as <-. now apply (after_continue_ok k).
    + destruct G as [[] _].
    + injection E as <-. now split.
  - intros (G & R & K) E. destruct l as [|s l]; cbn [step] in E; injection E as <-; cbn [inv].
    + now split.
    + destruct G as [G1 G2]. cbn in G1, G2. cbn [block_always_returns kr kinv] in *.
      split; [split; [tauto|intros Q; apply G2 in Q; tauto]|]. split; [|split; [split; [tauto|intros Q; apply G2 in Q; tauto]|exact K]].
      destruct (stmt_always_returns s); [reflexivity|exact R].
  - intros (R & K) E. destruct k as [|l k|c s k|s c k]; cbn [step] in E; cbn [kr kinv] in *.
    + discriminate.
    + injection E as <-. cbn [inv]. tauto.
    + injection E as <-. cbn [inv stmt_always_returns orb]. split; [apply K|]. tauto.
    + destruct (cond c st) as [[] st1]; injection E as <-; cbn [inv kr kinv]; [|tauto]. split; [apply K|]. rewrite R, orb_true_r. tauto.
  - intros _ E. cbn in E. injection E as <-. exact I.
  - tauto.
Qed.
Lemma steps_ok n x y : inv x -> steps act cond val fits guards body n x = Some y -> inv y.
Proof.
  revert x. induction n as [|n IH]; intros x I E; cbn [steps] in E; [congruence|].
  destruct (step act cond val fits guards body x) as [x1|] eqn:S1; [|discriminate]. apply (IH x1); [|exact E]. now apply (step_ok x).
Qed.
Theorem sound : goods body -> accepted body = true -> forall n st y, run act cond val fits guards body n st = Some y -> inv y.
Proof.
  intros G A n st y R. apply (steps_ok n (In body Stop st)); [|exact R]. cbn [inv kinv]. split; [exact G|]. unfold accepted in A. now rewrite A.
Qed.
End P.
