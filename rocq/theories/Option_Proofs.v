(** Proofs about Option and Result *)
From Verif Require Import Common Option_Model Option_Spec.
Local Open Scope nat_scope.

Lemma total_app {A} (f : A -> nat) a b : total f (a ++ b) = total f a + total f b.
Proof. induction a as [|x a IH]; [reflexivity|]. cbn in *. lia. Qed.
Lemma total_upd {A} (f : A -> nat) : forall l i x y, nth_error l i = Some x -> total f (upd l i y) + f x = total f l + f y.
Proof.
  induction l as [|z l IH]; intros [|i] x y H; try discriminate; cbn in H |- *.
  - injection H as ->. lia.
  - specialize (IH i x y H). cbn in IH. lia.
Qed.
Lemma upd_nth {A} : forall (l : list A) i j y, nth_error (upd l i y) j =
  if i =? j then match nth_error l j with Some _ => Some y | None => None end else nth_error l j.
Proof.
  induction l as [|z l IH]; intros i j y.
  - destruct i; cbn; destruct j; cbn; auto; destruct (_ =? _); auto.
  - destruct i as [|i], j as [|j]; cbn; auto.
Qed.
Lemma upd_len {A} : forall (l : list A) i y, length (upd l i y) = length l.
Proof. induction l as [|z l IH]; intros [|i] y; cbn; auto. Qed.

(** * Every object the ideal program creates is in one place *)
Definition places (n : nat) (s : ist) : nat := total (in_opt n) (iopts s) + total (in_var n) (ivars s).
Definition alive (n : nat) (s : ist) : nat := if n <? inext s then 1 else 0.
Lemma held_nth s i x : held s i = Some x -> nth_error (iopts s) i = Some (Holds x).
Proof. unfold held. destruct (nth_error (iopts s) i) as [[|y]|]; intros H; inversion H; subst; auto. Qed.
Lemma drops_count n x : dropped n (drops x) = in_opt n (Holds x).
Proof. unfold dropped. destruct x; cbn; lia. Qed.
Lemma one_count n m (f : nat) : f = (if n =? m then 1 else 0) -> (n = m /\ f = 1) \/ (n <> m /\ f = 0).
Proof. destruct (Nat.eqb_spec n m); auto. Qed.

Ltac cnt := repeat match goal with
  | |- context [?a =? ?b] => destruct (Nat.eqb_spec a b)
  | H : context [?a =? ?b] |- _ => destruct (Nat.eqb_spec a b)
  | |- context [?a <? ?b] => destruct (Nat.ltb_spec a b)
  | H : context [?a <? ?b] |- _ => destruct (Nat.ltb_spec a b) end; subst; try lia.

Lemma istep_places n s o s' e : istep s o = Some (Some (s', e)) ->
  (forall m, inext s <= m -> places m s = 0) ->
  places n s' + dropped n e + alive n s = places n s + alive n s' /\ (forall m, inext s' <= m -> places m s' = 0).
Proof.
  intros E F.
  assert (K : (forall n, places n s' + dropped n e + alive n s = places n s + alive n s') /\ inext s <= inext s').
  2:{ destruct K as [K L]. split; [apply K|]. intros m M. specialize (K m). specialize (F m ltac:(lia)).
      unfold alive in K. cnt. }
  clear n. destruct o as [| |i|i|i|i|i j|i|i|k]; cbn [istep] in E.
  - injection E as <- <-. split; [|cbn; lia]. intros n. pose proof (F n). unfold places, alive, dropped in *. cbn [iopts ivars inext].
    rewrite total_app. cbn. cnt.
  - injection E as <- <-. split; [|cbn; lia]. intros n. unfold places, alive, dropped. cbn [iopts ivars inext]. rewrite total_app. cbn. lia.
  - destruct (held s i); [|discriminate]. injection E as <- <-. split; [|lia]. intros n. cbn. lia.
  - destruct (held s i) as [[x|]|] eqn:H; try discriminate. unfold gives in E. injection E as <- <-. split; [|cbn; lia]. intros n.
    apply held_nth in H. pose proof (total_upd (in_opt n) _ _ _ Gone H) as U. unfold places, alive, dropped. cbn [iopts ivars inext app] in *.
    rewrite total_app. cbn in *. lia.
  - destruct (held s i) as [[x|]|] eqn:H; try discriminate. unfold gives in E. injection E as <- <-. split; [|cbn; lia]. intros n.
    apply held_nth in H. pose proof (total_upd (in_opt n) _ _ _ Gone H) as U. unfold places, alive, dropped. cbn [iopts ivars inext app] in *.
    rewrite total_app. cbn in *. lia.
  - destruct (held s i) as [[x|]|] eqn:H; try discriminate; unfold gives in E; injection E as <- <-; (split; [|cbn; lia]); intros n;
    apply held_nth in H; pose proof (total_upd (in_opt n) _ _ _ Gone H) as U; pose proof (F n) as Fn; unfold places, alive, dropped in *; cbn [iopts ivars inext app] in *;
    rewrite total_app; cbn in *; cnt.
  - destruct (Nat.eqb_spec i j) as [|NE]; [discriminate|].
    destruct (held s i) as [x|] eqn:H; [|discriminate]. destruct (held s j) as [y|] eqn:H2; [|discriminate].
    apply held_nth in H, H2.
    assert (H3 : nth_error (upd (iopts s) i Gone) j = Some (Holds y)) by (rewrite upd_nth; destruct (Nat.eqb_spec i j); congruence).
    assert (U : forall n, total (in_opt n) (upd (upd (iopts s) i Gone) j Gone) + in_opt n (Holds x) + in_opt n (Holds y) = total (in_opt n) (iopts s)).
    { intros n. pose proof (total_upd (in_opt n) _ _ _ Gone H) as U1. pose proof (total_upd (in_opt n) _ _ _ Gone H3) as U2. cbn [in_opt] in *. lia. }
    destruct x as [x|]; injection E as <- <-; (split; [|cbn; lia]); intros n; specialize (U n);
      unfold places, alive; cbn [iopts ivars inext]; rewrite total_app; rewrite ?drops_count; cbn [total dropped in_opt] in *; lia.
  - destruct (held s i) as [x|] eqn:H; [|discriminate]. injection E as <- <-. split; [|cbn; lia]. intros n.
    apply held_nth in H. pose proof (total_upd (in_opt n) _ _ _ Gone H) as U. rewrite drops_count. unfold places, alive. cbn [iopts ivars inext in_opt] in *. lia.
  - destruct (held s i) as [x|] eqn:H; [|discriminate]. injection E as <- <-. split; [|cbn; lia]. intros n.
    apply held_nth in H. pose proof (total_upd (in_opt n) _ _ _ Gone H) as U. rewrite drops_count. unfold places, alive. cbn [iopts ivars inext in_opt] in *. lia.
  - destruct (nth_error (ivars s) k) as [[x|]|] eqn:H; try discriminate. injection E as <- <-. split; [|cbn; lia]. intros n.
    pose proof (total_upd (in_var n) _ _ _ None H) as U. unfold places, alive, dropped. cbn [iopts ivars inext total in_event in_var] in *. lia.
Qed.
Lemma dropped_app n a b : dropped n (a ++ b) = dropped n a + dropped n b.
Proof. apply total_app. Qed.
Lemma irun_places : forall l s s' e n, irun s l = Some (Some (s', e)) ->
  (forall m, inext s <= m -> places m s = 0) ->
  places n s' + dropped n e + alive n s = places n s + alive n s'.
Proof.
  induction l as [|o l IH]; intros s s' e n E F; cbn [irun] in E.
  - injection E as <- <-. unfold dropped. cbn. lia.
  - destruct (istep s o) as [[[s1 e1]|]|] eqn:E1; try discriminate.
    destruct (irun s1 l) as [[[s2 e2]|]|] eqn:E2; try discriminate. injection E as <- <-.
    destruct (istep_places n _ _ _ _ E1 F) as [P1 P2]. specialize (IH _ _ _ n E2 P2). rewrite dropped_app. lia.
Qed.

(** * The program follows the ideal one *)
Definition rel_opt (x : iopt) (o : opt) : Prop :=
  match x with Gone => True | Holds (Some n) => o = some (Obj n) | Holds None => is_some o = false end.
Definition rel_var (x : option nat) (v : option payload) : Prop := v = option_map Obj x.
Record rel (i : ist) (s : st) : Prop := {
  r_opts : Forall2 rel_opt (iopts i) (opts s);
  r_vars : Forall2 rel_var (ivars i) (vars s);
  r_next : inext i = next s }.
Lemma f2_nth {A B} (R : A -> B -> Prop) l1 l2 i x : Forall2 R l1 l2 -> nth_error l1 i = Some x -> exists y, nth_error l2 i = Some y /\ R x y.
Proof.
  intros H. revert i. induction H as [|a b l1 l2 H1 H2 IH]; intros [|i] E; try discriminate; cbn in *.
  - injection E as <-. eauto.
  - auto.
Qed.
Lemma f2_upd {A B} (R : A -> B -> Prop) l1 l2 i x y : Forall2 R l1 l2 -> R x y -> Forall2 R (upd l1 i x) (upd l2 i y).
Proof. intros H HR. revert i. induction H; intros [|i]; cbn; constructor; auto. Qed.
Lemma f2_gone l1 l2 i : Forall2 rel_opt l1 l2 -> Forall2 rel_opt (upd l1 i Gone) l2.
Proof. intros H. revert i. induction H; intros [|i]; cbn; constructor; auto; exact Logic.I. Qed.
Lemma f2_snoc {A B} (R : A -> B -> Prop) l1 l2 x y : Forall2 R l1 l2 -> R x y -> Forall2 R (l1 ++ [x]) (l2 ++ [y]).
Proof. intros. apply Forall2_app; auto. Qed.

Lemma step_rel i s o : rel i s -> abandons i o = false ->
  match istep i o with
  | None => True
  | Some None => step s o = Panic
  | Some (Some (i', e)) => exists s', step s o = Ok (s', e) /\ rel i' s'
  end.
Proof.
  intros [RO RV RN] C. 
  assert (AT : forall j x, held i j = Some x -> exists y, at_ (opts s) j = Ok y /\ rel_opt (Holds x) y).
  { intros j x H. apply held_nth in H. destruct (f2_nth _ _ _ _ _ RO H) as (y & Hy & R). exists y. unfold at_. rewrite Hy. auto. }
  destruct o as [| |j|j|j|j|j j'|j|j|k]; cbn [istep step abandons] in *.
  - eexists. split; [reflexivity|]. constructor; cbn; [|exact RV|congruence]. apply f2_snoc; [exact RO|]. cbn. now rewrite RN.
  - eexists. split; [reflexivity|]. constructor; cbn; auto. now apply f2_snoc.
  - destruct (held i j) as [x|] eqn:H; [|exact Logic.I]. destruct (AT _ _ H) as (y & -> & R). cbn [bind].
    exists s. split; [|now constructor]. destruct x; cbn in R; [subst y; reflexivity|now rewrite R].
  - destruct (held i j) as [[x|]|] eqn:H; [| |exact Logic.I]; destruct (AT _ _ H) as (y & -> & R); cbn [bind]; cbn in R.
    + subst y. unfold gives. eexists. split; [reflexivity|]. constructor; cbn; auto; [|now apply f2_snoc].
      now apply f2_upd.
    + unfold unwrap. now rewrite R.
  - destruct (held i j) as [[x|]|] eqn:H; [| |exact Logic.I]; destruct (AT _ _ H) as (y & -> & R); cbn [bind]; cbn in R.
    + subst y. unfold gives. eexists. split; [reflexivity|]. constructor; cbn; auto; [now apply f2_gone|now apply f2_snoc].
    + unfold expect. now rewrite R.
  - destruct (held i j) as [[x|]|] eqn:H; [| |exact Logic.I]; destruct (AT _ _ H) as (y & -> & R); cbn [bind]; cbn in R.
    + subst y. unfold gives. rewrite RN. eexists. split; [reflexivity|]. constructor; cbn; auto; [now apply f2_gone|now apply f2_snoc].
    + unfold unwrap_or. rewrite R. unfold gives. rewrite RN. eexists. split; [reflexivity|]. constructor; cbn; auto; [now apply f2_gone|now apply f2_snoc].
  - destruct (j =? j'); [exact Logic.I|]. destruct (held i j) as [x|] eqn:H; [|exact Logic.I].
    destruct (held i j') as [x'|] eqn:H'; [|destruct x; exact Logic.I].
    destruct (AT _ _ H) as (y & -> & R). destruct (AT _ _ H') as (y' & -> & R'). cbn [bind].
    destruct x as [x|].
    + destruct x' as [x'|]; [discriminate|]. cbn in R. subst y. eexists. split; [reflexivity|].
      constructor; cbn; auto. apply f2_snoc; [|reflexivity]. now apply f2_gone, f2_gone.
    + cbn in R. eexists. split; [reflexivity|]. constructor; cbn; auto. apply f2_snoc; [now apply f2_gone, f2_gone|].
      unfold or_else. now rewrite R.
  - destruct (held i j) as [[x|]|] eqn:H; [discriminate| |exact Logic.I]. destruct (AT _ _ H) as (y & -> & R). cbn [bind].
    eexists. split; [reflexivity|]. constructor; cbn; auto. apply f2_upd; [exact RO|exact Logic.I].
  - destruct (held i j) as [[x|]|] eqn:H; [discriminate| |exact Logic.I]. destruct (AT _ _ H) as (y & -> & R). cbn [bind].
    eexists. split; [reflexivity|]. constructor; cbn; auto. now apply f2_gone.
  - destruct (nth_error (ivars i) k) as [[x|]|] eqn:H; try exact Logic.I. destruct (f2_nth _ _ _ _ _ RV H) as (y & Hy & R).
    unfold at_. rewrite Hy. unfold rel_var in R. cbn in R. subst y. cbn [bind]. eexists. split; [reflexivity|]. constructor; cbn; auto.
    now apply f2_upd.
Qed.
Lemma run_rel : forall l i s, rel i s -> careful i l ->
  match irun i l with
  | None => True
  | Some None => run s l = Panic
  | Some (Some (i', e)) => exists s', run s l = Ok (s', e) /\ rel i' s'
  end.
Proof.
  induction l as [|o l IH]; intros i s R C; cbn [irun run].
  - exists s. auto.
  - destruct C as [C1 C2]. pose proof (step_rel i s o R C1) as SR.
    destruct (istep i o) as [[[i1 e1]|]|]; [|now rewrite SR|exact Logic.I].
    destruct SR as (s1 & E1 & R1). rewrite E1. cbn [bind]. specialize (IH i1 s1 R1 C2).
    destruct (irun i1 l) as [[[i2 e2]|]|]; [|now rewrite IH|exact Logic.I].
    destruct IH as (s2 & -> & R2). cbn [bind]. exists s2. auto.
Qed.
