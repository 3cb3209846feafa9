(** C64: objects whose type implements Drop are destroyed exactly once. *)
From Verif Require Import Common Raii_Model Raii_Spec Raii_Proofs.
Local Open Scope nat_scope.

(** Whatever the branches taken and however far the program has come, including a program
    that assigns to variables and throws results away: an object is dropped at most once,
    and only if it was created. *)
Theorem C64_at_most_once : forall prog choose fuel s r o,
  ok_prog prog false ->
  run prog choose fuel = (s, r) -> r <> GBad ->
  times (is_dropped o) (log s) <= times (is_created o) (log s) <= 1.
Proof.
  intros prog choose fuel s r o OK H NB.
  destruct (all_ok prog choose false OK fuel) as (_ & _ & PC & _). specialize (PC _ _ _ _ _ H).
  assert (W0 : wf (mkst 0 0 [])) by now intros x.
  assert (K : (W s o <= 0)%Z /\ wf s).
  { destruct r as [v| |]; [|contradiction|].
    - destruct PC as [(A & B & _) _]. split; [|auto]. specialize (A o). cbn in A.
      assert (N := is_nonneg). destruct v as [v|]; cbn in A; [specialize (N v o)|]; change (W (mkst 0 0 []) o) with 0%Z in A; cbn in A; lia.
    - destruct PC as (A & B & _). split; [|auto]. specialize (A o). exact A. }
  destruct K as [K1 K2]. unfold W in K1. specialize (K2 o). destruct (o <? next s); lia.
Qed.

(** A program that never assigns to a declared variable and never throws away an object
    returned by a call: when it is done, every object it created was dropped exactly once,
    except the one it returns, which was not.  (For every program: see the refutations.) *)
Theorem C64_exactly_once_partial : forall prog choose fuel s v o,
  ok_prog prog true ->
  run prog choose fuel = (s, Got v) -> o < next s ->
  times (is_created o) (log s) = 1 /\
  times (is_dropped o) (log s) = (match v with Some (Some o') => if o' =? o then 0 else 1 | _ => 1 end).
Proof.
  intros prog choose fuel s v o OK H L.
  destruct (all_ok prog choose true OK fuel) as (_ & _ & PC & _). specialize (PC _ _ _ _ _ H).
  destruct PC as [(A & B & C) _]. assert (W0 : wf (mkst 0 0 [])) by now intros x.
  specialize (B W0 o). destruct (C eq_refl) as [_ D]; [constructor|]. specialize (D o). specialize (A o).
  unfold lost in D. cbn in D. change (W (mkst 0 0 []) o) with 0%Z in A. cbn in A. unfold W in A.
  destruct (Nat.ltb_spec o (next s)); [|lia]. split; [exact B|]. rewrite B, D in A.
  destruct v as [[o'|]|]; cbn in A; [destruct (o' =? o)|..]; lia.
Qed.

(** Nothing else is ever dropped: an object number not yet given out is in no event. *)
Theorem C64_only_created : forall prog choose fuel s r o,
  ok_prog prog false ->
  run prog choose fuel = (s, r) -> r <> GBad -> next s <= o ->
  times (is_dropped o) (log s) = 0.
Proof.
  intros prog choose fuel s r o OK H NB L.
  assert (X := C64_at_most_once _ _ _ _ _ o OK H NB).
  destruct (all_ok prog choose false OK fuel) as (_ & _ & PC & _). specialize (PC _ _ _ _ _ H).
  assert (W0 : wf (mkst 0 0 [])) by now intros x.
  assert (K : wf s). { destruct r as [v| |]; [|contradiction|]; [destruct PC as [(_ & B & _) _]|destruct PC as (_ & B & _)]; auto. }
  specialize (K o). destruct (Nat.ltb_spec o (next s)); lia.
Qed.

(** A program with a loop, moves, early returns and calls:
    fn main() { let a = new(); while (c) { let b = pass(new(), a?);
      if (c) { break; } let d = b; if (c) { return; } } consume(a); }
    fn pass(p) -> T { if (c) { return p; } return new(); }
    fn consume(p) {} *)
Definition example_prog : list func :=
  [ mkfunc [] false
      (Then (Let 0 New)
      (Then (While (Then (Let 1 (Call 1 [New]))
                   (Then (If (Then Break Nil) Nil)
                   (Then (Let 2 (Var 1))
                   (Then (If (Then (Return None) Nil) (Then (Do 2 [Var 2]) Nil))
                   (Then Continue Nil))))))
      (Then (Do 2 [Var 0]) Nil)));
    mkfunc [0] true (Then (If (Then (Return (Some (Var 0))) Nil) Nil) (Then (Return (Some New)) Nil));
    mkfunc [0] false Nil ].

Example C64_example :
  ok_prog example_prog true /\ ok_prog example_prog false /\
  (let r := run example_prog (fun n => nth n [true; true; false; false; true; false; true] false) 60 in
   snd r = Got None /\ next (fst r) = 4 /\
   rev (log (fst r)) =
     [Created 0; Created 1; Dropped None; Dropped (Some 1);
      Created 2; Created 3; Dropped (Some 2); Dropped (Some 3); Dropped (Some 0)]).
Proof.
  cbv zeta. splits; [..|vm_compute; reflexivity|vm_compute; reflexivity|vm_compute; reflexivity].
  all: repeat (constructor; [unfold ok_func; cbn; splits; try (repeat constructor; cbn; intuition lia); try lia; try (intros _ fn [= <-]; reflexivity)|]); try constructor.
Qed.

(** What happened in a program without conditions, the oldest event first *)
Definition history (prog : list func) : got (option (option nat)) * list event :=
  let r := run prog (fun _ => true) 60 in (snd r, rev (log (fst r))).

(** let x = new(); { let x = new(); return; }: the return drops the inner x twice and the
    outer one never. *)
Theorem C64_shadow_refuted :
  history [mkfunc [] false (Then (Let 0 New) (Then (Block (Then (Let 0 New) (Then (Return None) Nil))) Nil))] =
  (Got None, [Created 0; Created 1; Dropped (Some 1); Dropped (Some 1)]).
Proof. vm_compute; reflexivity. Qed.

(** let x = new(); x = new(): the first object is never dropped.
    let x = new(); let y = x; x = new(): the object assigned after the move is not either.
    f(), f returning an object: it is not dropped. *)
Theorem C64_lost_refuted :
  history [mkfunc [] false (Then (Let 0 New) (Then (Assign 0 New) Nil))] =
    (Got None, [Created 0; Created 1; Lost 0; Dropped (Some 1)]) /\
  history [mkfunc [] false (Then (Let 0 New) (Then (Let 1 (Var 0)) (Then (Assign 0 New) Nil)))] =
    (Got None, [Created 0; Created 1; Dropped (Some 0); Lost 1]) /\
  history [mkfunc [] false (Then (Do 1 []) Nil); mkfunc [] true (Then (Return (Some New)) Nil)] =
    (Got None, [Created 0; Lost 0]).
Proof. splits; (vm_compute; reflexivity). Qed.

(** let x = new(); return x: the drop method is called on a zeroed object. *)
Theorem C64_zeroed_refuted :
  history [mkfunc [] true (Then (Let 0 New) (Then (Return (Some (Var 0))) Nil))] =
  (Got (Some (Some 0)), [Created 0; Dropped None]).
Proof. vm_compute; reflexivity. Qed.

(** A function with more than 1024 variables drops only 1024 of them. *)
Fixpoint lets (n x : nat) : items := match n with 0 => Nil | S n => Then (Let x New) (lets n (S x)) end.
Definition is_drop (ev : event) : bool := match ev with Dropped _ => true | _ => false end.
Lemma emit_lets n : forall x base stack bnds,
  emit_items (lets n x) base stack bnds = map (fun i => TLet i New) (seq x n) ++ map TDrop (above base (fold_left push (seq x n) stack)).
Proof. induction n as [|n IH]; intros x base stack bnds; [reflexivity|]. cbn [lets emit_items emit seq map fold_left app]. now rewrite IH. Qed.
Lemma push_len xs : forall stack, (N.of_nat (length stack) <= 1024)%N ->
  N.of_nat (length (fold_left push xs stack)) = N.min 1024 (N.of_nat (length stack + length xs)).
Proof.
  induction xs as [|x xs IH]; intros stack L; cbn [fold_left length]; [rewrite Nat.add_0_r; lia|].
  unfold push at 2. destruct (N.ltb_spec (N.of_nat (length stack)) 1024) as [A|A]; rewrite IH by (cbn [length]; lia); cbn [length]; lia.
Qed.
Lemma push_in xs : forall stack y, In y (fold_left push xs stack) -> In y stack \/ In y xs.
Proof.
  induction xs as [|x xs IH]; intros stack y I; [now left|]. cbn [fold_left] in I. apply IH in I as [I|I]; [|right; now right].
  unfold push in I. destruct (_ <? _)%N; [destruct I as [<-|I]; [right; now left|now left]|now left].
Qed.
Section Limit.
Variable prog : list func.
Variable choose : nat -> bool.
Lemma run_lets n : forall k x rest e s, exists s', execs prog choose (n + S (S k)) (map (fun i => TLet i New) (seq x n) ++ rest) e s =
    execs prog choose (S (S k)) rest (map (fun i => (x + i, mkslot true (Some (next s + i)))) (rev (seq 0 n)) ++ e) s' /\
  next s' = next s + n /\ times is_drop (log s') = times is_drop (log s).
Proof.
  induction n as [|n IH]; intros k x rest e s.
  - exists s. splits; [reflexivity|lia|reflexivity].
  - cbn [seq map app]. rewrite Nat.add_succ_l, execs_S.
    assert (E : exec prog choose (n + S (S k)) (TLet x New) e s = ((x, mkslot true (Some (next s))) :: e, create s, Normal)).
    { replace (n + S (S k)) with (S (S (n + k))) by lia. reflexivity. }
    rewrite E. destruct (IH k (S x) rest ((x, mkslot true (Some (next s))) :: e) (create s)) as (s' & Q1 & Q2 & Q3).
    exists s'. splits.
    + rewrite Q1. f_equal. rewrite <- seq_shift. cbn [rev]. rewrite map_app. cbn [map]. rewrite <- app_assoc. cbn [app]. rewrite !Nat.add_0_r. f_equal.
      rewrite <- map_rev, map_map. apply map_ext. intros i. cbn [create next]. f_equal; [lia|]. do 2 f_equal. lia.
    + rewrite Q2. cbn. lia.
    + rewrite Q3. reflexivity.
Qed.
Lemma run_drops xs : forall k rest e s, (forall x, In x xs -> exists v, find x e = Some (mkslot true v)) ->
  exists s', execs prog choose (length xs + S (S k)) (map TDrop xs ++ rest) e s = execs prog choose (S (S k)) rest e s' /\
  next s' = next s /\ times is_drop (log s') = length xs + times is_drop (log s).
Proof.
  induction xs as [|x xs IH]; intros k rest e s H; cbn [length map app].
  - exists s. splits; reflexivity.
  - rewrite Nat.add_succ_l, execs_S. destruct (H x (or_introl eq_refl)) as [v F].
    assert (E : exec prog choose (length xs + S (S k)) (TDrop x) e s = (e, say (Dropped v) s, Normal)).
    { replace (length xs + S (S k)) with (S (length xs + S k)) by lia. cbn [exec]. unfold drop. rewrite F. reflexivity. }
    rewrite E. destruct (IH k rest e (say (Dropped v) s)) as (s' & Q1 & Q2 & Q3); [intros y I; apply H; now right|].
    exists s'. splits; [exact Q1|exact Q2|]. rewrite Q3. cbn. lia.
Qed.
End Limit.
Lemma find_lets n m : forall x, x < n -> find x (map (fun i => (i, mkslot true (Some (m + i)))) (rev (seq 0 n))) = Some (mkslot true (Some (m + x))).
Proof.
  induction n as [|n IH]; intros x L; [lia|]. rewrite seq_S, rev_app_distr. cbn [rev app map find plus].
  destruct (Nat.eqb_spec x n) as [->|N]; [reflexivity|]. apply IH. lia.
Qed.
Theorem C64_limit_refuted n choose fuel : (1024 <= N.of_nat n)%N -> 2 * n + 10 <= fuel ->
  let r := run [mkfunc [] false (lets n 0)] choose fuel in
  snd r = Got None /\ next (fst r) = n /\ N.of_nat (times is_drop (log (fst r))) = 1024%N.
Proof.
  intros L F r. unfold r, run. set (prog := [mkfunc [] false (lets n 0)]).
  set (st := fold_left push (seq 0 n) []).
  assert (Ls : N.of_nat (length st) = 1024%N) by (unfold st; rewrite push_len, seq_length; cbn; lia).
  set (s0 := mkst 0 0 []).
  assert (B : exists e s, execs prog choose (fuel - 3) (map (fun i => TLet i New) (seq 0 n) ++ map TDrop (above 0 st)) [] s0 = (e, s, Normal) /\
     next s = n /\ N.of_nat (times is_drop (log s)) = 1024%N).
  { replace (fuel - 3) with (n + S (S (length st + S (S (fuel - 7 - n - length st))))) by lia.
    destruct (run_lets prog choose n (length st + S (S (fuel - 7 - n - length st))) 0 (map TDrop (above 0 st)) [] s0) as (s1 & Q1 & Q2 & Q3).
    rewrite Q1. set (e1 := map _ _ ++ []).
    unfold above. rewrite Nat.sub_0_r, firstn_all.
    replace (S (S (length st + S (S (fuel - 7 - n - length st))))) with (length st + S (S (S (S (fuel - 7 - n - length st))))) by lia.
    destruct (run_drops prog choose st (S (S (fuel - 7 - n - length st))) [] e1 s1) as (s2 & R1 & R2 & R3).
    { intros x I. apply push_in in I as [[]|I]. apply in_seq in I. eexists. unfold e1. rewrite app_nil_r. apply find_lets. lia. }
    rewrite app_nil_r in R1. rewrite R1. exists e1, s2. splits; [reflexivity|rewrite R2, Q2; reflexivity|]. rewrite R3, Q3. cbn. lia. }
  destruct B as (e & s & B1 & B2 & B3).
  replace fuel with (S (S (S (fuel - 3)))) by lia.
  assert (K : call prog choose (S (S (S (fuel - 3)))) 0 [] s0 = (s, Got None)).
  { transitivity (match execs prog choose (S (S (fuel - 3))) (emit_func (mkfunc [] false (lets n 0))) [] s0, false with
      | (_, s, Returned (Some v)), true => (s, Got (Some v))
      | (_, s, Returned None), false | (_, s, Normal), false => (s, Got None)
      | (_, s, Timeout), _ => (s, GTimeout)
      | (_, s, _), _ => (s, GBad)
      end); [reflexivity|].
    unfold emit_func. cbn [params fold_left body length map app]. rewrite emit_lets. fold st. rewrite execs_S.
    rewrite exec_S. cbn beta iota.
    rewrite B1. reflexivity. }
  rewrite K. cbn [fst snd]. splits; auto.
Qed.

Print Assumptions C64_at_most_once.
Print Assumptions C64_exactly_once_partial.
Print Assumptions C64_only_created.
Print Assumptions C64_shadow_refuted.
Print Assumptions C64_lost_refuted.
Print Assumptions C64_zeroed_refuted.
Print Assumptions C64_limit_refuted.
