From Verif Require Import Common Zen_Model Zen_Spec Zen_Proofs.
Local Open Scope nat_scope.

Example C120_witness :
  let f := [Ent (Some (bs "TRIGGER_GOTO")) (Some (bs "goto is old")) None; Ent (Some (bs "TRIGGER_MAIN")) (Some (bs "main")) (Some (bs "u"))] in
  Forall complete f /\
  run (Cfg false false false) (Some f) [At Asm 1 1 3 0; At Main 7 2 12 0; At Main 8 4 103 5; At Goto 9 1 0 0; Warning; Finish true 0 0] clean
    = Ok (St [Tip (Some (8, 4)) (bs "main") (Some (bs "u"))] true 1).
Proof. split; [|reflexivity]. apply Forall_cons; [exists Goto, (bs "goto is old"); now split|]. apply Forall_cons; [exists Main, (bs "main"); now split|]. constructor. Qed.

(** C120: whatever happens and whatever the draws, at most one tip is shown, it is that of an entry for what happened at
    its place, and no warning came before it *)
Theorem C120_one_partial : forall c f evs, Forall complete f ->
  exists s, run c (Some f) evs clean = Ok s /\
    (tips s = [] \/ exists x before e after t, tips s = [x] /\ evs = before ++ e :: after /\ ~ In Warning before /\ asks e t (place x) /\ told_by f t x).
Proof. intros c f evs C. apply run_ok; [exact C|]. unfold ready. now splits. Qed.
Print Assumptions C120_one_partial.

(** C120: none without the file, when quiet, or when tips are off *)
Theorem C120_silent : forall c f evs, quiet c = true \/ no_zen c = true \/ f = None -> exists s, run c f evs clean = Ok s /\ tips s = [].
Proof.
  intros c f evs H. enough (G : forall s, tips s = [] -> exists s', run c f evs s = Ok s' /\ tips s' = []) by (apply G; reflexivity).
  assert (K : quiet c || no_zen c = true \/ f = None) by (destruct H as [->|[->|H]]; [now left|left; now destruct (quiet c)|now right]). clear H.
  assert (St1 : forall e s, tips s = [] -> exists s', step c f e s = Ok s' /\ tips s' = []).
  { intros e s T. assert (Ch : forall t p d1 d2, f = None -> choose f t p d1 d2 s = Ok s).
    { intros t p d1 d2 ->. unfold choose. destruct (has s); [reflexivity|]. destruct (0 <? warnings s); [reflexivity|]. now destruct (10 <=? d1 mod 100). }
    destruct e as [t l k d1 d2|tty d1 d2|]; cbn [step].
    - destruct K as [->|K]; [eauto|]. destruct (quiet c || no_zen c); [eauto|]. rewrite Ch by exact K. eauto.
    - destruct K as [->|K]; [eauto|]. destruct (quiet c || no_zen c); [eauto|]. destruct (negb tty); [eauto|]. rewrite Ch by exact K. eauto.
    - eexists. split; [reflexivity|exact T]. }
  induction evs as [|e evs IH]; intros s T; cbn [run]; [eauto|]. destruct (St1 e s T) as (s1 & E & T1). rewrite E. cbn [bind]. now apply IH.
Qed.
Print Assumptions C120_silent.

(** C120: each of the first ten entries of a trigger is shown by some draws *)
Theorem C120_each : forall c f t k e m l col, quiet c = false -> no_zen c = false ->
  nth_error (filter (fun e => same (trig (fact_of e)) t) f) k = Some e -> k < 10 -> e_message e = Some m ->
  run c (Some f) [At t l col 0 k] clean = Ok (St [Tip (Some (l, col)) m (e_url e)] true 0).
Proof.
  intros c f t k e m l col Q Z E K M. cbn [run step]. rewrite Q, Z. cbn [orb]. unfold choose. cbn [has clean warnings]. change (0 <? 0) with false. change (10 <=? 0 mod 100) with false. cbv iota zeta.
  assert (Fm : filter (fun f => same (trig f) t) (map fact_of f) = map fact_of (filter (fun e => same (trig (fact_of e)) t) f)).
  { clear. induction f as [|x f IH]; [reflexivity|]. cbn [map filter]. destruct (same (trig (fact_of x)) t); cbn [map]; now rewrite IH. }
  rewrite Fm. set (ms := filter _ f) in *. assert (L : k < length ms) by (apply nth_error_Some; congruence).
  assert (L2 : length (firstn 10 (map fact_of ms)) = Nat.min 10 (length ms)) by now rewrite firstn_length, map_length.
  rewrite Nat.mod_small by (rewrite L2; apply Nat.min_glb_lt; assumption).
  assert (N1 : nth_error (firstn 10 (map fact_of ms)) k = Some (fact_of e)).
  { assert (N2 : nth_error (map fact_of ms) k = Some (fact_of e)) by now apply map_nth_error. rewrite <- (firstn_skipn 10 (map fact_of ms)) in N2.
    rewrite nth_error_app1 in N2; [exact N2|]. rewrite L2. apply Nat.min_glb_lt; assumption. }
  rewrite N1. unfold fact_of. cbn [message url]. rewrite M. reflexivity.
Qed.
Print Assumptions C120_each.

(** C120, refuted: an entry behind the first ten of its trigger is never shown, whatever happens and whatever the draws *)
Theorem C120_ten_refuted : forall c f evs s t k e, NoDup (map e_message f) -> nth_error (filter (fun e => same (trig (fact_of e)) t) f) k = Some e -> 10 <= k ->
  run c (Some f) evs clean = Ok s -> forall x, In x (tips s) -> e_message e <> Some (said x).
Proof.
  intros c f evs s t k e Nd E K R x I M. destruct (run_first c f evs s R x I) as (t' & e' & I' & M' & _).
  assert (Ie : In e f /\ same (trig (fact_of e)) t = true) by (apply nth_error_In, filter_In in E; exact E).
  assert (Ie' : In e' f /\ same (trig (fact_of e')) t' = true).
  { apply (filter_In (fun e => same (trig (fact_of e)) t')). rewrite <- (firstn_skipn 10 (filter _ f)). apply in_or_app. now left. }
  assert (e' = e) by (apply (NoDup_map_inj _ _ Nd); [apply Ie'|apply Ie|congruence]). subst e'.
  assert (t' = t) by (destruct Ie as [_ A], Ie' as [_ B]; apply same_ok in A, B; congruence). subst t'.
  set (ms := filter _ f) in *. assert (Nm : NoDup ms) by (apply NoDup_filter; eapply NoDup_map_inv; exact Nd).
  apply In_nth_error in I' as [j J]. assert (Lj : j < 10).
  { assert (j < length (firstn 10 ms)) by (apply nth_error_Some; congruence). rewrite firstn_length in H. lia. }
  assert (Jm : nth_error ms j = Some e) by (rewrite <- (firstn_skipn 10 ms), nth_error_app1; [exact J|apply nth_error_Some; congruence]).
  assert (j = k); [|lia]. apply (proj1 (NoDup_nth_error ms) Nm); [apply nth_error_Some; congruence|congruence].
Qed.
Print Assumptions C120_ten_refuted.
Example C120_ten_witness :
  let f := map (fun n => Ent (Some (bs "TRIGGER_GLOBAL")) (Some [N.of_nat n]) None) (seq 0 12) in
  NoDup (map e_message f) /\ nth_error (filter (fun e => same (trig (fact_of e)) Global) f) 11 = Some (Ent (Some (bs "TRIGGER_GLOBAL")) (Some [11%N]) None).
Proof. split; [|reflexivity]. cbn. repeat constructor; cbn; intuition discriminate. Qed.

(** C120, refuted: an entry without a text is undefined when drawn; one without a trigger is shown for goto; and a tip is
    shown in JSON mode as well *)
Theorem C120_entry_refuted : forall c n l k m, quiet c = false -> no_zen c = false ->
  run c (Some [Ent (Some n) None None]) [At (of_name n) l k 0 0] clean = UB /\
  run c (Some [Ent None (Some m) None]) [At Goto l k 0 0] clean = Ok (St [Tip (Some (l, k)) m None] true 0).
Proof.
  intros c n l k m Q Z. split; cbn [run step]; rewrite Q, Z; [|reflexivity]. cbn [orb]. unfold choose. cbn [has clean warnings]. change (0 <? 0) with false. change (10 <=? 0 mod 100) with false. cbv iota zeta.
  cbn [map filter fact_of e_trigger trig e_message e_url]. assert (E : same (of_name n) (of_name n) = true) by now apply same_ok. rewrite E. reflexivity.
Qed.
Print Assumptions C120_entry_refuted.
Theorem C120_json_refuted : exists f evs s, run (Cfg false false true) (Some f) evs clean = Ok s /\ tips s <> [].
Proof. exists [Ent (Some (bs "TRIGGER_GOTO")) (Some (bs "m")) None], [At Goto 1 1 0 0]. eexists. split; [reflexivity|discriminate]. Qed.
Print Assumptions C120_json_refuted.
(** C120: a name that is no trigger is that of the end of the build *)
Theorem C120_unknown : forall n, (forall t, n <> name_of t) -> of_name n = Global.
Proof.
  intros n H. unfold of_name.
  repeat match goal with |- context [beq_bytes n ?k] => let E := fresh in destruct (beq_bytes n k) eqn:E; [apply beq_bytes_true in E; exfalso; 
    first [exact (H Goto E)|exact (H PointerArith E)|exact (H Bitwise E)|exact (H Recursion E)|exact (H Ternary E)|exact (H Asm E)|exact (H WhileTrue E)|exact (H Macro E)|exact (H VoidPtr E)|exact (H Main E)|exact (H FormatString E)|exact (H StructPadding E)]|] end. reflexivity.
Qed.
Print Assumptions C120_unknown.
Example C120_unknown_witness : forall t, bs "TRIGGER_LATER" <> name_of t.
Proof. destruct t; discriminate. Qed.
