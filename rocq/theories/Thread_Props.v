(** C71: programs that share variables under one mutex behave as if critical sections happened one at a time. *)
From Verif Require Import Common Thread_Model Thread_Spec Thread_Proofs.
Local Open Scope nat_scope.

(** The mutex gets its memory: the first thing that the first thread does succeeds. *)
Definition created_mutex (l : list (nat * bool)) : Prop :=
  match filter (fun x => fst x =? 0) l with (_, ok) :: _ => ok = true | [] => True end.
Definition free_mutex {value} (s : state value) : Prop := forall p o, nth_error (heap s) p <> Some (Mutex (Some o)).

Section Start.
Variable value : Type.
Implicit Types (s : state value) (m : nat -> value) (p : script value).

Definition early m p : list (state value) :=
  [start m p; mkst m [Raw] None [mkth (MInit (Some 0) (SetHandle (Some 0) (script_code p))) [] false false];
   mkst m [Mutex None] None [mkth (SetHandle (Some 0) (script_code p)) [] false false]].
Lemma early_run m p l s : In s (early m p) -> (s = start m p -> created_mutex l) -> correct m p ->
  exists s', run s l = Ok s' /\ (In s' (early m p) \/ exists w, serials (mkworld m [(p, false)] false) w /\ inv value s' w).
Proof.
  revert s. induction l as [|[[|i] ok] l IH]; intros s I C K; [exists s; split; [reflexivity|now left]| |].
  - cbn in I. destruct I as [<-|[<-|[<-|[]]]].
    + specialize (C eq_refl). cbn in C. subst ok. cbn. apply IH; [cbn; auto|discriminate|assumption].
    + cbn. apply IH; [cbn; auto|discriminate|assumption].
    + cbn. destruct (run_sim value l _ _ (start_inv value m p) K) as (s' & w' & Q1 & Q2 & Q3). exists s'. split; [exact Q1|]. right. now exists w'.
  - replace (run s ((S i, ok) :: l)) with (run s l); [apply IH; auto|]. cbn in I. destruct I as [<-|[<-|[<-|[]]]]; destruct i; reflexivity.
Qed.
End Start.

(** In every schedule, whatever fails but the allocation of the mutex, a program without
    mistakes never runs into undefined behaviour or a data race.  Some order of its critical
    sections, each done at once, leaves the variables as they are whenever nobody holds the
    mutex. *)
Theorem C71_serial value (m : nat -> value) p l : correct m p -> created_mutex l ->
  exists s w, run (start m p) l = Ok s /\ serials (mkworld m [(p, false)] false) w /\
  (free_mutex s -> mem s = vars w) /\
  (length (threads s) = length (crew w)) /\
  ((forall t, In t (threads s) -> ended t = true) ->
   (forall q j, In (q, j) (crew w) -> q = End) /\ mem s = vars w /\
   (forall b k, nth_error (heap s) b = Some k -> k = Freed \/ (b = 0 /\ k = Mutex None /\ gone w = false))).
Proof.
  intros K C. destruct (early_run value m p l (start m p) (or_introl eq_refl) (fun _ => C) K) as (s & Q & [I|(w & Q1 & Q2)]).
  - exists s, (mkworld m [(p, false)] false). split; [assumption|]. split; [constructor|]. cbn in I. destruct I as [<-|[<-|[<-|[]]]].
    all: split; [reflexivity|split; [reflexivity|intros E; discriminate (E _ (or_introl eq_refl))]].
  - exists s, w. split; [assumption|]. split; [assumption|]. split; [|split].
    + intros F. destruct Q2 as (info & o & T & M). unfold mutex_ok in M. destruct (gone w); [apply M|]. destruct M as (_ & [i|] & Hb & _ & Mo); [|assumption].
      now apply F in Hb.
    + destruct Q2 as (info & o & T & M). symmetry. apply (len2 _ _ _ _ _ _ T).
    + intros E. destruct (all_ended value s w Q2 E) as (E1 & E2 & E3 & E4). split; [assumption|]. split; [assumption|].
      intros b k H. destruct (E3 _ _ H) as [->|]; [|now left]. rewrite E4 in H. injection H as <-. destruct (gone w); auto.
Qed.
(** A program without mistakes is never stuck because of the mutex: when nothing moves, every
    thread has ended or waits for another one that has not. *)
Theorem C71_stuck value (m : nat -> value) p l s : correct m p -> created_mutex l -> run (start m p) l = Ok s ->
  (forall i ok, step s i ok = Ok None) ->
  forall i t, nth_error (threads s) i = Some t ->
  ended t = true \/ exists h k u, now t = PJoin h k /\ h <> i /\ nth_error (threads s) h = Some u /\ ended u = false.
Proof.
  intros K C R Stk. destruct (early_run value m p l (start m p) (or_introl eq_refl) (fun _ => C) K) as (s' & Q & [I|(w & Q1 & Q2)]).
  - rewrite R in Q. injection Q as <-. specialize (Stk 0 true). cbn in I. destruct I as [<-|[<-|[<-|[]]]]; discriminate Stk.
  - rewrite R in Q. injection Q as <-. now apply (stuck_sim value s w).
Qed.

(** ** A case: two threads add one each *)
Definition add_one : section nat := Load 0 (fun v => Store 0 (S v) (Ret v)).
Definition adder : script nat := Critical add_one (fun _ => End).
Definition adders : script nat :=
  Spawn adder (fun h => match h with
                        | Some h => Critical add_one (fun _ => Join h (fun _ => Release End))
                        | None => Release End
                        end).
(** What its threads can be doing, and the variable *)
Definition adders_ok (w : world nat) : Prop :=
  (exists q j, crew w = [(q, j)] /\ vars w 0 = 0 /\ ((q = adders /\ gone w = false) \/ q = Release End \/ q = End)) \/
  (exists q j q1 j1 n n1, crew w = [(q, j); (q1, j1)] /\ vars w 0 = n + n1 /\ ((q1 = adder /\ n1 = 0) \/ (q1 = End /\ n1 = 1)) /\
    ((q = Critical add_one (fun _ => Join 1 (fun _ => Release End)) /\ n = 0 /\ j1 = false /\ gone w = false) \/
     (q = Join 1 (fun _ => Release End) /\ n = 1 /\ j1 = false /\ gone w = false) \/
     (q = Release End /\ n = 1 /\ q1 = End) \/ (q = End /\ n = 1 /\ q1 = End))).
Lemma adders_serial w w' : adders_ok w -> serial w w' -> adders_ok w'.
Proof.
  destruct w as [v cr g]. unfold adders_ok. intros H S1. destruct H as [(q & j & E & V & H)|(q & j & q1 & j1 & n & n1 & E & V & H1 & H)]; cbn [crew gone vars] in *.
  - subst cr. inversion S1 as [? i ? ? ? Hi ?|? i ? ? ? Hi|? i ? ? ? Hi|? i ? ? ? Hi Hh|? i ? ? Hi|? i ? ? Hi]; subst; cbn [crew gone vars] in *;
      (destruct i as [|i]; [|destruct i; discriminate Hi]); cbn in Hi; injection Hi as -> ->;
      destruct H as [[H G]|[H|H]]; try discriminate H; injection H as ?; subst; cbn.
    + right. do 6 eexists. split; [reflexivity|]. split; [|split; [left; auto|left; auto]]. cbn. exact V.
    + left. do 2 eexists. split; [reflexivity|]. auto.
    + left. do 2 eexists. split; [reflexivity|]. auto.
  - subst cr. right. destruct H as [(-> & -> & -> & G)|[(-> & -> & -> & G)|[(-> & -> & ->)|(-> & -> & ->)]]]; destruct H1 as [[H1 H1']|[H1 H1']]; try discriminate H1; subst;
    inversion S1 as [? i ? ? ? Hi ?|? i ? ? ? Hi|? i ? ? ? Hi|? i ? ? ? Hi Hh|? i ? ? Hi|? i ? ? Hi]; subst; cbn [crew gone vars] in *;
      (destruct i as [|i]; [|destruct i as [|i]; [|destruct i; discriminate Hi]]); cbn in Hi; try discriminate Hi; injection Hi; intros; subst; try discriminate; cbn in *.
    all: try (injection Hh; intros; subst).
    all: try discriminate.
    all: do 6 eexists; split; [reflexivity|].
    all: rewrite ?V.
    all: try (split; [|split; [left; split; reflexivity|]]; [|first [left; repeat split; reflexivity|right; left; repeat split; reflexivity|right; right; left; repeat split; reflexivity|right; right; right; repeat split; reflexivity]]; reflexivity).
    all: try (split; [|split; [right; split; reflexivity|]]; [|first [left; repeat split; reflexivity|right; left; repeat split; reflexivity|right; right; left; repeat split; reflexivity|right; right; right; repeat split; reflexivity]]; reflexivity).
Qed.
Lemma adders_serials w : serials (mkworld (fun _ => 0) [(adders, false)] false) w -> adders_ok w.
Proof.
  intros H. remember (mkworld (fun _ => 0) [(adders, false)] false) as w0 eqn:E. induction H as [w|w w1 w2 H IH S1]; subst.
  - left. do 2 eexists. split; [reflexivity|]. auto.
  - eapply adders_serial; eauto.
Qed.
Lemma adders_correct : correct (fun _ => 0) adders.
Proof.
  intros w H M. apply adders_serials in H. destruct w as [v cr g]. unfold adders_ok in H. destruct H as [(q & j & E & V & H)|(q & j & q1 & j1 & n & n1 & E & V & H1 & H)]; cbn [crew gone vars] in *; subst cr.
  - inversion M as [i ? ? ? Hi ?|i ? ? ? Hi Hh|i ? ? ? ? Hi N Hh|i ? ? h ? ? Hi G N Hh X]; cbn [crew gone] in *;
      (destruct i as [|i]; [|destruct i; discriminate Hi]); cbn in Hi; injection Hi as -> ->; destruct H as [[H G']|[H|H]]; try discriminate H.
    destruct h as [|h]; [now apply N|]. destruct h; discriminate Hh.
  - destruct H as [(-> & -> & -> & G)|[(-> & -> & -> & G)|[(-> & -> & ->)|(-> & -> & ->)]]]; destruct H1 as [[H1 H1']|[H1 H1']]; try discriminate H1; subst;
    inversion M as [i ? ? ? Hi G'|i ? ? ? Hi Hh|i ? ? ? ? Hi N Hh|i ? ? h ? ? Hi G' N Hh X]; cbn [crew gone] in *; try discriminate;
      (destruct i as [|i]; [|destruct i as [|i]; [|destruct i; discriminate Hi]]); cbn in Hi; try discriminate Hi; injection Hi; intros; subst; cbn in *; try discriminate.
    all: destruct h as [|[|h]]; [now apply N| |destruct h; discriminate Hh]; cbn in Hh; injection Hh; intros; subst; now apply X.
Qed.
(** Whatever the schedule, once both have ended the variable is 2 (or 0 when there was no
    second thread), and all memory has been given back. *)
Corollary C71_adders_case l s : created_mutex l -> run (start (fun _ => 0) adders) l = Ok s ->
  (forall t, In t (threads s) -> ended t = true) ->
  mem s 0 = (if length (threads s) =? 2 then 2 else 0) /\ forall b k, nth_error (heap s) b = Some k -> k = Freed \/ (b = 0 /\ k = Mutex None).
Proof.
  intros C R E. destruct (C71_serial nat (fun _ => 0) adders l adders_correct C) as (s' & w & R' & S1 & _ & L & F). rewrite R in R'. injection R' as <-.
  destruct (F E) as (F1 & F2 & F3). rewrite F2, L. split; [|intros b k H; destruct (F3 b k H) as [|(-> & -> & _)]; auto].
  apply adders_serials in S1. destruct S1 as [(q & j & Q & V & H)|(q & j & q1 & j1 & n & n1 & Q & V & H1 & H)]; rewrite Q; cbn; rewrite V; [reflexivity|].
  rewrite Q in F1. pose proof (F1 q j (or_introl eq_refl)) as ->. pose proof (F1 q1 j1 (or_intror (or_introl eq_refl))) as ->.
  destruct H1 as [[H1 _]|[_ ->]]; [discriminate H1|]. destruct H as [(H & _)|[(H & _)|[(H & _)|(_ & -> & _)]]]; try discriminate H. reflexivity.
Qed.
Example C71_case : exists l s, created_mutex l /\ run (start (fun _ => 0) adders) l = Ok s /\ (forall t, In t (threads s) -> ended t = true) /\
  mem s 0 = 2 /\ heap s = [Freed; Freed] /\ forall i ok, step s i ok = Ok None.
Proof.
  exists (repeat (0, true) 8 ++ flat_map (fun _ => [(1, true); (0, true)]) (seq 0 9) ++ repeat (1, true) 4 ++ repeat (0, true) 8). eexists. split; [reflexivity|]. split; [vm_compute; reflexivity|]. split; [|split; [reflexivity|split; [reflexivity|]]].
  - cbn. intros t [<-|[<-|[]]]; reflexivity.
  - intros [|[|i]] ok; [reflexivity|reflexivity|]. destruct i; reflexivity.
Qed.

(** ** What goes wrong *)

(** Mutex::new does not look at the result of malloc. *)
Theorem C71_new_refuted value (m : nat -> value) p b : run (start m p) [(0, false); (0, b)] = UB.
Proof. reflexivity. Qed.
(** Without the mutex: two threads that may both be about to write *)
Definition unguarded : code nat := thread_spawn (Write 0 1 Exit) (fun _ => Write 0 2 Exit).
Example C71_race_case : run (mkst (fun _ => 0) [] None [mkth unguarded [] false false]) [(0, true); (0, true); (0, true); (1, true); (0, true)] = UB.
Proof. reflexivity. Qed.
(** Joining a thread twice, or one that was detached, is undefined; nothing in Thread remembers. *)
Theorem C71_twice_refuted value s i h k ps r c (u : thread value) ok : h <> i ->
  nth_error (threads s) i = Some (mkth (thread_join h k) ps r c) -> nth_error (threads s) h = Some u -> reaped u = true -> step s i ok = UB.
Proof. intros N H1 H2 H3. unfold step. rewrite H1. cbn [now]. cbn. destruct (Nat.eqb_spec h i); [contradiction|]. now rewrite H2, H3. Qed.
(** Unlocking a mutex that one does not hold, or that was freed, is undefined *)
Theorem C71_unlock_refuted value (s : state value) i k ps r c ok : (forall p, handle s = Some p -> nth_error (heap s) p <> Some (Mutex (Some i))) ->
  nth_error (threads s) i = Some (mkth (mutex_unlock k) ps r c) -> run s [(i, ok); (i, ok)] = UB.
Proof.
  intros N H. cbn [run]. unfold step at 1. rewrite H. cbn [now mutex_unlock bind]. unfold step. cbn [threads pops reaped cancelled].
  rewrite (nth_same _ _ _ _ H). cbn [now]. destruct (handle s) as [p|]; [|reflexivity]. cbn [heap]. specialize (N p eq_refl).
  destruct (nth_error (heap s) p) as [[| | |[o|]]|]; try reflexivity. destruct (Nat.eqb_spec o i) as [->|]; [contradiction|reflexivity].
Qed.
(** Cancelling a thread in a critical section leaves the mutex locked for ever, and the copy
    of its closure allocated. *)
Definition sleeper : code nat := mutex_lock (Point (mutex_unlock Exit)).
Definition canceller : code nat :=
  mutex_new (thread_spawn sleeper (fun h => match h with
    | Some h => thread_cancel h (fun _ => thread_join h (fun _ => mutex_lock (mutex_unlock Exit)))
    | None => Exit
    end)).
Theorem C71_cancel_refuted : exists l s, run (mkst (fun _ => 0) [] None [mkth canceller [] false false]) l = Ok s /\
  map ended (threads s) = [false; true] /\ heap s = [Mutex (Some 1); Closure sleeper] /\
  forall l', run s l' = Ok s.
Proof.
  exists ([(0, true); (0, true); (0, true); (0, true); (0, true); (0, true); (1, true); (1, true); (1, true); (0, true); (1, true); (0, true); (0, true)]).
  eexists. split; [vm_compute; reflexivity|]. split; [reflexivity|]. split; [reflexivity|].
  induction l' as [|[[|[|i]] ok] l' IH]; cbn [run]; [reflexivity|exact IH|exact IH|].
  destruct i; exact IH.
Qed.
(** sleep_ms: up to 2147483 milliseconds; longer is undefined, negative is over 35 minutes *)
(** Detaching a thread succeeds at once: the caller goes on with true, nothing else changes, and a later join of the
    thread is undefined ([C71_twice_refuted]).  Cancelling one succeeds at once and marks it. *)
Theorem C71_detach value (s : state value) i h k ps r c (u : thread value) ok :
  nth_error (threads s) i = Some (mkth (thread_detach h k) ps r c) -> nth_error (threads s) h = Some u -> reaped u = false ->
  exists s', step s i ok = Ok (Some s') /\ mem s' = mem s /\ heap s' = heap s /\ handle s' = handle s /\
  (exists t', nth_error (threads s') i = Some t' /\ now t' = k true) /\
  (exists u', nth_error (threads s') h = Some u' /\ reaped u' = true /\ cancelled u' = cancelled u /\ (h <> i -> now u' = now u)) /\
  (forall j, j <> i -> j <> h -> nth_error (threads s') j = nth_error (threads s) j).
Proof.
  intros H1 H2 H3. unfold step. rewrite H1. cbn [now thread_detach pops reaped cancelled]. rewrite H2, H3. destruct (Nat.eqb_spec h i) as [E|N].
  - subst h. rewrite H2 in H1. injection H1 as ->. eexists. split; [reflexivity|]. cbn [mem heap handle threads]. splits; auto.
    + eexists. split; [eapply nth_same; eauto|reflexivity].
    + eexists. split; [eapply nth_same; eauto|]. now splits.
    + intros j A _. now apply nth_other.
  - eexists. split; [reflexivity|]. cbn [mem heap handle threads]. splits; auto.
    + eexists. split; [rewrite nth_other by congruence; eapply nth_same; eauto|reflexivity].
    + eexists. split; [eapply nth_same; rewrite nth_other by congruence; eauto|]. now splits.
    + intros j A B. rewrite nth_other by assumption. now apply nth_other.
Qed.
Theorem C71_cancel value (s : state value) i h k ps r c (u : thread value) ok :
  nth_error (threads s) i = Some (mkth (thread_cancel h k) ps r c) -> nth_error (threads s) h = Some u -> reaped u = false ->
  exists s', step s i ok = Ok (Some s') /\ mem s' = mem s /\ heap s' = heap s /\ handle s' = handle s /\
  (exists t', nth_error (threads s') i = Some t' /\ now t' = k true) /\
  (exists u', nth_error (threads s') h = Some u' /\ cancelled u' = true /\ reaped u' = false /\ (h <> i -> now u' = now u)) /\
  (forall j, j <> i -> j <> h -> nth_error (threads s') j = nth_error (threads s) j).
Proof.
  intros H1 H2 H3. unfold step. rewrite H1. cbn [now thread_cancel pops reaped cancelled]. rewrite H2, H3. destruct (Nat.eqb_spec h i) as [E|N].
  - subst h. rewrite H2 in H1. injection H1 as ->. eexists. split; [reflexivity|]. cbn [mem heap handle threads]. splits; auto.
    + eexists. split; [eapply nth_same; eauto|reflexivity].
    + eexists. split; [eapply nth_same; eauto|]. now splits.
    + intros j A _. now apply nth_other.
  - eexists. split; [reflexivity|]. cbn [mem heap handle threads]. splits; auto.
    + eexists. split; [rewrite nth_other by congruence; eapply nth_same; eauto|reflexivity].
    + eexists. split; [eapply nth_same; rewrite nth_other by congruence; eauto|]. now splits.
    + intros j A B. rewrite nth_other by assumption. now apply nth_other.
Qed.
Example C71_detach_ex : let s := mkst (fun _ => 0) [] None [mkth (thread_detach 1 (fun _ => Exit)) [] false false; mkth (Write 0 1 Exit) [] false false] in
  nth_error (threads s) 1 = Some (mkth (Write 0 1 Exit) [] false false) /\ reaped (mkth (Write 0 1 (@Exit nat)) [] false false) = false.
Proof. split; reflexivity. Qed.
Theorem C71_sleep_partial ms : (0 <= ms <= 2147483)%Z -> sleep_ms ms = Ok (ms * 1000)%Z.
Proof.
  intros H. unfold sleep_ms. destruct (Z.leb_spec (-2147483648) (ms * 1000)); [|lia]. destruct (Z.leb_spec (ms * 1000) 2147483647); [|lia]. cbn [andb].
  rewrite Z.mod_small by lia. reflexivity.
Qed.
Theorem C71_sleep_refuted ms : ((2147483 < ms \/ ms < -2147483)%Z -> sleep_ms ms = UB) /\
  ((-2147483 <= ms < 0)%Z -> exists us, sleep_ms ms = Ok us /\ (2147483648 < us)%Z).
Proof.
  unfold sleep_ms. split; intros H.
  - destruct (Z.leb_spec (-2147483648) (ms * 1000)), (Z.leb_spec (ms * 1000) 2147483647); cbn [andb]; try reflexivity. lia.
  - destruct (Z.leb_spec (-2147483648) (ms * 1000)); [|lia]. destruct (Z.leb_spec (ms * 1000) 2147483647); [|lia]. cbn [andb]. eexists. split; [reflexivity|].
    replace (ms * 1000)%Z with (4294967296 + ms * 1000 + (-1) * 4294967296)%Z by lia. rewrite Z.mod_add by lia. rewrite Z.mod_small by lia. lia.
Qed.
Example C71_sleep_case : sleep_ms 250 = Ok 250000%Z /\ sleep_ms 3600000 = UB.
Proof. split; reflexivity. Qed.

Print Assumptions C71_serial.
Print Assumptions C71_stuck.
Print Assumptions C71_new_refuted.
Print Assumptions C71_twice_refuted.
Print Assumptions C71_unlock_refuted.
Print Assumptions C71_cancel_refuted.
Print Assumptions C71_sleep_partial.
Print Assumptions C71_sleep_refuted.
Print Assumptions C71_detach.
Print Assumptions C71_cancel.
