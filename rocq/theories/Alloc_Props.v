(** The compiler's allocator gives every user memory of their own. *)
From Verif Require Import Common Alloc_Model Alloc_Spec Alloc_Proofs.
Local Open Scope N_scope.

(** C39. Whatever the allocations, resizings, string copies, writes and reads a program
    makes, in any order, with sizes under 2^62 and accesses inside what it asked for,
    whatever memory contains at the start and whichever blocks the system grants: either
    the compiler ends with "Out of memory", or every read returns what was last written
    to that place of that array, and resizing kept the contents; no access is outside a
    block.  The arrays of the specification share nothing. *)
Theorem C39_arrays_partial : forall malloc_ok m ops h out, effs empty ops h out ->
  run malloc_ok (start m) [] ops = Panic \/
  exists st ps out', run malloc_ok (start m) [] ops = Ok (st, ps, out') /\ Forall2 agrees out out'.
Proof.
  intros mo m ops h out E. destruct (run_effs mo ops _ _ _ _ _ (ok_start m) E) as [P|(st & ps & out' & R & F & _)]; eauto 10.
Qed.
Print Assumptions C39_arrays_partial.

(** If every block is granted the program does not end early. *)
Theorem C39_no_panic_partial : forall m ops h out, effs empty ops h out ->
  exists st ps out', run (fun _ _ => true) (start m) [] ops = Ok (st, ps, out') /\ Forall2 agrees out out'.
Proof.
  intros m ops h out E. destruct (run_effs (fun _ _ => true) ops _ _ _ _ _ (ok_start m) E) as [P|(st & ps & out' & R & F & _)]; [|eauto 10].
  exfalso.
  assert (SL : forall l st b o, store_list st b o l <> Panic).
  { clear. induction l as [|v l IH]; intros st b o; cbn [store_list]; [discriminate|].
    unfold store. destruct (nth_error (rooms st) b); [|discriminate]. destruct (o <? _); [|discriminate]. cbn [bind]. apply IH. }
  assert (NP : forall st n, arena_alloc_raw (fun _ _ => true) st n <> Panic).
  { intros st n. unfold arena_alloc_raw. cbv zeta.
    destruct (Nat.eqb (length (rooms st)) 0 || (cap st <? wrap (used st + N.ldiff (wrap (wrap (n + 8) + 7)) 7))); cbn [bind];
      match goal with |- context [store_list ?s ?b ?o ?l] => specialize (SL l s b o); destruct (store_list s b o l); cbn [bind]; congruence end. }
  assert (LL : forall n st b o, load_list st b o n <> Panic).
  { clear. induction n as [|n IH]; intros st b o; cbn [load_list]; [discriminate|].
    unfold load. destruct (nth_error (rooms st) b); [|discriminate]. destruct (o <? _); [|discriminate]. cbn [bind].
    specialize (IH st b (o + 1)). destruct (load_list st b (o + 1) n); cbn [bind]; try discriminate. congruence. }
  assert (SO : forall st p v, store st p v <> Panic).
  { intros st [b o] v. unfold store. destruct (nth_error (rooms st) b); [|discriminate]. destruct (o <? _); discriminate. }
  assert (NC : forall st n s, xcalloc (fun _ _ => true) st n s <> Panic).
  { intros st n s. unfold xcalloc. specialize (NP st (wrap (n * s))). destruct (arena_alloc_raw _ _ _) as [[st' [b o]]| | |]; cbn [bind]; try congruence; try discriminate.
    specialize (SL (repeat 0 (N.to_nat (wrap (n * s)))) st' b o). destruct (store_list _ _ _ _); cbn [bind]; congruence. }
  assert (NS : forall st s, xstrdup (fun _ _ => true) st s <> Panic).
  { intros st s. unfold xstrdup, xmalloc. cbv zeta. specialize (NP st (wrap (N.of_nat (length s) + 1))). destruct (arena_alloc_raw _ _ _) as [[st' [b o]]| | |]; cbn [bind]; try congruence; try discriminate.
    specialize (SL s st' b o). destruct (store_list _ _ _ _) as [st2| | |]; cbn [bind]; try congruence; try discriminate.
    specialize (SO st2 (b, o + N.of_nat (length s)) 0). destruct (store _ _ _); cbn [bind]; congruence. }
  assert (NR : forall st p n, xrealloc (fun _ _ => true) st p n <> Panic).
  { intros st [[b o]|] n; cbn [xrealloc]; unfold xmalloc; [|apply NP].
    specialize (LL 8%nat st b (o - 8)) as L8. destruct (load_list st b (o - 8) 8) as [hd| | |]; cbn [bind]; try congruence; try discriminate.
    destruct (n <=? of_le hd); [discriminate|]. specialize (NP st n). destruct (arena_alloc_raw _ _ _) as [[st' [b' o']]| | |]; cbn [bind]; try congruence; try discriminate.
    specialize (LL (N.to_nat (of_le hd)) st' b o). destruct (load_list st' b o _) as [l| | |]; cbn [bind]; try congruence; try discriminate.
    specialize (SL l st' b' o'). destruct (store_list _ _ _ _); cbn [bind]; congruence. }
  clear E. revert P. generalize (start m) (@nil ptr). induction ops as [|op ops IH]; intros st ps; cbn [run]; [discriminate|].
  destruct op as [n|n s|[k|] n|s|k i v|k i].
  - specialize (NP st n). unfold xmalloc. destruct (arena_alloc_raw _ _ _); cbn [bind]; first [apply IH | congruence].
  - specialize (NC st n s). destruct (xcalloc _ _ _ _); cbn [bind]; first [apply IH | congruence].
  - destruct (nth_error ps k) as [p|]; [|discriminate]. specialize (NR st (Some p) n). destruct (xrealloc _ _ _ _); cbn [bind]; first [apply IH | congruence].
  - specialize (NR st None n). destruct (xrealloc _ _ _ _); cbn [bind]; first [apply IH | congruence].
  - specialize (NS st s). destruct (xstrdup _ _ _); cbn [bind]; first [apply IH | congruence].
  - destruct (nth_error ps k) as [[b o]|]; [|discriminate]. specialize (SO st (b, o + i) v). destruct (store _ _ _); cbn [bind]; first [apply IH | congruence].
  - destruct (nth_error ps k) as [[b o]|]; [|discriminate]. unfold load. destruct (nth_error (rooms st) b); [|discriminate]. destruct (_ <? _); [|discriminate]. cbn [bind].
    specialize (IH st ps). destruct (run _ st ps ops) as [[[? ?] ?]| | |]; cbn [bind]; try congruence; discriminate.
Qed.
Print Assumptions C39_no_panic_partial.

(** The pointers: each is a multiple of 8 from the start of its block's data, the array
    lies inside its block, and two different arrays do not overlap. *)
Theorem C39_layout_partial : forall malloc_ok m ops h out st ps out', effs empty ops h out ->
  run malloc_ok (start m) [] ops = Ok (st, ps, out') ->
  length ps = length (handles h) /\
  (forall k b o a, nth_error ps k = Some (b, o) -> get h k = Some a ->
     o mod 8 = 0 /\ exists room, nth_error (rooms st) b = Some room /\ o + N.of_nat (length a) <= room) /\
  (forall k k' b o o' a a', nth_error ps k = Some (b, o) -> nth_error ps k' = Some (b, o') -> get h k = Some a -> get h k' = Some a' ->
     nth_error (handles h) k <> nth_error (handles h) k' ->
     o + N.of_nat (length a) <= o' \/ o' + N.of_nat (length a') <= o).
Proof.
  intros mo m ops h out st ps out' E R. destruct (run_effs mo ops _ _ _ _ _ (ok_start m) E) as [P|(st1 & ps1 & out1 & R1 & F & (loc & I & F2))]; [congruence|].
  rewrite R in R1. injection R1 as <- <- <-. split; [|split].
  - clear - F2. induction F2; cbn; congruence.
  - intros k b o a PK GK. destruct (ok_handle _ _ _ _ _ _ I F2 PK) as (i & a' & HK & LI & AI). unfold get in GK. rewrite HK, AI in GK. injection GK as ->.
    destruct (i_good _ _ _ I i b o a LI AI) as [G1 G2 (r & Rr & G3) G4 G5 G6 G7]. split; [exact G2|]. exists r. auto.
  - intros k k' b o o' a a' PK PK' GK GK' NE.
    destruct (ok_handle _ _ _ _ _ _ I F2 PK) as (i & c & HK & LI & AI). unfold get in GK. rewrite HK, AI in GK. injection GK as ->.
    destruct (ok_handle _ _ _ _ _ _ I F2 PK') as (i' & c' & HK' & LI' & AI'). unfold get in GK'. rewrite HK', AI' in GK'. injection GK' as ->.
    rewrite HK, HK' in NE. pose proof (i_disj _ _ _ I i i' b o o' a a' ltac:(congruence) LI LI' AI AI') as D. unfold len in D. lia.
Qed.
Print Assumptions C39_layout_partial.

Example C39_example :
  effs empty [Malloc 4; Write 0 1 7; Realloc (Some 0%nat) 100; Write 0 1 9; Read 1 1; Read 0 1; Strdup [65; 66]; Read 2 2]
    {| arrays := [[None; Some 9; None; None]; [None; Some 7; None; None] ++ repeat None 96; [Some 65; Some 66; Some 0]]; handles := [0; 1; 2]%nat |}
    [Some 7; Some 9; Some 0].
Proof.
  eapply (ECons _ _ _ []); [apply EMalloc; reflexivity|].
  eapply (ECons _ _ _ []); [eapply (EWrite _ 0 1); [reflexivity|reflexivity|apply Nat.ltb_lt; reflexivity]|].
  eapply (ECons _ _ _ []); [eapply (EReallocGrow _ 0 100); [reflexivity|reflexivity|apply Nat.ltb_lt; reflexivity]|].
  eapply (ECons _ _ _ []); [eapply (EWrite _ 0 1); [reflexivity|reflexivity|apply Nat.ltb_lt; reflexivity]|].
  eapply (ECons _ _ _ [Some 7]); [eapply (ERead _ 1 1); reflexivity|].
  eapply (ECons _ _ _ [Some 9]); [eapply (ERead _ 0 1); reflexivity|].
  eapply (ECons _ _ _ []); [eapply (EStrdup _ [65; 66]); reflexivity|].
  eapply (ECons _ _ _ [Some 0] []); [eapply (ERead _ 2 2); reflexivity|]. apply ENil.
Qed.

(** Sizes are not checked: asking for 2^64 - 8 bytes succeeds, and the next allocation
    gets the same address. *)
Theorem C39_huge_refuted : forall m, exists st, run (fun _ _ => true) (start m) [] [Malloc (2 ^ 64 - 8); Malloc 4] = Ok (st, [(0%nat, 8); (0%nat, 8)], []).
Proof. intros m. eexists. vm_compute. reflexivity. Qed.
Print Assumptions C39_huge_refuted.
(** An array of 2^61 items of 8 bytes gets no memory at all: the next allocation's bytes
    are its items. *)
Theorem C39_calloc_refuted : forall m, exists st,
  run (fun _ _ => true) (start m) [] [Calloc (2 ^ 61) 8; Strdup [65]; Read 0 8; Read 1 0] = Ok (st, [(0%nat, 8); (0%nat, 16)], [65; 65]).
Proof. intros m. eexists. vm_compute. reflexivity. Qed.
Print Assumptions C39_calloc_refuted.
