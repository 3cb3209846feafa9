(** C23: arena allocation. *)
From Verif Require Import Common Arena_Model Arena_Spec Arena_Proofs.
Local Open Scope N_scope.

(** For every sequence of calls whose requests do not reach the end of the address
    space: every live block is inside the arena and 8-aligned, live blocks are pairwise
    disjoint; a further allocation fails exactly when there is no room; it leaves the
    contents of all live blocks alone, alloc and alloc_n return zeros and dup_str a copy. *)
Theorem C23_arena_partial :
  forall addr cap, 0 < addr -> addr mod 8 = 0 -> addr + cap < 2 ^ 64 ->
  forall cs, Forall (fun c => forall n, request c = Some n -> cap + 7 + n < 2 ^ 64) cs ->
  exists rs a, run (arena_new addr cap) cs = Ok (rs, a) /\ length rs = length cs /\
    let bl := live addr [] cs rs in
    Forall (fun b => addr <= fst b /\ stop b <= addr + cap /\ fst b mod 8 = 0) bl /\
    ForallOrdPairs disjoint bl /\
    bytes_used a <= cap /\ bytes_used a + bytes_free a = cap /\
    forall c n, request c = Some n -> cap + 7 + n < 2 ^ 64 ->
    exists r a', step a c = Ok (r, a') /\
      (r = 0 <-> cap < round8 (bytes_used a) + n) /\
      (forall b, In b bl -> contents a' b = contents a b) /\
      (forall sz k, c = AllocN sz k -> r <> 0 -> contents a' (r, n) = map Some (repeat 0 (N.to_nat n))) /\
      (forall s, c = DupStr s -> r <> 0 -> contents a' (r, n) = map Some (cstr s ++ [0])).
Proof.
  intros addr cap H1 H2 H3 cs F.
  destruct (run_ok addr cap H1 H2 H3 cs _ [] (inv_new addr cap H1 H2 H3)) as (rs & a & E & I & L); auto.
  exists rs, a. cbv zeta. pose proof I as (Eb & Ec & Lm & Lu & G & D). splits; auto.
  - eapply Forall_impl; [|exact G]. cbn. intros b (? & ? & ?). splits; auto. lia.
  - unfold bytes_used, bytes_free. rewrite Ec.
    assert (W = 2 ^ 64) by reflexivity.
    replace (cap + W - used a) with ((cap - used a) + 1 * W) by lia.
    rewrite N.mod_add by discriminate. rewrite N.mod_small; lia.
  - intros c n Ec' Fn. destruct (step_ok addr cap H1 H2 H3 a _ c I) as (r & a' & E' & _ & A1 & A2 & A3).
    { intros n' En. rewrite Ec' in En. injection En as <-. exact Fn. }
    exists r, a'. splits; auto.
    + intros sz k -> Nz. apply A3; auto. cbn in *. injection Ec' as ->. reflexivity.
    + intros s -> Nz. apply A3; auto.
Qed.
Print Assumptions C23_arena_partial.

Lemma alloc_at b m c u n al e : N.land ((u + 7) mod W) (W - 8) = al -> (al + n) mod W = e -> e <= c ->
  alloc_bytes (mkarena b m c u) n = ((b + al) mod W, mkarena b m c e).
Proof.
  intros E1 E2 L. unfold alloc_bytes. cbn [used capacity base mem]. rewrite E1, E2.
  destruct (N.ltb_spec c e); [lia|reflexivity].
Qed.

Lemma alloc_step_used addr cap (H1 : 0 < addr) (H2 : addr mod 8 = 0) (H3 : addr + cap < W) a bl c n r a' :
  inv addr cap a bl -> request c = Some n -> cap + 7 + n < W -> step a c = Ok (r, a') -> used a <= used a'.
Proof.
  intros I R F E.
  assert (B : forall m, m <= n -> used a <= used (snd (alloc_bytes a m))).
  { intros m Lm. destruct (alloc_ok addr cap H1 H2 H3 a bl m I) as [X Y]; [unfold fits; lia|].
    pose proof (round8_ge addr cap H1 H2 H3 (used a)).
    destruct (N.lt_ge_cases cap (round8 (used a) + m)).
    - rewrite X by auto. cbn. lia.
    - rewrite Y by lia. cbn. lia. }
  destruct c as [m|sz k|s| | |]; cbn [step request] in *; try discriminate; injection R as <-.
  - injection E as E. specialize (B m). rewrite E in B. cbn in B. apply B. lia.
  - unfold alloc_n in E. rewrite N.mod_small in E by lia. specialize (B (sz * k)).
    destruct (alloc_bytes a (sz * k)) as [p a1]. cbn [snd] in B.
    destruct (N.eqb_spec p 0). { injection E as <- <-. apply B. lia. }
    destruct (_ <? _); [discriminate|]. destruct (store a1 p _) as [a2| | |] eqn:Es; try discriminate.
    cbn in E. injection E as <- <-. destruct (length_store addr cap H1 H2 H3 _ _ _ _ Es) as (_ & _ & -> & _). apply B. lia.
  - unfold dup_str in E. rewrite N.mod_small in E by lia. specialize (B (N.of_nat (length (cstr s)) + 1)).
    destruct (alloc_bytes a _) as [p a1]. cbn [snd] in B.
    destruct (N.eqb_spec p 0). { injection E as <- <-. apply B. lia. }
    destruct (store a1 p _) as [a2| | |] eqn:Es; try discriminate.
    cbn in E. injection E as <- <-. destruct (length_store addr cap H1 H2 H3 _ _ _ _ Es) as (_ & _ & -> & _). apply B. lia.
Qed.

Lemma allocs_used addr cap (H1 : 0 < addr) (H2 : addr mod 8 = 0) (H3 : addr + cap < W) more : forall a bl rs a',
  inv addr cap a bl -> Forall (fun c => exists n, request c = Some n /\ cap + 7 + n < W) more ->
  run a more = Ok (rs, a') -> used a <= used a'.
Proof.
  induction more as [|c more IH]; intros a bl rs a' I F E; cbn [run] in E.
  - injection E as <- <-. lia.
  - inversion F as [|? ? (n & R & Fn) F']; subst.
    destruct (step_ok addr cap H1 H2 H3 a bl c I) as (r & a1 & E1 & I1 & _).
    { intros m Em. rewrite R in Em. injection Em as <-. exact Fn. }
    rewrite E1 in E. cbn [bind] in E.
    destruct (run a1 more) as [[rs1 a2]| | |] eqn:E2; cbn in E; try discriminate. injection E as <- <-.
    pose proof (alloc_step_used addr cap H1 H2 H3 _ _ _ _ _ _ I R Fn E1).
    pose proof (IH _ _ _ _ I1 F' E2). lia.
Qed.

(** Space is given back: restoring a mark frees all that was allocated since the mark was
    taken, so that the next allocation gets the same answer as it would have had then; and
    reset frees everything, so that the whole arena can be allocated again. *)
Theorem C23_release :
  forall addr cap, 0 < addr -> addr mod 8 = 0 -> addr + cap < 2 ^ 64 ->
  forall cs, Forall (fun c => forall n, request c = Some n -> cap + 7 + n < 2 ^ 64) cs ->
  forall more, Forall (fun c => exists n, request c = Some n /\ cap + 7 + n < 2 ^ 64) more ->
  exists rs a m rs' a' a2 a4,
    run (arena_new addr cap) cs = Ok (rs, a) /\ step a Save = Ok (m, a) /\
    run a more = Ok (rs', a') /\
    step a' (Restore m) = Ok (0, a2) /\ bytes_used a2 = bytes_used a /\ bytes_free a2 = bytes_free a /\
    (forall n, fst (alloc_bytes a2 n) = fst (alloc_bytes a n)) /\
    step a' Reset = Ok (0, a4) /\ bytes_used a4 = 0 /\ bytes_free a4 = cap /\
    forall n, n <= cap -> fst (alloc_bytes a4 n) = addr.
Proof.
  intros addr cap H1 H2 H3 cs F more Fm. assert (EW : 2 ^ 64 = W) by reflexivity. rewrite EW in *.
  destruct (run_ok addr cap H1 H2 H3 cs _ [] (inv_new addr cap H1 H2 H3)) as (rs & a & E & I & L); auto.
  assert (F2 : Forall (fun c => forall n, request c = Some n -> fits cap n) more).
  { eapply Forall_impl; [|exact Fm]. cbn. intros c (n & R & B) n' R'. rewrite R in R'. injection R' as <-. exact B. }
  destruct (run_ok addr cap H1 H2 H3 more _ _ I F2) as (rs' & a' & E' & I' & L').
  pose proof (allocs_used addr cap H1 H2 H3 more _ _ _ _ I Fm E') as U.
  pose proof I as (Eb & Ec & _). pose proof I' as (Eb' & Ec' & _).
  exists rs, a, (used a), rs', a', (restore a' (used a)), (reset a').
  assert (B4 : forall n, n <= cap -> fst (alloc_bytes (reset a') n) = addr).
  { intros n Ln. destruct (reset a') as [b4 m4 c4 u4] eqn:E4. unfold reset in E4. injection E4 as <- <- <- <-.
    rewrite (alloc_at _ _ _ 0 n 0 n).
    - cbn. rewrite Eb', N.add_0_r, N.mod_small; lia.
    - reflexivity.
    - rewrite N.add_0_l. apply N.mod_small. lia.
    - lia. }
  assert (R : restore a' (used a) = mkarena (base a') (mem a') (capacity a') (used a)).
  { unfold restore. destruct (N.leb_spec (used a) (used a')); [reflexivity|lia]. }
  splits; auto; rewrite ?R; auto.
  - unfold bytes_free. cbn [capacity used]. now rewrite Ec, Ec'.
  - intros n. unfold alloc_bytes. cbn [capacity used base mem]. rewrite Ec, Ec', Eb, Eb'.
    now destruct (_ <? _).
  - unfold bytes_free, reset. cbn [capacity used]. rewrite Ec'.
    replace (cap + W - 0) with (cap + 1 * W) by lia. rewrite N.mod_add by discriminate. rewrite N.mod_small; lia.
Qed.
Print Assumptions C23_release.

(** A request that reaches beyond 2^64 is granted, and the same memory is handed out
    twice: for every arena of at least 8 bytes. *)
Theorem C23_overflow_refuted :
  forall addr cap, 0 < addr -> addr + cap < 2 ^ 64 -> 8 <= cap ->
  exists a, run (arena_new addr cap) [AllocBytes 8; AllocBytes (2 ^ 64 - 8); AllocBytes 8]
            = Ok ([addr; addr + 8; addr], a) /\ ~ disjoint (addr, 8) (addr, 8).
Proof.
  intros addr cap H1 H3 H4. eexists. split.
  - unfold arena_new. cbn [run step]. change (2 ^ 64) with W in H3.
    rewrite (alloc_at _ _ _ 0 8 0 8) by (reflexivity || lia). cbn [bind].
    rewrite (alloc_at _ _ _ 8 (2 ^ 64 - 8) 8 0) by (reflexivity || lia). cbn [bind].
    rewrite (alloc_at _ _ _ 0 8 0 8) by (reflexivity || lia). cbn [bind].
    rewrite (N.mod_small (addr + 8)) by lia. rewrite N.add_0_r, (N.mod_small addr) by lia. reflexivity.
  - unfold disjoint, stop. cbn. lia.
Qed.
Print Assumptions C23_overflow_refuted.

(** alloc_n does not check its multiplication: 2^61 eight-byte elements are "allocated"
    in an arena of any size, using no memory at all. *)
Theorem C23_count_refuted :
  forall addr cap, 0 < addr -> addr + cap < 2 ^ 64 ->
  exists a, run (arena_new addr cap) [AllocN 8 (2 ^ 61)] = Ok ([addr], a) /\ bytes_used a = 0 /\
    ~ stop (addr, 8 * 2 ^ 61) <= addr + cap.
Proof.
  intros addr cap H1 H3. eexists. splits.
  - cbn [run step]. unfold alloc_n, alloc_bytes, arena_new. cbn [used capacity base mem].
    change (N.land ((0 + 7) mod W) (W - 8)) with 0. change ((8 * 2 ^ 61) mod W) with 0.
    change ((0 + 0) mod W) with 0. change (2 ^ 64) with W in H3.
    destruct (N.ltb_spec cap 0); [lia|]. rewrite N.add_0_r, (N.mod_small addr) by lia.
    destruct (N.eqb_spec addr 0); [lia|]. cbn [mem length].
    destruct (N.ltb_spec (N.of_nat (length (bnew (N.to_nat cap) : buf N))) 0); [lia|].
    change (N.to_nat 0) with 0%nat. cbn [repeat]. unfold store. cbn [base mem length].
    destruct (N.leb_spec addr addr); [|lia]. cbn [andb].
    destruct (Nat.leb_spec (N.to_nat (addr - addr) + 0) (length (bnew (N.to_nat cap) : buf N))); [|lia].
    cbn [bind]. reflexivity.
  - reflexivity.
  - unfold stop. cbn [fst snd]. lia.
Qed.
Print Assumptions C23_count_refuted.

(** The result of malloc is not checked: in an arena whose memory could not be
    allocated the second request is granted, at address 8. *)
Theorem C23_null_refuted :
  forall cap, 16 <= cap -> cap < 2 ^ 64 ->
  exists a, run (arena_new 0 cap) [AllocBytes 8; AllocBytes 8] = Ok ([0; 8], a) /\ mem a = [].
Proof.
  intros cap H1 H2. eexists. split.
  - unfold arena_new. cbn [run step].
    rewrite (alloc_at _ _ _ 0 8 0 8) by (reflexivity || lia). cbn [bind].
    rewrite (alloc_at _ _ _ 8 8 8 16) by (reflexivity || lia). cbn [bind]. reflexivity.
  - reflexivity.
Qed.
Print Assumptions C23_null_refuted.

Example C23_example :
  let cs := [AllocBytes 5; Save; AllocN 4 3; DupStr (bs "hi"); Restore 5; AllocBytes 8; AllocBytes 100] in
  Forall (fun c => forall n, request c = Some n -> 64 + 7 + n < 2 ^ 64) cs /\
  exists a, run (arena_new 4096 64) cs = Ok ([4096; 5; 4104; 4120; 0; 4104; 0], a) /\
    live 4096 [] cs [4096; 5; 4104; 4120; 0; 4104; 0] = [(4104, 8); (4096, 5)].
Proof.
  cbv zeta. split.
  - repeat constructor; intros n [= <-]; reflexivity.
  - eexists. split; vm_compute; reflexivity.
Qed.
