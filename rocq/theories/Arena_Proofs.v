From Verif Require Import Common Bits Arena_Model Arena_Spec.
Local Open Scope N_scope.

Lemma land_round x : x < W -> N.land x (W - 8) = x / 8 * 8.
Proof.
  intros H. change (W - 8) with (N.ldiff (N.ones 64) (N.ones 3)).
  assert (E : N.land x (N.ldiff (N.ones 64) (N.ones 3)) = N.ldiff x (N.ones 3)).
  { apply N.bits_inj. intros i. rewrite N.land_spec, !N.ldiff_spec. destruct (N.lt_ge_cases i 64).
    - now rewrite N.ones_spec_low.
    - now rewrite (bound_bits x 64). }
  rewrite E, N.ldiff_ones_r, N.shiftl_mul_pow2, N.shiftr_div_pow2. reflexivity.
Qed.

Section Arena.
  Variables (addr cap : N).
  Hypothesis addr_pos : 0 < addr.
  Hypothesis addr_al : addr mod 8 = 0.
  Hypothesis in_space : addr + cap < W.

  Definition fits (n : N) : Prop := cap + 7 + n < W.

  Definition good (bl : list block) (u : N) : Prop :=
    Forall (fun b => addr <= fst b /\ stop b <= addr + u /\ fst b mod 8 = 0) bl /\ ForallOrdPairs disjoint bl.

  Definition inv (a : arena) (bl : list block) : Prop :=
    base a = addr /\ capacity a = cap /\ length (mem a) = N.to_nat cap /\ used a <= cap /\ good bl (used a).

  Lemma good_mono bl u u' : u <= u' -> good bl u -> good bl u'.
  Proof.
    intros L [F D]. split; auto. eapply Forall_impl; [|exact F]. cbn. intros b (? & ? & ?). splits; auto. lia.
  Qed.

  Lemma round8_ge u : u <= round8 u < u + 8.
  Proof. unfold round8. lia. Qed.
  Lemma round8_al u : round8 u mod 8 = 0.
  Proof. unfold round8. lia. Qed.

  Lemma alloc_ok a bl n : inv a bl -> fits n ->
    (cap < round8 (used a) + n -> alloc_bytes a n = (0, a)) /\
    (round8 (used a) + n <= cap ->
       alloc_bytes a n = (addr + round8 (used a), mkarena (base a) (mem a) (capacity a) (round8 (used a) + n))).
  Proof.
    intros (Eb & Ec & Lm & Lu & G) Fn. unfold fits in Fn. unfold alloc_bytes.
    rewrite (N.mod_small (used a + 7) W) by lia. rewrite land_round by lia. fold (round8 (used a)).
    pose proof (round8_ge (used a)).
    rewrite (N.mod_small (round8 (used a) + n)) by lia. rewrite Ec, Eb.
    destruct (N.ltb_spec cap (round8 (used a) + n)); split; intros; try lia; auto.
    rewrite (N.mod_small (addr + _)) by lia. reflexivity.
  Qed.

  Lemma good_cons bl u n : good bl u -> round8 u + n <= cap ->
    good ((addr + round8 u, n) :: bl) (round8 u + n).
  Proof.
    intros [F D] L. pose proof (round8_ge u). split.
    - constructor. { unfold stop; cbn. splits; try lia. pose proof (round8_al u). lia. }
      eapply Forall_impl; [|exact F]. cbn. intros b (? & ? & ?). splits; auto; lia.
    - constructor; auto. eapply Forall_impl; [|exact F]. cbn. intros b (? & ? & ?).
      right. unfold stop in *. cbn. lia.
  Qed.

  Lemma length_store a p b a' : store a p b = Ok a' ->
    base a' = base a /\ capacity a' = capacity a /\ used a' = used a /\ length (mem a') = length (mem a).
  Proof.
    unfold store. destruct (_ && _) eqn:E; [|discriminate]. intros [= <-]. cbn. splits; auto.
    rewrite andb_true_iff, Nat.leb_le in E.
    rewrite !app_length, firstn_length, map_length, skipn_length. lia.
  Qed.

  Lemma store_contents a p b a' x : store a p b = Ok a' -> base a <= fst x ->
    disjoint x (p, N.of_nat (length b)) -> contents a' x = contents a x.
  Proof.
    intros E Lx Dx. destruct (length_store _ _ _ _ E) as (Eb & _ & _ & _).
    unfold contents. rewrite Eb. unfold store in E. destruct (_ && _) eqn:C; [|discriminate].
    injection E as <-. cbn [mem]. rewrite andb_true_iff, Nat.leb_le, N.leb_le in C.
    unfold disjoint, stop in Dx. cbn in Dx. apply list_ext. intros i.
    rewrite !nth_error_firstn, !nth_error_skipn. destruct (Nat.ltb_spec i (N.to_nat (snd x))); auto.
    set (j := (N.to_nat (fst x - base a) + i)%nat). set (off := N.to_nat (p - base a)) in *.
    rewrite nth_error_app_if, firstn_length, nth_error_firstn.
    assert (J : (j < off \/ off + length b <= j)%nat) by lia.
    destruct J as [J|J].
    - destruct (Nat.ltb_spec j (Nat.min off (length (mem a)))); [|lia].
      now destruct (Nat.ltb_spec j off); [|lia].
    - destruct (Nat.ltb_spec j (Nat.min off (length (mem a)))); [lia|].
      rewrite nth_error_app2 by (rewrite map_length; lia). rewrite map_length, nth_error_skipn. f_equal. lia.
  Qed.

  Lemma store_self a p b a' : store a p b = Ok a' ->
    contents a' (p, N.of_nat (length b)) = map Some b.
  Proof.
    intros E. destruct (length_store _ _ _ _ E) as (Eb & _ & _ & _).
    unfold contents. cbn [fst snd]. rewrite Eb. unfold store in E. destruct (_ && _) eqn:C; [|discriminate].
    injection E as <-. cbn [mem]. rewrite andb_true_iff, Nat.leb_le, N.leb_le in C.
    rewrite Nat2N.id, skipn_app, skipn_all2 by (rewrite firstn_length; lia).
    rewrite firstn_length, Nat.min_l by lia. rewrite Nat.sub_diag. cbn [skipn app].
    rewrite firstn_app, map_length, Nat.sub_diag. cbn. rewrite app_nil_r. apply firstn_all2. rewrite map_length. lia.
  Qed.

  (** One call keeps the invariant, and does what it should. *)
  Definition next (bl : list block) (c : call) (r : N) : list block := live addr bl [c] [r].

  Definition filled (c : call) : option bytes :=
    match c with
    | AllocN sz n => Some (repeat 0 (N.to_nat (sz * n)))
    | DupStr s => Some (cstr s ++ [0])
    | _ => None
    end.

  Lemma step_ok a bl c : inv a bl -> (forall n, request c = Some n -> fits n) ->
    exists r a', step a c = Ok (r, a') /\ inv a' (next bl c r) /\
      (forall n, request c = Some n -> (r = 0 <-> cap < round8 (used a) + n)) /\
      (forall x, In x bl -> contents a' x = contents a x) /\
      (r <> 0 -> forall b n, filled c = Some b -> request c = Some n -> contents a' (r, n) = map Some b).
  Proof.
    intros I F.
    assert (AL : forall n, request c = Some n ->
      (cap < round8 (used a) + n /\ alloc_bytes a n = (0, a)) \/
      exists a1, round8 (used a) + n <= cap /\ alloc_bytes a n = (addr + round8 (used a), a1) /\
        base a1 = base a /\ mem a1 = mem a /\ inv a1 ((addr + round8 (used a), n) :: bl)).
    { intros n En. specialize (F n En). destruct (alloc_ok a bl n I F) as [A1 A2].
      destruct (N.lt_ge_cases cap (round8 (used a) + n)); [left; auto|right].
      eexists. splits; eauto. destruct I as (Eb & Ec & Lm & Lu & G). unfold inv. cbn. splits; auto.
      apply good_cons; auto. }
    assert (ST : forall n a1 b, n = N.of_nat (length b) ->
       round8 (used a) + n <= cap -> base a1 = base a -> mem a1 = mem a ->
       inv a1 ((addr + round8 (used a), n) :: bl) ->
       exists a', store a1 (addr + round8 (used a)) b = Ok a' /\ inv a' ((addr + round8 (used a), n) :: bl) /\
         (forall x, In x bl -> contents a' x = contents a x) /\
         contents a' (addr + round8 (used a), n) = map Some b).
    { intros n a1 b En L B1 M1 I1.
      assert (S : exists a', store a1 (addr + round8 (used a)) b = Ok a').
      { unfold store. destruct I1 as (Eb & Ec & Lm & Lu & G). rewrite Eb.
        destruct (N.leb_spec addr (addr + round8 (used a))); [|lia]. cbn [andb].
        destruct (Nat.leb_spec (N.to_nat (addr + round8 (used a) - addr) + length b) (length (mem a1))); eauto. lia. }
      destruct S as [a' E]. exists a'. splits; auto.
      - destruct (length_store _ _ _ _ E) as (X1 & X2 & X3 & X4).
        unfold inv in *. rewrite X1, X2, X3, X4. auto.
      - intros x Ix. destruct I1 as (Eb & _ & _ & _ & G & D).
        inversion D as [|? ? Dx]; subst. rewrite Forall_forall in Dx. specialize (Dx x Ix).
        rewrite (store_contents _ _ _ _ x E).
        + unfold contents. now rewrite B1, M1.
        + rewrite Eb. inversion G as [|? ? ? G']; subst. rewrite Forall_forall in G'. now apply G'.
        + destruct Dx; [right|left]; auto.
      - subst n. eapply store_self; eauto. }
    assert (NZ : forall u, addr + u <> 0) by (intros; lia).
    destruct c as [n|sz n|s| |m|]; cbn [step request filled] in *.
    - destruct (AL n eq_refl) as [[L E]|(a1 & L & E & B1 & M1 & I1)]; rewrite E.
      + exists 0, a. splits; auto; try easy. intros n' [= <-]. easy.
      + exists (addr + round8 (used a)), a1. splits; auto; try easy.
        * unfold next. cbn. destruct (N.eqb_spec (addr + round8 (used a)) 0); [now apply NZ in e|]. auto.
        * intros n' [= <-]. split; intros; lia.
        * intros x _. unfold contents. now rewrite B1, M1.
    - unfold alloc_n.
      assert (E0 : (sz * n) mod W = sz * n) by (apply N.mod_small; specialize (F _ eq_refl); unfold fits in F; lia).
      rewrite E0.
      destruct (AL (sz * n) eq_refl) as [[L E]|(a1 & L & E & B1 & M1 & I1)]; rewrite E.
      + exists 0, a. splits; auto; try easy. intros n' [= <-]. easy.
      + destruct (N.eqb_spec (addr + round8 (used a)) 0); [now apply NZ in e|].
        destruct (N.ltb_spec (N.of_nat (length (mem a1))) (sz * n)).
        { destruct I as (_ & _ & Lm & _). rewrite M1 in H. lia. }
        destruct (ST (sz * n) a1 (repeat 0 (N.to_nat (sz * n)))) as (a' & -> & I' & C1 & C2); auto.
        { rewrite repeat_length. lia. }
        cbn [bind]. do 2 eexists. splits; eauto.
        * unfold next. cbn [live request]. destruct (N.eqb_spec (addr + round8 (used a)) 0); easy.
        * intros n' [= <-]. split; intros; lia.
        * intros _ b n' [= <-] [= <-]. auto.
    - unfold dup_str.
      assert (E0 : (N.of_nat (length (cstr s)) + 1) mod W = N.of_nat (length (cstr s)) + 1)
        by (apply N.mod_small; specialize (F _ eq_refl); unfold fits in F; lia).
      rewrite E0.
      destruct (AL (N.of_nat (length (cstr s)) + 1) eq_refl) as [[L E]|(a1 & L & E & B1 & M1 & I1)]; rewrite E.
      + exists 0, a. splits; auto; try easy. intros n' [= <-]. easy.
      + destruct (N.eqb_spec (addr + round8 (used a)) 0); [now apply NZ in e|].
        destruct (ST (N.of_nat (length (cstr s)) + 1) a1 (cstr s ++ [0])) as (a' & -> & I' & C1 & C2); auto.
        { rewrite app_length. cbn. lia. }
        cbn [bind]. do 2 eexists. splits; eauto.
        * unfold next. cbn [live request]. destruct (N.eqb_spec (addr + round8 (used a)) 0); easy.
        * intros n' [= <-]. split; intros; lia.
        * intros _ b n' [= <-] [= <-]. auto.
    - do 2 eexists. splits; eauto; easy.
    - do 2 eexists. split; [reflexivity|]. destruct I as (Eb & Ec & Lm & Lu & [G D]). splits; try easy.
      + unfold next. cbn [live request]. unfold restore.
        assert (GF : forall u, (m <= used a -> u = m) -> (used a < m -> u = used a) ->
          good (filter (fun b => stop b <=? addr + m) bl) u).
        { intros u U1 U2. clear - G D U1 U2. induction G as [|b bl Hb G IH]; cbn.
          - split; constructor.
          - inversion D; subst. destruct (N.leb_spec (stop b) (addr + m)); auto.
            destruct (IH H2) as [G1 D1]. destruct Hb as (B1 & B2 & B3). split.
            + constructor; auto. splits; auto. destruct (N.le_gt_cases m (used a)); [rewrite U1|rewrite U2]; lia.
            + constructor; auto. rewrite Forall_forall in *. intros x Hx. apply filter_In in Hx. now apply H1. }
        destruct (N.leb_spec m (used a)); unfold inv; cbn; splits; auto; try lia; apply GF; lia.
      + intros x _. unfold contents, restore. now destruct (m <=? used a).
    - do 2 eexists. split; [reflexivity|]. destruct I as (Eb & Ec & Lm & Lu & [G D]). splits; try easy.
      unfold inv, reset; cbn. splits; auto; try lia. split; constructor.
  Qed.

  Lemma live_next bl c r cs rs : live addr bl (c :: cs) (r :: rs) = live addr (next bl c r) cs rs.
  Proof. reflexivity. Qed.

  Lemma run_ok cs : forall a bl, inv a bl -> Forall (fun c => forall n, request c = Some n -> fits n) cs ->
    exists rs a', run a cs = Ok (rs, a') /\ inv a' (live addr bl cs rs) /\ length rs = length cs.
  Proof.
    induction cs as [|c cs IH]; intros a bl I F; cbn [run].
    - exists [], a. splits; auto.
    - inversion F; subst. destruct (step_ok a bl c I H1) as (r & a1 & -> & I1 & _). cbn [bind].
      destruct (IH a1 _ I1 H2) as (rs & a' & -> & I' & L). cbn [bind].
      exists (r :: rs), a'. splits; auto. cbn. auto.
  Qed.

  Lemma inv_new : inv (arena_new addr cap) [].
  Proof.
    unfold inv, arena_new. cbn. destruct (N.eqb_spec addr 0); [lia|]. unfold bnew. rewrite repeat_length.
    splits; auto; try lia. split; constructor.
  Qed.
End Arena.
