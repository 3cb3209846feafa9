From Coq Require Import Permutation.
From Verif Require Import Common Hash_Model Set_Model Set_Spec Set_Sys Hash_Proofs.

Section P.
  Context {T : Type} (eqb : T -> T -> bool) (hash : T -> N).
  Hypothesis eqb_spec : forall a b, eqb a b = true <-> a = b.
  Implicit Types (z : zset T) (l : list T).

  Lemma mem_in x l : mem eqb x l = true <-> In x l.
  Proof.
    unfold mem. rewrite existsb_exists. split.
    - intros (y & I & E). apply eqb_spec in E. now subst.
    - intros I. exists x. split; auto. now apply eqb_spec.
  Qed.

  Lemma mem_notin x l : ~ In x l -> mem eqb x l = false.
  Proof. intros. destruct (mem eqb x l) eqn:E; auto. apply mem_in in E. easy. Qed.

  Definition keys z : list T := map fst (contents (zslots z)).

  Record zrep z l : Prop := {
    zr_cap : zcap z = length (zslots z);
    zr_ok : zcap z = 0 \/ (8 <= zcap z /\ exists d, zcap z = 4 * d);
    zr_inv : tinv hash (zslots z);
    zr_perm : Permutation (keys z) l;
    zr_len : zlen z = length l;
    zr_load : 4 * zlen z <= 3 * zcap z }.

  Lemma zr_nodup z l : zrep z l -> NoDup l.
  Proof.
    intros R. eapply Permutation_NoDup; [apply R|]. apply (ti_nodup _ _ (zr_inv _ _ R)).
  Qed.

  Lemma in_keys z x : In x (keys z) <-> exists i s u, nth_error (zslots z) i = Some s /\ live s = true /\ skv s = Some (x, u).
  Proof.
    unfold keys. rewrite in_map_iff. split.
    - intros ([y u] & <- & I). apply in_contents in I as (i & s & ?). eauto.
    - intros (i & s & u & ?). exists (x, u). split; auto. apply in_contents. eauto.
  Qed.

  Lemma find_dec_ok x z l : zrep z l -> forall s, In s (zslots z) -> exists o, find_dec eqb x s = Ok o.
  Proof.
    intros R s Hs. unfold find_dec. destruct (socc s) eqn:O; cbn; eauto.
    destruct (sdel s) eqn:D; cbn; eauto.
    destruct (ti_kv _ _ (zr_inv _ _ R) s Hs) as [[y u] E]; [unfold live; now rewrite O, D|].
    unfold kv_of. rewrite E. cbn. eauto.
  Qed.

  Lemma find_dec_false x (s : slot T unit) : find_dec eqb x s = Ok (Some false) -> socc s = false.
  Proof.
    unfold find_dec. destruct (socc s), (sdel s); cbn; try discriminate; auto.
    destruct (kv_of s) as [[? ?]| | |]; cbn; try discriminate. destruct (eqb t x); discriminate.
  Qed.

  Lemma find_dec_true x (s : slot T unit) : find_dec eqb x s = Ok (Some true) ->
    live s = true /\ exists u, skv s = Some (x, u).
  Proof.
    unfold find_dec, kv_of, live. destruct (socc s), (sdel s); cbn; try discriminate; auto.
    destruct (skv s) as [[? ?]|]; cbn; try discriminate. destruct (eqb t x) eqn:E; try discriminate.
    apply eqb_spec in E. subst. eauto.
  Qed.

  Lemma find_dec_none x (s : slot T unit) : find_dec eqb x s = Ok None ->
    socc s = true /\ forall u, live s = true -> skv s <> Some (x, u).
  Proof.
    unfold find_dec, kv_of, live. destruct (socc s), (sdel s); cbn; try discriminate; auto.
    - intros _. split; auto. discriminate.
    - destruct (skv s) as [[? ?]|]; cbn; try discriminate. destruct (eqb t x) eqn:E; try discriminate.
      intros _. split; auto. intros w _ [= -> _]. assert (eqb x x = true) by now apply eqb_spec. congruence.
  Qed.

  (** the search of [contains] and [remove] *)
  Lemma find_spec f z l x : zrep z l -> 0 < zcap z ->
    let r := probe_back (find_dec eqb x) (zslots z) (zcap z) f (home hash (zcap z) x) (home hash (zcap z) x) in
    (r = Fuel /\ f <= zcap z) \/
    (~ In x l /\ (r = Ok None \/ exists i, r = Ok (Some (i, false)))) \/
    (In x l /\ exists i s u, r = Ok (Some (i, true)) /\ nth_error (zslots z) i = Some s /\
                          live s = true /\ skv s = Some (x, u)).
  Proof.
    intros R H0 r. assert (Hh := home_lt hash _ x H0).
    assert (C := zr_cap _ _ R). assert (TI := zr_inv _ _ R). assert (P := zr_perm _ _ R).
    subst r.
    destruct (back_spec (find_dec eqb x) (zslots z) (zcap z) (home hash (zcap z) x) (eq_sym C) Hh (find_dec_ok x z l R) f)
      as [(i & b & Hi & (s & En & D) & B & E)|(B & E)]; rewrite E.
    - destruct (Nat.ltb_spec i f); [|left; split; [reflexivity|lia]]. destruct b.
      + right. right. apply find_dec_true in D as (L & u & S). split.
        * eapply Permutation_in; [apply P|]. apply in_keys. eauto 6.
        * do 3 eexists. eauto.
      + right. left. split; [|eauto]. apply find_dec_false in D. intros I.
        eapply Permutation_in in I; [|apply Permutation_sym, P]. apply in_keys in I as (p & s1 & u & E1 & L1 & S1).
        rewrite C in *.
        destruct (reach_before_free hash (zslots z) x u p s1 i s TI H0 E1 L1 S1 En D) as (j & Hj & Q).
        destruct (B j Hj) as (s' & E' & D'). rewrite Q in E'. replace s' with s1 in * by congruence.
        apply find_dec_none in D' as [_ D']. eapply D'; eauto.
    - destruct (Nat.leb_spec (zcap z) f); [|left; split; [reflexivity|lia]].
      right. left. split; [|eauto]. intros I.
      eapply Permutation_in in I; [|apply Permutation_sym, P]. apply in_keys in I as (p & s1 & u & E1 & L1 & S1).
      destruct (pos_surj _ _ p Hh) as (j & Hj & Q); [rewrite C; apply nth_error_Some; congruence|].
      destruct (B j Hj) as (s' & E' & D'). rewrite Q in E'. replace s' with s1 in * by congruence.
      apply find_dec_none in D' as [_ D']. eapply D'; eauto.
  Qed.

  Lemma zrep_cap0 z l : zrep z l -> zcap z = 0 -> l = [].
  Proof.
    intros R H. pose proof (zr_perm _ _ R) as P. pose proof (zr_cap _ _ R) as C. unfold keys in P.
    destruct (zslots z); [|cbn in C; lia]. cbn in P. now apply Permutation_nil in P.
  Qed.

  Lemma contains_spec f z l x : zrep z l ->
    (set_contains eqb hash f z x = Fuel /\ f <= zcap z) \/ set_contains eqb hash f z x = Ok (mem eqb x l).
  Proof.
    intros R. unfold set_contains. destruct (Nat.eqb_spec (zcap z) 0).
    - right. now rewrite (zrep_cap0 z l R).
    - destruct (find_spec f z l x R) as [[E F]|[(N & [E|[i E]])|(I & i & s & u & E & _)]]; [lia| | | |]; rewrite E; cbn [bind].
      + left. auto.
      + right. now rewrite mem_notin.
      + right. now rewrite mem_notin.
      + right. f_equal. symmetry. now apply mem_in.
  Qed.

  Lemma add_dec_ok (s : slot T unit) : exists o, add_dec s = Ok o.
  Proof. unfold add_dec. eauto. Qed.

  Lemma add_core_spec f z l x : zrep z l -> 0 < zcap z -> 4 * zlen z < 3 * zcap z -> ~ In x l ->
    (add_core hash f z x = Fuel /\ f <= zcap z) \/
    exists z', add_core hash f z x = Ok (z', true) /\ zrep z' (x :: l) /\ zcap z' = zcap z.
  Proof.
    intros R H0 HL HN. unfold add_core. destruct (Nat.eqb_spec (zcap z) 0); [lia|].
    assert (Hh := home_lt hash _ x H0).
    assert (C := zr_cap _ _ R). assert (TI := zr_inv _ _ R). assert (P := zr_perm _ _ R).
    destruct (probe_spec add_dec (zslots z) (zcap z) (home hash (zcap z) x) (eq_sym C) Hh (fun s _ => add_dec_ok s) f)
      as [(i & b & Hi & (s & En & D) & B & E)|(B & E)].
    - rewrite E. destruct (Nat.ltb_spec i f); [|left; split; [reflexivity|lia]]. right. cbn [bind].
      eexists; split; [reflexivity|]. unfold add_dec in D. injection D as D.
      assert (L : live s = false) by (unfold live; destruct (socc s && negb (sdel s)); [discriminate|auto]).
      assert (I : ~ In x (map fst (contents (zslots z)))).
      { intros I. apply HN. eapply Permutation_in; [apply P|exact I]. }
      rewrite C in *.
      destruct (tinv_insert hash (zslots z) i x tt s TI) as [X Y]; auto.
      + intros j Hj. destruct (B j Hj) as (s' & E' & D'). exists s'. split; auto. unfold add_dec in D'.
        injection D' as D'. now destruct (socc s').
      + destruct (zr_ok _ _ R) as [?|[? [d ?]]]; [lia|].
        split; [split; cbn [zcap zslots zlen]; auto|auto].
        * now rewrite length_upd.
        * right. split; [lia|]. exists d. lia.
        * unfold keys. cbn [zslots]. rewrite (Permutation_map fst Y). cbn. now constructor.
        * rewrite (zr_len _ _ R). cbn. lia.
        * lia.
    - (* a table with room has a slot that is not live *)
      exfalso. assert (A : forall s, In s (zslots z) -> live s = true).
      { intros s Is. apply In_nth_error in Is as [p Ep].
        destruct (pos_surj _ _ p Hh) as (j & Hj & Q); [rewrite C; apply nth_error_Some; congruence|].
        destruct (B j Hj) as (s' & E' & D'). rewrite Q in E'. replace s' with s in * by congruence.
        unfold add_dec in D'. injection D' as D'. unfold live. now destruct (socc s && negb (sdel s)). }
      assert (G : length (contents (zslots z)) = length (zslots z)).
      { pose proof (ti_kv _ _ TI) as K. revert A K. clear. induction (zslots z) as [|s t IH]; intros A K; auto.
        change (contents (s :: t)) with (item s ++ contents t). rewrite app_length, IH.
        - unfold item. rewrite A by now left. destruct (K s) as [p ->]; cbn; auto. now apply A; left.
        - intros. apply A. now right.
        - intros. apply K; auto. now right. }
      assert (length (keys z) = length l) by (apply Permutation_length, P).
      unfold keys in H. rewrite map_length, G, <- C, <- (zr_len _ _ R) in H. lia.
  Qed.

  Lemma resize_fold f (t : list (slot T unit)) : forall z1 l1,
    (forall s, In s t -> live s = true -> exists p, skv s = Some p) ->
    NoDup (map fst (contents t) ++ l1) ->
    zrep z1 l1 -> 8 <= zcap z1 -> 4 * (zlen z1 + length (contents t)) <= 3 * zcap z1 ->
    let r := fold_left
      (fun r s => do z' <- r;
         if socc s && negb (sdel s) then do '(x, _) <- kv_of s; do '(z', _) <- set_add eqb hash f z' x; Ok z' else Ok z') t (Ok z1) in
    (r = Fuel /\ f <= zcap z1) \/
    exists z2, r = Ok z2 /\ zrep z2 (rev (map fst (contents t)) ++ l1) /\ zcap z2 = zcap z1.
  Proof.
    induction t as [|s t IH]; intros z1 l1 HK ND R1 Hc HL; cbn [fold_left].
    - right. exists z1. auto.
    - assert (fuel_stuck : forall (X : res (zset T)), X = Fuel ->
         fold_left (fun r s => do z' <- r;
         if socc s && negb (sdel s) then do '(x, _) <- kv_of s; do '(z', _) <- set_add eqb hash f z' x; Ok z' else Ok z') t X = Fuel).
      { clear. induction t; intros X ->; cbn; auto. }
      cbn [bind]. change (contents (s :: t)) with (item s ++ contents t) in *.
      unfold item, live in *.
      destruct (socc s && negb (sdel s)) eqn:L.
      2:{ cbn [app] in *. apply IH; auto. intros s' ?. apply HK. now right. }
      destruct (HK s (or_introl eq_refl) L) as [[x u] S]. unfold kv_of. rewrite S in *. cbn [bind].
      cbn [app map fst length] in *. inversion ND as [|? ? NI ND']; subst.
      assert (Nk : ~ In x l1).
      { intros I. apply NI. rewrite in_app_iff. now right. }
      destruct f as [|f]; [left; split; [|lia]; apply fuel_stuck; reflexivity|].
      cbn [set_add].
      destruct (contains_spec (1 + f) z1 l1 x R1) as [[E F]|E]; cbn [Nat.add] in E.
      { rewrite E. left. split; [apply fuel_stuck; reflexivity|lia]. }
      rewrite E, mem_notin by auto. cbn [bind].
      destruct (Nat.leb_spec (3 * zcap z1) (4 * zlen z1)); [lia|]. cbn [bind].
      destruct (add_core_spec (1 + f) z1 l1 x R1) as [[E2 F2]|(z' & E2 & R' & C')]; cbn [Nat.add] in *; try lia; auto; rewrite E2.
      + left. split; [apply fuel_stuck; reflexivity|lia].
      + assert (Lz : zlen z' = zlen z1 + 1).
        { rewrite (zr_len _ _ R'), (zr_len _ _ R1). cbn. lia. }
        destruct (IH z' (x :: l1)) as [[F Hf]|(z2 & F & R2 & C2)].
        * intros s' ? ?. apply HK; auto. now right.
        * apply (Permutation_NoDup (l := x :: map fst (contents t) ++ l1)); [|constructor; auto].
          apply Permutation_middle.
        * auto.
        * lia.
        * rewrite C'. lia.
        * left. split; [exact F|lia].
        * right. exists z2. split; [exact F|]. split; [|congruence].
          cbn [rev]. now rewrite <- app_assoc.
  Qed.

  Lemma zrep_perm z l l' : zrep z l -> Permutation l l' -> zrep z l'.
  Proof.
    intros R P. destruct R. split; auto.
    - eapply Permutation_trans; eauto.
    - now rewrite <- (Permutation_length P).
  Qed.

  Lemma resize_spec f z l nc : zrep z l -> nc = (let c := zcap z * 2 in if c <? 8 then 8 else c) ->
    (set_resize_with (set_add eqb hash f) z nc = Fuel /\ f <= nc) \/
    exists z', set_resize_with (set_add eqb hash f) z nc = Ok z' /\ zrep z' l /\ zcap z' = nc.
  Proof.
    intros R Hn. assert (P := zr_perm _ _ R). assert (TI := zr_inv _ _ R).
    assert (Hlen : length (contents (zslots z)) = zlen z).
    { rewrite (zr_len _ _ R), <- (Permutation_length P). unfold keys. now rewrite map_length. }
    assert (8 <= nc /\ (nc = 0 \/ 8 <= nc /\ exists d, nc = 4 * d) /\ 2 * zcap z <= nc) as (H8 & HC & H2).
    { subst nc. cbv zeta. destruct (zr_ok _ _ R) as [->|[? [d E]]].
      - change (0 * 2 <? 8) with true. split; [lia|]. split; [right; split; [lia|exists 2; lia]|lia].
      - destruct (Nat.ltb_spec (zcap z * 2) 8); [lia|]. split; [lia|]. split; [|lia].
        right. split; [lia|]. exists (2 * d). lia. }
    unfold set_resize_with.
    destruct (resize_fold f (zslots z) (mkset (repeat sfree0 nc) 0 nc) []) as [[F ?]|(z' & F & R' & C')].
    - intros s Hs'. apply (ti_kv _ _ TI s Hs').
    - rewrite app_nil_r. apply TI.
    - split; cbn [zcap zslots zlen]; auto.
      + now rewrite repeat_length.
      + apply tinv_free.
      + unfold keys. cbn. now rewrite contents_repeat.
      + lia.
    - auto.
    - cbn [zlen zcap]. pose proof (zr_load _ _ R). lia.
    - left. split; [exact F|]. exact H.
    - right. exists z'. split; [exact F|]. split; [|exact C'].
      eapply zrep_perm; eauto. rewrite app_nil_r. rewrite <- P. apply Permutation_sym, Permutation_rev.
  Qed.

  Lemma set_add_spec f z l x : zrep z l ->
    (set_add eqb hash f z x = Fuel /\ f <= 2 * zcap z + 9) \/
    exists z', set_add eqb hash f z x = Ok (z', negb (mem eqb x l)) /\
      zrep z' (if mem eqb x l then l else x :: l) /\ zcap z' <= 2 * zcap z + 8.
  Proof.
    intros R. destruct f as [|f]; [left; split; [reflexivity|lia]|]. cbn [set_add].
    destruct (contains_spec (S f) z l x R) as [[E F]|E]; rewrite E.
    { left. split; [reflexivity|lia]. }
    cbn [bind]. destruct (mem eqb x l) eqn:M.
    { right. exists z. splits; auto. lia. }
    assert (HN : ~ In x l) by (intros I; apply mem_in in I; congruence).
    destruct (Nat.leb_spec (3 * zcap z) (4 * zlen z)).
    - destruct (resize_spec f z l _ R eq_refl) as [[E1 F]|(z1 & E1 & R1 & C1)]; cbv zeta in *; rewrite E1; cbn [bind].
      + left. split; [reflexivity|]. destruct (Nat.ltb_spec (zcap z * 2) 8); lia.
      + assert (zlen z1 = zlen z) by (rewrite (zr_len _ _ R1), (zr_len _ _ R); auto).
        assert (0 < zcap z1 /\ 4 * zlen z1 < 3 * zcap z1 /\ zcap z1 <= 2 * zcap z + 8) as (? & ? & ?).
        { pose proof (zr_load _ _ R). destruct (Nat.ltb_spec (zcap z * 2) 8); lia. }
        destruct (add_core_spec (S f) z1 l x R1) as [[E2 F2]|(z' & E2 & R' & C')]; auto; rewrite E2.
        * left. split; [reflexivity|lia].
        * right. exists z'. splits; auto. lia.
    - cbn [bind]. destruct (add_core_spec (S f) z l x R) as [[E2 F2]|(z' & E2 & R' & C')]; auto; try lia; rewrite E2.
      * left. split; [reflexivity|lia].
      * right. exists z'. splits; auto. lia.
  Qed.

  Lemma filter_notin x l : ~ In x l -> filter (fun y => negb (eqb y x)) l = l.
  Proof.
    induction l as [|y l IH]; cbn; auto. intros H.
    destruct (eqb y x) eqn:E; [apply eqb_spec in E; subst; tauto|]. cbn. f_equal. tauto.
  Qed.

  Lemma filter_perm x l l' : Permutation l l' ->
    Permutation (filter (fun y => negb (eqb y x)) l) (filter (fun y => negb (eqb y x)) l').
  Proof.
    induction 1; cbn; auto.
    - destruct (negb _); auto.
    - destruct (negb _), (negb _); auto. constructor.
    - eauto using Permutation_trans.
  Qed.

  Lemma set_remove_spec f z l x : zrep z l ->
    (set_remove eqb hash f z x = Fuel /\ f <= zcap z) \/
    exists z', set_remove eqb hash f z x = Ok (z', mem eqb x l) /\
      zrep z' (filter (fun y => negb (eqb y x)) l) /\ zcap z' = zcap z.
  Proof.
    intros R. unfold set_remove. destruct (Nat.eqb_spec (zcap z) 0).
    - right. exists z. pose proof (zrep_cap0 z l R e). subst l. auto.
    - destruct (find_spec f z l x R) as [[E F]|[(N & [E|[i E]])|(I & i & s & u & E & En & L & S)]]; [lia| | | |]; rewrite E; cbn [bind].
      + left. auto.
      + right. exists z. rewrite mem_notin, filter_notin; auto.
      + right. exists z. rewrite mem_notin, filter_notin; auto.
      + right. unfold slot_at. rewrite En. cbn [bind].
        assert (O : socc s = true) by (unfold live in L; now destruct (socc s)). rewrite O.
        eexists. split; [replace (mem eqb x l) with true by (symmetry; now apply mem_in); reflexivity|].
        split; [|reflexivity].
        destruct (tinv_delete hash (zslots z) i x u s (skv s) (zr_inv _ _ R) En L S) as (T' & P1).
        pose proof (zr_perm _ _ R) as P. pose proof (zr_nodup _ _ R) as ND.
        set (t' := upd (zslots z) i (mkslot true true (skv s))) in *.
        assert (Pl : Permutation l (x :: map fst (contents t'))).
        { rewrite <- P. unfold keys. rewrite (Permutation_map fst P1). reflexivity. }
        assert (NDx : NoDup (x :: map fst (contents t'))) by (eapply Permutation_NoDup; eauto).
        assert (Pw : Permutation (filter (fun y => negb (eqb y x)) l) (map fst (contents t'))).
        { rewrite (filter_perm x _ _ Pl). cbn. replace (eqb x x) with true by (symmetry; now apply eqb_spec).
          cbn. rewrite filter_notin; auto. now inversion NDx. }
        pose proof (zr_load _ _ R). pose proof (zr_len _ _ R) as LL.
        rewrite (Permutation_length Pl) in LL. cbn in LL.
        split; cbn [zcap zslots zlen]; auto.
        * subst t'. rewrite length_upd. apply R.
        * apply R.
        * now apply Permutation_sym.
        * rewrite (Permutation_length Pw). lia.
        * lia.
  Qed.

  Lemma clear_contents (t : list (slot T unit)) : contents (map (fun s => mkslot false false (skv s)) t) = [].
  Proof. induction t; auto. Qed.

  Lemma set_clear_spec z l : zrep z l -> zrep (set_clear z) [].
  Proof.
    intros R. split; cbn [set_clear zcap zslots zlen]; auto; try apply R.
    - rewrite map_length. apply R.
    - split.
      + intros s Hs L. apply in_map_iff in Hs as (s0 & <- & _). discriminate.
      + rewrite clear_contents. constructor.
      + intros i k v s Hi E L. rewrite nth_error_map in E. destruct (nth_error _ _); [|discriminate].
        injection E as <-. discriminate.
    - unfold keys, set_clear. cbn [zslots]. now rewrite clear_contents.
    - lia.
  Qed.

  Lemma zrep_new : zrep set_new [].
  Proof. split; cbn; auto. apply (tinv_free hash 0). Qed.

  Lemma z_step_spec f z l op : zrep z l ->
    (z_step eqb hash f z op = Fuel /\ f <= 2 * zcap z + 9) \/
    exists z', z_step eqb hash f z op = Ok (z', snd (zspec_step eqb l op)) /\
      zrep z' (fst (zspec_step eqb l op)) /\ zcap z' <= 2 * zcap z + 8.
  Proof.
    intros R. pose proof (zr_len _ _ R) as L. destruct op; cbn [z_step zspec_step].
    - destruct (set_add_spec f z l x R) as [[E F]|(z' & E & R' & C')]; rewrite E; cbn [bind].
      + left; auto.
      + right. exists z'. destruct (mem eqb x l); cbn; auto.
    - destruct (contains_spec f z l x R) as [[E F]|E]; rewrite E; cbn [bind fst snd].
      + left; split; auto; lia.
      + right. exists z. splits; auto. lia.
    - destruct (set_remove_spec f z l x R) as [[E F]|(z' & E & R' & C')]; rewrite E; cbn [bind fst snd].
      + left; split; auto; lia.
      + right. exists z'. splits; auto. lia.
    - right. exists z. unfold set_length. rewrite L at 1. cbn. splits; auto. lia.
    - right. exists z. unfold set_is_empty. rewrite L at 1. cbn. splits; auto; [destruct l; auto|lia].
    - right. exists (set_clear z). cbn [fst snd]. splits; auto; [eapply set_clear_spec; eauto|cbn; lia].
    - right. exists set_new. cbn [fst snd]. splits; auto; [apply zrep_new|cbn; lia].
  Qed.

  Lemma z_run_spec ops : forall f z l, zrep z l ->
    (z_run eqb hash f z ops = Fuel /\ f <= (zcap z + 8) * 2 ^ length ops + 10) \/
    exists z', z_run eqb hash f z ops = Ok (z', snd (zspec_run eqb l ops)) /\ zrep z' (fst (zspec_run eqb l ops)).
  Proof.
    induction ops as [|op ops IH]; intros f z l R; cbn [z_run zspec_run].
    - right. eauto.
    - assert (H1 : 1 <= 2 ^ length ops) by (apply (Nat.pow_le_mono_r 2 0); lia).
      replace (2 ^ length (op :: ops)) with (2 * 2 ^ length ops) by (cbn; lia).
      destruct (z_step_spec f z l op R) as [[E F]|(z1 & E & R1 & C1)]; rewrite E; cbn [bind].
      + left. split; auto. nia.
      + destruct (zspec_step eqb l op) as [l1 o]. cbn in R1. destruct (IH f z1 l1 R1) as [[F Hf]|(z2 & F & R2)]; rewrite F; cbn [bind].
        * left. split; auto. nia.
        * right. destruct (zspec_run eqb l1 ops) as [l2 os]. cbn in *. eauto.
  Qed.

  (** the values shown by val_at over all slots *)
  Definition shown z : res (list T) :=
    fold_right (fun i r => do l <- r; do o <- set_val_at z i; Ok (match o with Some x => x :: l | None => l end))
               (Ok []) (seq 0 (zcap z)).

  Lemma shown_spec z l : zrep z l -> shown z = Ok (keys z).
  Proof.
    intros R. unfold shown, keys. pose proof (zr_cap _ _ R) as C.
    assert (G : forall t t0, zslots z = t0 ++ t ->
      fold_right (fun i r => do l <- r; do o <- set_val_at z i; Ok (match o with Some x => x :: l | None => l end))
        (Ok []) (seq (length t0) (length t)) = Ok (map fst (contents t))).
    { induction t as [|s t IH]; intros t0 E; cbn [length seq fold_right]; auto.
      specialize (IH (t0 ++ [s])). rewrite app_length in IH. cbn [length] in IH.
      rewrite Nat.add_1_r in IH. rewrite IH by (rewrite <- app_assoc; auto). cbn [bind].
      unfold set_val_at. destruct (Nat.leb_spec (zcap z) (length t0)).
      { rewrite C, E, app_length in H. cbn in H. lia. }
      assert (En : nth_error (zslots z) (length t0) = Some s).
      { rewrite E, nth_error_app2, Nat.sub_diag by lia. reflexivity. }
      unfold slot_at. rewrite En. cbn [bind]. change (contents (s :: t)) with (item s ++ contents t).
      unfold item, live. destruct (socc s) eqn:O; cbn [negb orb andb]; auto.
      destruct (sdel s) eqn:D; cbn [negb orb]; auto.
      destruct (ti_kv _ _ (zr_inv _ _ R) s (nth_error_In _ _ En)) as [[x u] S]; [unfold live; now rewrite O, D|].
      unfold kv_of. rewrite S. reflexivity. }
    rewrite C. apply (G (zslots z) []). reflexivity.
  Qed.
End P.
