From Coq Require Import Permutation.
From Verif Require Import Common Hash_Model Map_Model Map_Spec Map_Sys Hash_Proofs.

Section SpecFacts.
  Context {V : Type}.
  Implicit Types (l : list (bytes * V)).

  Lemma beq_neq a b : a <> b -> beq_bytes a b = false.
  Proof. intros. destruct (beq_bytes a b) eqn:E; auto. apply beq_bytes_true in E. easy. Qed.

  Lemma without_notin k l : ~ In k (map fst l) -> without k l = l.
  Proof.
    unfold without. induction l as [|[k' v] l IH]; cbn; auto. intros H.
    rewrite beq_neq by tauto. cbn. f_equal. tauto.
  Qed.

  Lemma without_perm k l l' : Permutation l l' -> Permutation (without k l) (without k l').
  Proof.
    unfold without. induction 1; cbn; auto.
    - destruct (negb _); auto.
    - destruct (negb _), (negb _); auto. constructor.
    - eauto using Permutation_trans.
  Qed.

  Lemma without_cons k v l : NoDup (map fst ((k, v) :: l)) -> without k ((k, v) :: l) = l.
  Proof.
    intros H. cbn in H. inversion H; subst. unfold without. cbn. rewrite beq_bytes_refl. cbn.
    now apply without_notin.
  Qed.

  Lemma lookup_in k v l : NoDup (map fst l) -> In (k, v) l -> lookup k l = Some v.
  Proof.
    induction l as [|[k' v'] l IH]; cbn; [easy|]. intros N [E|I].
    - injection E as -> ->. now rewrite beq_bytes_refl.
    - inversion N; subst. rewrite beq_neq; auto. intros ->. apply H1. apply (in_map fst) in I. exact I.
  Qed.

  Lemma lookup_notin k l : ~ In k (map fst l) -> lookup k l = None.
  Proof.
    induction l as [|[k' v'] l IH]; cbn; auto. intros H. rewrite beq_neq by tauto. tauto.
  Qed.

  Lemma in_keys k l : In k (map fst l) <-> exists v, In (k, v) l.
  Proof.
    rewrite in_map_iff. split; [intros ([k' v] & <- & I); eauto|intros [v I]; exists (k, v); auto].
  Qed.

  Lemma without_length k l : length (without k l) <= length l.
  Proof. unfold without. induction l as [|a l IH]; cbn; [lia|]. destruct (negb _); cbn; lia. Qed.
End SpecFacts.

Section P.
  Context {V : Type} (hash : bytes -> N).
  Implicit Types (m : hmap V) (l : list (bytes * V)).

  Definition cap_ok (c : nat) : Prop := c = 0 \/ (8 <= c /\ exists d, c = 4 * d).

  Record mrep m l : Prop := {
    mr_cap : mcap m = length (mslots m);
    mr_ok : cap_ok (mcap m);
    mr_inv : tinv hash (mslots m);
    mr_perm : Permutation (contents (mslots m)) l;
    mr_len : mlen m = length l;
    mr_load : 4 * mlen m <= 3 * mcap m;
    mr_strs : mlen m <= mstrs m }.

  Lemma mr_nodup m l : mrep m l -> NoDup (map fst l).
  Proof.
    intros R. eapply Permutation_NoDup; [|apply (ti_nodup _ _ (mr_inv _ _ R))].
    apply Permutation_map, R.
  Qed.

  Lemma mrep_perm m l l' : mrep m l -> Permutation l l' -> mrep m l'.
  Proof.
    intros R P. destruct R. split; auto.
    - eapply Permutation_trans; eauto.
    - now rewrite <- (Permutation_length P).
  Qed.

  (** the two decision functions that look for a live key or a free slot *)
  Lemma put_dec_ok k (t : list (slot bytes V)) : tinv hash t ->
    forall s, In s t -> exists o, put_dec k s = Ok o.
  Proof.
    intros T s Hs. unfold put_dec. destruct (socc s) eqn:O; cbn; eauto.
    destruct (sdel s) eqn:D; cbn; eauto.
    destruct (ti_kv _ _ T s Hs) as [[k' v] E]; [unfold live; now rewrite O, D|].
    unfold kv_of. rewrite E. cbn. eauto.
  Qed.

  Lemma put_dec_false k (s : slot bytes V) : put_dec k s = Ok (Some false) -> socc s = false.
  Proof.
    unfold put_dec. destruct (socc s), (sdel s); cbn; try discriminate; auto.
    destruct (kv_of s) as [[? ?]| | |]; cbn; try discriminate. destruct (beq_bytes b k); discriminate.
  Qed.

  Lemma put_dec_true k (s : slot bytes V) : put_dec k s = Ok (Some true) ->
    live s = true /\ exists v, skv s = Some (k, v).
  Proof.
    unfold put_dec, kv_of, live. destruct (socc s), (sdel s); cbn; try discriminate; auto.
    destruct (skv s) as [[? ?]|]; cbn; try discriminate. destruct (beq_bytes b k) eqn:E; try discriminate.
    apply beq_bytes_true in E. subst. eauto.
  Qed.

  Lemma put_dec_none k (s : slot bytes V) : put_dec k s = Ok None ->
    socc s = true /\ forall v, live s = true -> skv s <> Some (k, v).
  Proof.
    unfold put_dec, kv_of, live. destruct (socc s), (sdel s); cbn; try discriminate; auto.
    - intros _. split; auto. discriminate.
    - destruct (skv s) as [[? ?]|]; cbn; try discriminate. destruct (beq_bytes b k) eqn:E; try discriminate.
      intros _. split; auto. intros w _ [= -> _]. now rewrite beq_bytes_refl in E.
  Qed.

  Lemma remove_dec_eq k (s : slot bytes V) : remove_dec k s = put_dec k s.
  Proof. reflexivity. Qed.

  Lemma notin_of_free m l k i s : mrep m l -> 0 < mcap m ->
    nth_error (mslots m) (pos (mcap m) (home hash (mcap m) k) i) = Some s -> socc s = false ->
    (forall j, j < i -> exists s', nth_error (mslots m) (pos (mcap m) (home hash (mcap m) k) j) = Some s' /\
                                   put_dec k s' = Ok None) ->
    ~ In k (map fst (contents (mslots m))).
  Proof.
    intros R H0 E F B I. rewrite (mr_cap _ _ R) in *.
    apply in_keys in I as [v I]. apply in_contents in I as (p & s1 & E1 & L1 & S1).
    destruct (reach_before_free hash (mslots m) k v p s1 i s (mr_inv _ _ R) H0 E1 L1 S1 E F) as (j & Hj & Q).
    destruct (B j Hj) as (s' & E' & D'). rewrite Q in E'.
    replace s' with s1 in * by congruence.
    apply put_dec_none in D' as [_ D']. eapply D'; eauto.
  Qed.

  Lemma notin_of_none m l k : mrep m l -> 0 < mcap m ->
    (forall j, j < mcap m -> exists s', nth_error (mslots m) (pos (mcap m) (home hash (mcap m) k) j) = Some s' /\
                                   put_dec k s' = Ok None) ->
    ~ In k (map fst (contents (mslots m))) /\ occs (mslots m) = mcap m.
  Proof.
    intros R H0 B. rewrite (mr_cap _ _ R) in *.
    assert (Hh := home_lt hash _ k H0). split.
    - intros I. apply in_keys in I as [v I]. apply in_contents in I as (p & s1 & E1 & L1 & S1).
      destruct (pos_surj _ _ p Hh) as (j & Hj & Q); [apply nth_error_Some; congruence|].
      destruct (B j Hj) as (s' & E' & D'). rewrite Q in E'. replace s' with s1 in * by congruence.
      apply put_dec_none in D' as [_ D']. eapply D'; eauto.
    - destruct (Nat.eq_dec (occs (mslots m)) (length (mslots m))); auto. exfalso.
      pose proof (occs_le (mslots m)). destruct (occs_free (mslots m)) as (p & s & E & F); [lia|].
      destruct (pos_surj _ _ p Hh) as (j & Hj & Q); [apply nth_error_Some; congruence|].
      destruct (B j Hj) as (s' & E' & D'). rewrite Q in E'. replace s' with s in * by congruence.
      apply put_dec_none in D' as [D' _]. congruence.
  Qed.

  (** [put] once there is room *)
  Lemma put_core_spec f m l k v : mrep m l -> 0 < mcap m -> 4 * mlen m < 3 * mcap m ->
    (put_core hash f m k v = Fuel /\ (mcap m < f -> ~ In k (map fst l) /\ occs (mslots m) = mcap m)) \/
    exists m', put_core hash f m k v = Ok m' /\ mrep m' ((k, v) :: without k l) /\ mcap m' = mcap m /\
      occs (mslots m') + mlen m = occs (mslots m) + mlen m' /\
      mstrs m' + mlen m = mstrs m + mlen m'.
  Proof.
    intros R H0 HL. unfold put_core. destruct (Nat.eqb_spec (mcap m) 0); [lia|].
    assert (Hh := home_lt hash _ k H0).
    assert (C := mr_cap _ _ R). assert (T := mr_inv _ _ R). assert (P := mr_perm _ _ R).
    assert (N := mr_nodup _ _ R).
    destruct (probe_spec (put_dec k) (mslots m) (mcap m) (home hash (mcap m) k) (eq_sym C) Hh (put_dec_ok k _ T) f)
      as [(i & r & Hi & A & B & E)|(B & E)].
    2:{ left. rewrite E. split; [reflexivity|]. intros _.
        destruct (notin_of_none m l k R H0 B) as [I O]. split; auto. intros I'. apply I.
        eapply Permutation_in; [apply Permutation_map, Permutation_sym, P|auto]. }
    rewrite E. destruct (Nat.ltb_spec i f); [|left; split; [reflexivity|lia]].
    cbn [bind]. destruct A as (s & En & D). right. destruct r.
    - (* live slot with this key *)
      cbn [negb]. unfold slot_at. rewrite En. cbn [bind].
      apply put_dec_true in D as (L & v' & S). unfold kv_of. rewrite S. cbn [bind].
      eexists; split; [reflexivity|].
      destruct (tinv_replace hash (mslots m) _ k v v' s T En L S) as (T' & c & P1 & P2).
      assert (Pl : Permutation l ((k, v') :: c)) by (rewrite <- P; auto).
      assert (Nl : NoDup (map fst ((k, v') :: c))).
      { eapply Permutation_NoDup; [apply Permutation_map, Pl|auto]. }
      assert (Pw : Permutation (without k l) c).
      { rewrite (without_perm k _ _ Pl). now rewrite without_cons. }
      split; [split; cbn; try apply R; auto|].
      + now rewrite length_upd.
      + rewrite P2. now constructor.
      + rewrite (Permutation_length Pw), (mr_len _ _ R), (Permutation_length Pl). reflexivity.
      + split; auto. cbn [mslots mlen]. pose proof (occs_upd (mslots m) _ _ (mkslot true false (Some (k, v))) En) as O.
        unfold live in L. destruct (socc s); [|discriminate]. cbn in O. split; [lia|reflexivity].
    - (* free slot *)
      cbn [negb bind]. eexists; split; [reflexivity|].
      apply put_dec_false in D.
      assert (I : ~ In k (map fst (contents (mslots m)))) by (eapply notin_of_free; eauto).
      assert (Il : ~ In k (map fst l)).
      { intros I'. apply I. eapply Permutation_in; [apply Permutation_map, Permutation_sym, P|auto]. }
      rewrite without_notin by auto.
      assert (exists T', tinv hash T' /\ T' = upd (mslots m) (pos (mcap m) (home hash (mcap m) k) i) (mkslot true false (Some (k, v))) /\ Permutation (contents T') ((k, v) :: contents (mslots m))) as (T' & TT & -> & PP).
      { rewrite C in *. destruct (tinv_insert hash (mslots m) i k v s T) as [X Y]; auto.
        - unfold live. now rewrite D.
        - intros j Hj. destruct (B j Hj) as (s' & E' & D'). apply put_dec_none in D' as [? _]. eauto.
        - eauto. }
      destruct (mr_ok _ _ R) as [?|[? [d ?]]]; [lia|].
      split; [split; cbn; try apply R; auto|].
      + now rewrite length_upd.
      + rewrite PP. now constructor.
      + rewrite (mr_len _ _ R). lia.
      + lia.
      + pose proof (mr_strs _ _ R). lia.
      + split; auto. cbn [mslots mlen]. pose proof (occs_upd (mslots m) _ _ (mkslot true false (Some (k, v))) En) as O.
        rewrite D in O. cbn in O. cbn. split; lia.
  Qed.

  (** ** Resize *)
  Lemma map_put_noresize f m k v : 4 * mlen m < 3 * mcap m ->
    map_put hash (S f) m k v = put_core hash (S f) m k v.
  Proof. intros H. cbn [map_put]. destruct (Nat.leb_spec (3 * mcap m) (4 * mlen m)); [lia|]. reflexivity. Qed.

  Lemma resize_fold f (t : list (slot bytes V)) : forall m1 l1,
    (forall s, In s t -> live s = true -> exists p, skv s = Some p) ->
    NoDup (map fst (contents t ++ l1)) ->
    mrep m1 l1 -> 8 <= mcap m1 -> 4 * (mlen m1 + length (contents t)) <= 3 * mcap m1 ->
    occs (mslots m1) = mlen m1 ->
    let r := fold_left
      (fun r s => do m' <- r;
         if socc s && negb (sdel s) then do '(k, v) <- kv_of s; map_put hash f m' k v else Ok m') t (Ok m1) in
    (r = Fuel /\ f <= mcap m1) \/
    exists m2, r = Ok m2 /\ mrep m2 (rev (contents t) ++ l1) /\ mcap m2 = mcap m1 /\
       occs (mslots m2) = mlen m2 /\ mstrs m2 + mlen m1 = mstrs m1 + mlen m2.
  Proof.
    induction t as [|s t IH]; intros m1 l1 HK ND R1 Hc HL HO; cbn [fold_left].
    - right. exists m1. cbn. auto.
    - assert (fuel_stuck : forall (X : res (hmap V)), X = Fuel ->
         fold_left (fun r s => do m' <- r;
         if socc s && negb (sdel s) then do '(k, v) <- kv_of s; map_put hash f m' k v else Ok m') t X = Fuel).
      { clear. induction t; intros X ->; cbn; auto. }
      cbn [bind]. change (contents (s :: t)) with (item s ++ contents t) in *.
      unfold item, live in *.
      destruct (socc s && negb (sdel s)) eqn:L.
      2:{ cbn [app] in *. apply IH; auto. intros s' ?. apply HK. now right. }
      destruct (HK s (or_introl eq_refl) L) as [[k v] S]. unfold kv_of. rewrite S in *. cbn [bind].
      cbn [app map fst length] in *. inversion ND as [|? ? NI ND']; subst.
      assert (Nk : ~ In k (map fst l1)).
      { intros I. apply NI. rewrite map_app, in_app_iff. now right. }
      destruct f as [|f]; [left; split; [|lia]; apply fuel_stuck; reflexivity|].
      rewrite map_put_noresize by lia.
      destruct (put_core_spec (1 + f) m1 l1 k v R1) as [[E F]|(m' & E & R' & C' & O' & S')]; [lia|lia| |].
      + cbn [Nat.add] in *. rewrite E. left. split; [apply fuel_stuck; reflexivity|].
        destruct (Nat.le_gt_cases (Datatypes.S f) (mcap m1)); auto. destruct (F H) as [_ X]. lia.
      + cbn [Nat.add] in *. rewrite E. rewrite without_notin in R' by auto.
        assert (Lm : mlen m' = mlen m1 + 1).
        { rewrite (mr_len _ _ R'), (mr_len _ _ R1). cbn. lia. }
        destruct (IH m' ((k, v) :: l1)) as [[F Hf]|(m2 & F & R2 & C2 & O2 & S2)].
        * intros s' ? ?. apply HK; auto. now right.
        * apply (Permutation_NoDup (l := map fst ((k, v) :: contents t ++ l1))); [|cbn; constructor; auto].
          apply Permutation_map. apply Permutation_middle.
        * auto.
        * lia.
        * rewrite C'. lia.
        * lia.
        * left. split; [exact F|lia].
        * right. exists m2. split; [exact F|]. split; [|split; [congruence|split; [auto|lia]]].
          cbn [rev]. now rewrite <- app_assoc.
  Qed.

  Lemma resize_spec f m l nc : mrep m l -> nc = (let c := mcap m * 2 in if c <? 8 then 8 else c) ->
    (resize_with (map_put hash f) m nc = Fuel /\ f <= nc) \/
    exists m', resize_with (map_put hash f) m nc = Ok m' /\ mrep m' l /\ mcap m' = nc /\
       occs (mslots m') = mlen m' /\ mstrs m' = mstrs m + mlen m'.
  Proof.
    intros R Hn. assert (P := mr_perm _ _ R). assert (T := mr_inv _ _ R).
    assert (Hlen : length (contents (mslots m)) = mlen m).
    { rewrite (Permutation_length P). symmetry. apply R. }
    assert (Hle : mlen m <= mcap m).
    { rewrite <- Hlen, (mr_cap _ _ R). rewrite (contents_length_le (mslots m)). apply occs_le. }
    assert (8 <= nc /\ cap_ok nc /\ 2 * mcap m <= nc) as (H8 & HC & H2).
    { subst nc. cbv zeta. destruct (mr_ok _ _ R) as [->|[? [d E]]].
      - change (0 * 2 <? 8) with true. split; [lia|]. split; [right; split; [lia|exists 2; lia]|lia].
      - destruct (Nat.ltb_spec (mcap m * 2) 8); [lia|]. split; [lia|]. split; [|lia].
        right. split; [lia|]. exists (2 * d). lia. }
    unfold resize_with.
    destruct (resize_fold f (mslots m) (mkm (repeat sfree0 nc) 0 nc (mstrs m)) []) as [[F ?]|(m' & F & R' & C' & O' & S')].
    - intros s Hs'. apply (ti_kv _ _ T s Hs').
    - rewrite app_nil_r. apply T.
    - split; cbn; auto.
      + now rewrite repeat_length.
      + apply tinv_free.
      + now rewrite contents_repeat.
      + lia.
      + lia.
    - auto.
    - cbn [mlen mcap]. pose proof (mr_load _ _ R). lia.
    - cbn [mslots mlen]. apply occs_repeat.
    - left. split; [exact F|]. exact H.
    - right. exists m'. split; [exact F|]. split; [|split; [exact C'|split; [exact O'|cbn in S'; lia]]].
      eapply mrep_perm; eauto. rewrite app_nil_r. rewrite <- P. apply Permutation_sym, Permutation_rev.
  Qed.

  Lemma map_put_spec f m l k v r : mrep m l -> occs (mslots m) <= mlen m + r ->
    (map_put hash f m k v = Fuel /\ (2 * mcap m + 9 < f -> 2 < r)) \/
    exists m', map_put hash f m k v = Ok m' /\ mrep m' ((k, v) :: without k l) /\
       occs (mslots m') <= mlen m' + r /\ mcap m' <= (if 3 * mcap m <=? 4 * mlen m then Nat.max 8 (2 * mcap m) else mcap m) /\
       mstrs m' + mlen m = mstrs m + mlen m' + (if 3 * mcap m <=? 4 * mlen m then mlen m else 0).
  Proof.
    intros R HO. destruct f as [|f]; [left; split; [reflexivity|lia]|]. cbn [map_put].
    destruct (Nat.leb_spec (3 * mcap m) (4 * mlen m)).
    - destruct (resize_spec f m l _ R eq_refl) as [[E F]|(m1 & E & R1 & C1 & O1 & S1)].
      + left. cbv zeta in *. rewrite E. split; [reflexivity|]. intros.
        destruct (Nat.ltb_spec (mcap m * 2) 8); lia.
      + cbv zeta in *. rewrite E. cbn [bind].
        assert (mlen m1 = mlen m) by (rewrite (mr_len _ _ R1), (mr_len _ _ R); auto).
        assert (mlen m <= mcap m).
        { rewrite (mr_len _ _ R), <- (Permutation_length (mr_perm _ _ R)), (mr_cap _ _ R).
          rewrite (contents_length_le (mslots m)). apply occs_le. }
        assert (0 < mcap m1 /\ 4 * mlen m1 < 3 * mcap m1 /\ mcap m1 <= Nat.max 8 (2 * mcap m)) as (? & ? & ?).
        { destruct (Nat.ltb_spec (mcap m * 2) 8); lia. }
        destruct (put_core_spec (S f) m1 l k v R1) as [[E2 F2]|(m' & E2 & R' & C' & O' & S')]; auto.
        * left. split; [exact E2|]. intros. destruct F2 as [_ F2]; lia.
        * right. exists m'. split; [exact E2|]. split; auto. split; [|split]; lia.
    - cbn [bind]. destruct (mr_ok _ _ R) as [?|[? [d ?]]]; [lia|].
      destruct (put_core_spec (S f) m l k v R) as [[E2 F2]|(m' & E2 & R' & C' & O' & S')]; [lia|auto| |].
      + left. split; [exact E2|]. intros. destruct F2 as [_ F2]; lia.
      + right. exists m'. split; [exact E2|]. split; auto. split; [|split]; lia.
  Qed.

  Lemma map_get_spec f m l k : mrep m l ->
    (map_get hash f m k = Fuel /\ f <= mcap m) \/ map_get hash f m k = Ok (lookup k l).
  Proof.
    intros R. unfold map_get. destruct (Nat.eqb_spec (mcap m) 0).
    - right. assert (l = []) as ->; [|reflexivity].
      pose proof (mr_perm _ _ R) as P. pose proof (mr_cap _ _ R) as C.
      destruct (mslots m); [|cbn in C; lia]. cbn in P. now apply Permutation_nil in P.
    - assert (H0 : 0 < mcap m) by lia. assert (Hh := home_lt hash _ k H0).
      assert (C := mr_cap _ _ R). assert (T := mr_inv _ _ R). assert (P := mr_perm _ _ R).
      assert (N := mr_nodup _ _ R).
      assert (DT : forall s, In s (mslots m) -> exists o, get_dec k s = Ok o).
      { intros s Hs. unfold get_dec. destruct (socc s) eqn:O; cbn; eauto.
        destruct (sdel s) eqn:D; cbn; eauto.
        destruct (ti_kv _ _ T s Hs) as [[k' v] E]; [unfold live; now rewrite O, D|].
        unfold kv_of. rewrite E. cbn. eauto. }
      assert (DN : forall s, get_dec k s = Ok None -> put_dec (V := V) k s = Ok None).
      { intros s. unfold get_dec, put_dec, kv_of. destruct (socc s), (sdel s); cbn; try discriminate; auto.
        destruct (skv s) as [[? ?]|]; cbn; try discriminate. destruct (beq_bytes b k); easy. }
      destruct (back_spec (get_dec k) (mslots m) (mcap m) (home hash (mcap m) k) (eq_sym C) Hh DT f)
        as [(i & r & Hi & A & B & E)|(B & E)]; rewrite E.
      + destruct (Nat.ltb_spec i f); [|left; split; [reflexivity|lia]]. cbn [bind]. right. f_equal.
        destruct A as (s & En & D). unfold get_dec in D. destruct (socc s) eqn:O; cbn in D.
        * destruct (sdel s) eqn:De; cbn in D; [discriminate|]. unfold kv_of in D.
          destruct (skv s) as [[k' v]|] eqn:S; cbn in D; [|discriminate].
          destruct (beq_bytes k' k) eqn:Q; [|discriminate]. injection D as <-.
          apply beq_bytes_true in Q. subst k'. symmetry. apply lookup_in; auto.
          eapply Permutation_in; [apply P|]. apply in_contents. do 2 eexists. split; [eauto|].
          unfold live. now rewrite O, De.
        * injection D as <-. symmetry. apply lookup_notin. intros I.
          eapply (notin_of_free m l k i s R H0 En O).
          -- intros j Hj. destruct (B j Hj) as (s' & E' & D'). eauto.
          -- eapply Permutation_in; [apply Permutation_map, Permutation_sym, P|auto].
      + destruct (Nat.leb_spec (mcap m) f); [|left; split; [reflexivity|lia]]. cbn [bind]. right. f_equal.
        symmetry. apply lookup_notin. intros I.
        destruct (notin_of_none m l k R H0) as [X _].
        * intros j Hj. destruct (B j Hj) as (s' & E' & D'). eauto.
        * apply X. eapply Permutation_in; [apply Permutation_map, Permutation_sym, P|auto].
  Qed.

  Lemma map_remove_spec f m l k r : mrep m l -> occs (mslots m) <= mlen m + r ->
    (map_remove hash f m k = Fuel /\
       (mcap m < f -> ~ In k (map fst l) /\ occs (mslots m) = mcap m /\ 1 < r)) \/
    exists m', map_remove hash f m k = Ok m' /\ mrep m' (without k l) /\
       occs (mslots m') <= mlen m' + S r /\ mcap m' = mcap m /\
       mstrs m' + mlen m = mstrs m + mlen m'.
  Proof.
    intros R HO. unfold map_remove. destruct (Nat.eqb_spec (mcap m) 0).
    - right. exists m. split; auto. assert (l = []) as ->.
      { pose proof (mr_perm _ _ R) as P. pose proof (mr_cap _ _ R) as C.
        destruct (mslots m); [|cbn in C; lia]. cbn in P. now apply Permutation_nil in P. }
      split; [auto|]. split; [lia|auto].
    - assert (H0 : 0 < mcap m) by lia. assert (Hh := home_lt hash _ k H0).
      assert (C := mr_cap _ _ R). assert (T := mr_inv _ _ R). assert (P := mr_perm _ _ R).
      assert (N := mr_nodup _ _ R).
      destruct (probe_spec (put_dec k) (mslots m) (mcap m) (home hash (mcap m) k) (eq_sym C) Hh (put_dec_ok k _ T) f)
        as [(i & b & Hi & A & B & E)|(B & E)]; change (remove_dec k) with (put_dec (V := V) k); rewrite E.
      2:{ left. split; [reflexivity|]. intros _. destruct (notin_of_none m l k R H0 B) as [I O].
          split; [|split; auto].
          - intros I'. apply I. eapply Permutation_in; [apply Permutation_map, Permutation_sym, P|auto].
          - destruct (mr_ok _ _ R) as [?|[? [d ?]]]; [lia|]. pose proof (mr_load _ _ R). lia. }
      destruct (Nat.ltb_spec i f); [|left; split; [reflexivity|lia]].
      cbn [bind]. destruct A as (s & En & D). right. destruct b.
      + unfold slot_at. rewrite En. cbn [bind]. apply put_dec_true in D as (L & v & S).
        assert (O : socc s = true) by (unfold live in L; now destruct (socc s)). rewrite O.
        eexists; split; [reflexivity|].
        destruct (tinv_delete hash (mslots m) _ k v s None T En L S) as (T' & P1).
        assert (Pl : Permutation l ((k, v) :: contents (upd (mslots m) (pos (mcap m) (home hash (mcap m) k) i) (mkslot true true None)))) by (rewrite <- P; auto).
        assert (Pw : Permutation (without k l) (contents (upd (mslots m) (pos (mcap m) (home hash (mcap m) k) i) (mkslot true true None)))).
        { rewrite (without_perm k _ _ Pl). rewrite without_cons; auto.
          eapply Permutation_NoDup; [apply Permutation_map, Pl|auto]. }
        pose proof (occs_upd (mslots m) _ _ (mkslot true true (@None (bytes * V))) En) as OO. rewrite O in OO.
        cbn [socc] in OO.
        assert (LL : length l = 1 + length (without k l)).
        { rewrite (Permutation_length Pl), (Permutation_length Pw). reflexivity. }
        pose proof (mr_len _ _ R). pose proof (mr_load _ _ R). pose proof (mr_strs _ _ R).
        split; [split; cbn [mslots mlen mcap mstrs]; try apply R; auto|]; cbn [mslots mlen mcap mstrs]; try lia.
        * now rewrite length_upd.
        * now apply Permutation_sym.
      + eexists; split; [reflexivity|]. apply put_dec_false in D.
        assert (I : ~ In k (map fst (contents (mslots m)))) by (eapply notin_of_free; eauto).
        rewrite without_notin; [split; [auto|repeat split; lia]|].
        intros I'. apply I. eapply Permutation_in; [apply Permutation_map, Permutation_sym, P|auto].
  Qed.

  (** ** free *)
  Lemma free_fold (t : list (slot bytes V)) : forall n,
    (forall s, In s t -> live s = true -> exists p, skv s = Some p) ->
    fold_left (fun r s => do n <- r; if socc s && negb (sdel s) then do _ <- kv_of s; Ok (n - 1) else Ok n) t (Ok n)
    = Ok (n - length (contents t)).
  Proof.
    induction t as [|s t IH]; intros n HK; cbn [fold_left].
    - cbn. now rewrite Nat.sub_0_r.
    - cbn [bind]. change (contents (s :: t)) with (item s ++ contents t). rewrite app_length.
      unfold item, live in *. destruct (socc s && negb (sdel s)) eqn:L.
      + destruct (HK s (or_introl eq_refl) L) as [p S]. unfold kv_of at 2. rewrite S. cbn [bind].
        rewrite IH by (intros; apply HK; auto; now right). f_equal. cbn. lia.
      + rewrite IH by (intros; apply HK; auto; now right). reflexivity.
  Qed.

  Lemma mrep_new : mrep map_new [].
  Proof.
    split; cbn; auto; try lia.
    - now left.
    - apply (tinv_free hash 0).
  Qed.

  Lemma map_free_spec m l : mrep m l ->
    exists m', map_free m = Ok m' /\ mrep m' [] /\ mstrs m' + mlen m = mstrs m /\ occs (mslots m') = 0.
  Proof.
    intros R. unfold map_free. rewrite free_fold by apply R. cbn.
    eexists; split; [reflexivity|]. split; [|split]; [|cbn|reflexivity].
    - pose proof mrep_new as N. destruct N. split; auto. cbn. lia.
    - rewrite (Permutation_length (mr_perm _ _ R)). pose proof (mr_len _ _ R). pose proof (mr_strs _ _ R). lia.
  Qed.

  (** ** Histories *)
  Definition rm (op : mop V) : nat := if is_remove op then 1 else 0.
  Definition puts (ops : list (mop V)) : nat :=
    length (filter (fun op => match op with MPut _ _ => true | _ => false end) ops).
  Definition grown (op : mop V) m : nat :=
    match op with MPut _ _ => if 3 * mcap m <=? 4 * mlen m then mlen m else 0 | _ => 0 end.

  Definition capb (op : mop V) m : nat :=
    match op with
    | MPut _ _ => if 3 * mcap m <=? 4 * mlen m then Nat.max 8 (2 * mcap m) else mcap m
    | _ => mcap m
    end.

  Lemma m_step_spec f m l op r : mrep m l -> occs (mslots m) <= mlen m + r ->
    (m_step hash f m op = Fuel /\ (2 * mcap m + 9 < f -> 2 < r + rm op)) \/
    exists m', m_step hash f m op = Ok (m', snd (mspec_step l op)) /\
      mrep m' (fst (mspec_step l op)) /\ occs (mslots m') <= mlen m' + (r + rm op) /\
      mcap m' <= capb op m /\ mstrs m' + mlen m = mstrs m + mlen m' + grown op m.
  Proof.
    intros R HO. pose proof (mr_len _ _ R) as L.
    destruct op; cbn [m_step mspec_step fst snd rm is_remove grown capb]; rewrite ?Nat.add_0_r.
    - destruct (map_put_spec f m l k v r R HO) as [[E F]|(m' & E & R' & O' & C' & S')]; rewrite E; cbn [bind].
      + left. auto.
      + right. exists m'. auto.
    - destruct (map_get_spec f m l k R) as [[E F]|E]; rewrite E; cbn [bind].
      + left. split; [auto|lia].
      + right. exists m. splits; auto; lia.
    - unfold map_contains. destruct (map_get_spec f m l k R) as [[E F]|E]; rewrite E; cbn [bind].
      + left. split; [auto|lia].
      + right. exists m. splits; auto; lia.
    - destruct (map_remove_spec f m l k r R HO) as [[E F]|(m' & E & R' & O' & C' & S')]; rewrite E; cbn [bind].
      + left. split; auto. intros. destruct F as (_ & _ & ?); lia.
      + right. exists m'. rewrite C'. splits; auto; lia.
    - right. exists m. unfold map_length. rewrite L at 1. splits; auto; lia.
    - right. exists m. unfold map_is_empty. rewrite L at 1. split; [destruct l; reflexivity|]. splits; auto; lia.
    - destruct (map_free_spec m l R) as (m' & E & R' & S' & O'). rewrite E. cbn [bind].
      right. exists m'. split; [reflexivity|]. split; [auto|]. pose proof (mr_len _ _ R').
      cbn in H. split; [lia|]. split; [|lia]. unfold map_free in E. apply bind_Ok in E as (n & _ & [= <-]). cbn [mcap]. lia.
  Qed.

  Lemma m_run_spec f ops : forall m l, mrep m l ->
    m_run hash f m ops = Fuel \/
    exists m', m_run hash f m ops = Ok (m', snd (mspec_run l ops)) /\ mrep m' (fst (mspec_run l ops)).
  Proof.
    induction ops as [|op ops IH]; intros m l R; cbn [m_run mspec_run].
    - right. eexists. eauto.
    - destruct (m_step_spec f m l op (occs (mslots m)) R) as [[E _]|(m1 & E & R1 & _)]; [lia| |]; rewrite E; cbn [bind].
      + now left.
      + destruct (mspec_step l op) as [l1 o]. cbn in R1. destruct (IH m1 l1 R1) as [F|(m2 & F & R2)]; rewrite F; cbn.
        * now left.
        * right. destruct (mspec_run l1 ops) as [l2 os]. cbn in *. eauto.
  Qed.

  Lemma m_run_terminates ops : forall f m l r, mrep m l -> occs (mslots m) <= mlen m + r ->
    r + removes ops <= 2 -> (mcap m + 8) * 2 ^ (length ops) + 10 < f ->
    m_run hash f m ops <> Fuel.
  Proof.
    induction ops as [|op ops IH]; intros f m l r R HO Hr Hf; cbn [m_run].
    - discriminate.
    - assert (HR : removes (op :: ops) = rm op + removes ops).
      { unfold removes, rm. cbn. destruct (is_remove op); reflexivity. }
      rewrite HR in Hr.
      assert (H1 : 1 <= 2 ^ length ops) by (apply (Nat.pow_le_mono_r 2 0); lia).
      replace (2 ^ length (op :: ops)) with (2 * 2 ^ length ops) in Hf by (cbn; lia).
      destruct (m_step_spec f m l op r R HO) as [[E F]|(m1 & E & R1 & O1 & C1 & _)]; rewrite E; cbn [bind].
      + exfalso. assert (2 < r + rm op); [apply F|lia]. nia.
      + assert (G : m_run hash f m1 ops <> Fuel).
        { assert (mcap m1 <= 2 * mcap m + 8) by (unfold capb in C1; destruct op; try lia; destruct (Nat.leb_spec (3 * mcap m) (4 * mlen m)); lia).
          eapply (IH f m1 _ (r + rm op)); eauto; [lia|]. nia. }
        destruct (m_run hash f m1 ops) as [[? ?]| | |]; cbn; congruence.
  Qed.

  (** ** Leaked key strings *)
  Lemma m_run_noleak f ops : forall m l m' outs, mrep m l -> mstrs m = mlen m -> (mcap m <= 8) ->
    mlen m + puts ops <= 6 -> m_run hash f m ops = Ok (m', outs) -> mstrs m' = mlen m' .
  Proof.
    induction ops as [|op ops IH]; intros m l m' outs R HS HC HP E; cbn [m_run] in E.
    - injection E as <- <-. auto.
    - destruct (m_step_spec f m l op (occs (mslots m)) R) as [[E1 _]|(m1 & E1 & R1 & _ & C1 & S1)]; [lia| |];
        rewrite E1 in E; cbn [bind] in E; [discriminate|].
      apply bind_Ok in E as ([m2 os] & E2 & [= <- <-]).
      assert (HPP : puts (op :: ops) = (match op with MPut _ _ => 1 | _ => 0 end) + puts ops).
      { unfold puts. cbn. destruct op; reflexivity. }
      assert (HR : match op with MPut _ _ => 3 * mcap m <= 4 * mlen m -> mcap m = 0 | _ => True end).
      { destruct op; auto. intros. destruct (mr_ok _ _ R) as [?|[? ?]]; lia. }
      pose proof (mr_load _ _ R).
      assert (G : grown op m = 0).
      { unfold grown. destruct op; auto. destruct (Nat.leb_spec (3 * mcap m) (4 * mlen m)); auto. lia. }
      pose proof (mr_len _ _ R) as L0. pose proof (mr_len _ _ R1) as L1.
      assert (L2 : mlen m1 <= mlen m + (match op with MPut _ _ => 1 | _ => 0 end)).
      { rewrite L1, L0. destruct op; cbn [mspec_step fst length]; try lia;
          pose proof (without_length k l); lia. }
      eapply (IH m1 _ m2 os R1); eauto; try lia.
      unfold capb in C1. destruct op; try lia.
      destruct (Nat.leb_spec (3 * mcap m) (4 * mlen m)); lia.
  Qed.

  (** ** Iteration *)
  Lemma iter_next_spec (m : hmap V) l : mrep m l -> 0 < mcap m -> forall f i, i <= mcap m ->
    mcap m - i < f ->
    exists it o, iter_next f (mkmi m i) = Ok (it, o) /\ iter_of it = m /\ i <= mi_idx it <= mcap m /\
      match o with
      | Some e => contents (skipn i (mslots m)) = e :: contents (skipn (mi_idx it) (mslots m)) /\ i < mi_idx it
      | None => contents (skipn i (mslots m)) = []
      end.
  Proof.
    intros R H0. induction f as [|f IH]; intros i Hi Hf; [lia|]. cbn [iter_next mi_idx iter_of].
    destruct (Nat.ltb_spec i (mcap m)).
    - rewrite (mr_cap _ _ R) in H. destruct (nth_error_lt (mslots m) i H) as [s Es].
      unfold slot_at. rewrite Es. cbn [bind].
      assert (Sk : skipn i (mslots m) = s :: skipn (i + 1) (mslots m)).
      { destruct (nth_error_split _ _ Es) as (a & b & -> & La). subst i.
        rewrite !skipn_app, Nat.sub_diag. replace (length a + 1 - length a) with 1 by lia.
        rewrite (skipn_all2 (n := length a)), (skipn_all2 (n := length a + 1)) by lia. reflexivity. }
      rewrite Sk. change (contents (s :: ?x)) with (item s ++ contents x).
      unfold item, live. destruct (socc s && negb (sdel s)) eqn:L.
      + destruct (ti_kv _ _ (mr_inv _ _ R) s (nth_error_In _ _ Es) L) as [[k v] E]. unfold kv_of. rewrite E.
        cbn [bind]. do 2 eexists. split; [reflexivity|]. cbn [iter_of mi_idx app].
        rewrite (mr_cap _ _ R). splits; auto; lia.
      + destruct (IH (i + 1)) as (it & o & E & I & B & C); [pose proof (mr_cap _ _ R); lia|pose proof (mr_cap _ _ R); lia|]. rewrite E.
        exists it, o. cbn [app]. splits; auto; try lia. destruct o; [|auto]. destruct C. split; auto. lia.
    - destruct (nth_error_lt (mslots m) 0) as [s Es]; [pose proof (mr_cap _ _ R); lia|].
      unfold slot_at. rewrite Es. cbn [bind]. do 2 eexists. split; [reflexivity|]. cbn [iter_of mi_idx].
      splits; auto; try lia. rewrite skipn_all2; [reflexivity|]. pose proof (mr_cap _ _ R). lia.
  Qed.

  Lemma iter_all_spec (m : hmap V) l : mrep m l -> 0 < mcap m -> forall f i, i <= mcap m ->
    mcap m - i < f -> iter_all f (mkmi m i) = Ok (contents (skipn i (mslots m))).
  Proof.
    intros R H0. induction f as [|f IH]; intros i Hi Hf; [lia|]. cbn [iter_all].
    destruct (iter_next_spec m l R H0 (S f) i Hi ltac:(lia)) as (it & o & E & I & B & C). rewrite E. cbn [bind].
    destruct o as [e|].
    - destruct C as [C Hlt]. destruct it as [m' j]. cbn in I, B, C, Hlt. subst m'.
      rewrite IH by lia. cbn. now rewrite C.
    - now rewrite C.
  Qed.

  (** Every slot: key_at tells the live keys. *)
  Lemma key_at_spec m l i : mrep m l ->
    exists o, map_key_at m i = Ok o /\
      (forall k, o = Some k -> In k (map fst l)) /\
      map_is_slot_occupied m i = Ok (match o with Some _ => true | None => false end).
  Proof.
    intros R. unfold map_key_at, map_is_slot_occupied. destruct (Nat.leb_spec (mcap m) i).
    - eexists; splits; eauto. discriminate.
    - rewrite (mr_cap _ _ R) in H. destruct (nth_error_lt _ _ H) as [s Es]. unfold slot_at. rewrite Es. cbn [bind].
      destruct (socc s) eqn:O; cbn [negb orb andb].
      + destruct (sdel s) eqn:D; cbn [negb orb andb].
        * eexists; splits; eauto. discriminate.
        * destruct (ti_kv _ _ (mr_inv _ _ R) s (nth_error_In _ _ Es)) as [[k v] E]; [unfold live; now rewrite O, D|].
          unfold kv_of. rewrite E. cbn [bind]. eexists; splits; eauto. intros k' [= <-].
          eapply Permutation_in; [apply Permutation_map, (mr_perm _ _ R)|].
          apply in_keys. exists v. apply in_contents. do 2 eexists. split; [eauto|]. unfold live. rewrite O, D. auto.
      + eexists; splits; eauto. discriminate.
  Qed.
End P.
