From Coq Require Import Permutation.
From Verif Require Import Common Hash_Model.

Section P.
  Context {K V : Type} (hash : K -> N).
  Implicit Types (t : list (slot K V)).

  Definition pos (cap h i : nat) : nat := (h + i) mod cap.

  Lemma home_lt cap (k : K) : 0 < cap -> home hash cap k < cap.
  Proof. intros. unfold home. lia. Qed.

  Lemma pos_lt cap h i : 0 < cap -> pos cap h i < cap.
  Proof. intros. apply Nat.mod_upper_bound. lia. Qed.

  Lemma pos_S cap h i : 0 < cap -> (pos cap h i + 1) mod cap = pos cap h (S i).
  Proof. intros. unfold pos. rewrite Nat.add_mod_idemp_l by lia. f_equal. lia. Qed.

  Lemma pos_0 cap h : h < cap -> pos cap h 0 = h.
  Proof. intros. unfold pos. rewrite Nat.add_0_r. now apply Nat.mod_small. Qed.

  Lemma pos_period cap h i : 0 < cap -> cap <= i -> pos cap h i = pos cap h (i - cap).
  Proof.
    intros. unfold pos. replace (h + i) with (h + (i - cap) + 1 * cap) by lia.
    now rewrite Nat.mod_add by lia.
  Qed.

  Lemma pos_inj cap h i j : h < cap -> i < cap -> j < cap -> pos cap h i = pos cap h j -> i = j.
  Proof.
    unfold pos. intros Hh Hi Hj E.
    assert (forall x, x < cap -> (h + x) mod cap = if h + x <? cap then h + x else h + x - cap) as M.
    { intros x Hx. destruct (Nat.ltb_spec (h + x) cap); [now apply Nat.mod_small|].
      replace (h + x) with (h + x - cap + 1 * cap) at 1 by lia. rewrite Nat.mod_add by lia.
      apply Nat.mod_small. lia. }
    rewrite !M in E by lia.
    destruct (Nat.ltb_spec (h + i) cap), (Nat.ltb_spec (h + j) cap); lia.
  Qed.

  Lemma pos_surj cap h p : h < cap -> p < cap -> exists i, i < cap /\ pos cap h i = p.
  Proof.
    intros. destruct (Nat.le_gt_cases h p).
    - exists (p - h). split; [lia|]. unfold pos. replace (h + (p - h)) with p by lia. now apply Nat.mod_small.
    - exists (cap + p - h). split; [lia|]. unfold pos. replace (h + (cap + p - h)) with (p + 1 * cap) by lia.
      rewrite Nat.mod_add by lia. now apply Nat.mod_small.
  Qed.

  Section L.
    Context {R : Type} (dec : slot K V -> res (option R)) (t : list (slot K V)) (cap h : nat).
    Hypothesis Hcap : length t = cap.
    Hypothesis Hh : h < cap.
    (** every slot can be examined *)
    Hypothesis Hdec : forall s, In s t -> exists o, dec s = Ok o.

    Definition at_ (i : nat) (o : option R) : Prop :=
      exists s, nth_error t (pos cap h i) = Some s /\ dec s = Ok o.

    Lemma at_total i : exists o, at_ i o.
    Proof.
      destruct (nth_error t (pos cap h i)) as [s|] eqn:E.
      - destruct (Hdec s) as [o Ho]; [eapply nth_error_In; eauto|]. exists o. exists s. auto.
      - apply nth_error_None in E. pose proof (pos_lt cap h i). lia.
    Qed.

    Lemma at_fun i o o' : at_ i o -> at_ i o' -> o = o'.
    Proof. intros (s & E & D) (s' & E' & D'). congruence. Qed.

    Lemma first_hit n :
      (forall i, i < n -> at_ i None) \/
      exists i r, i < n /\ at_ i (Some r) /\ forall j, j < i -> at_ j None.
    Proof.
      induction n as [|n [IH|(i & r & ? & ? & ?)]].
      - left; lia.
      - destruct (at_total n) as [[r|] A].
        + right. exists n, r. auto.
        + left. intros i Hi. destruct (Nat.eq_dec i n); [now subst|]. apply IH. lia.
      - right. exists i, r. split; auto.
    Qed.

    Lemma hit_lt_cap i r : at_ i (Some r) -> (forall j, j < i -> at_ j None) -> i < cap.
    Proof.
      intros A B. destruct (Nat.lt_ge_cases i cap); auto. exfalso.
      assert (at_ (i - cap) (Some r)).
      { destruct A as (s & E & D). exists s. rewrite <- pos_period by lia. auto. }
      assert (N := B (i - cap) ltac:(lia)). pose proof (at_fun _ _ _ H0 N). discriminate.
    Qed.

    Lemma probe_from n : forall i0 i r,
      (forall j, i0 <= j < i -> at_ j None) -> i0 <= i -> at_ i (Some r) ->
      probe dec t cap n (pos cap h i0) =
      if i - i0 <? n then Ok (pos cap h i, r) else Fuel.
    Proof.
      induction n; intros i0 i r B Hi A; [reflexivity|]. cbn [probe].
      destruct (Nat.eq_dec i0 i) as [<-|].
      - destruct A as (s & E & D). unfold slot_at. rewrite E. cbn [bind]. rewrite D. cbn [bind].
        destruct (Nat.ltb_spec (i0 - i0) (S n)); [reflexivity|lia].
      - destruct (B i0) as (s & E & D); [lia|]. unfold slot_at. rewrite E. cbn [bind]. rewrite D. cbn [bind].
        rewrite pos_S by lia. rewrite (IHn (S i0) i r); auto; [|intros; apply B; lia|lia].
        destruct (Nat.ltb_spec (i - S i0) n), (Nat.ltb_spec (i - i0) (S n)); auto; lia.
    Qed.

    Lemma probe_none n : forall i0, (forall j, j < cap -> at_ j None) ->
      probe dec t cap n (pos cap h i0) = Fuel.
    Proof.
      induction n; intros i0 B; [reflexivity|]. cbn [probe].
      assert (at_ i0 None) as (s & E & D).
      { destruct (pos_surj cap h (pos cap h i0)) as (j & Hj & E); auto; [apply pos_lt; lia|].
        destruct (B j Hj) as (s & E' & D). exists s. rewrite <- E. auto. }
      unfold slot_at. rewrite E. cbn [bind]. rewrite D. cbn [bind]. rewrite pos_S by lia. auto.
    Qed.

    (** The unchecked loop: stops at the first hit, or never. *)
    Lemma probe_spec n :
      (exists i r, i < cap /\ at_ i (Some r) /\ (forall j, j < i -> at_ j None) /\
         probe dec t cap n h = if i <? n then Ok (pos cap h i, r) else Fuel)
      \/ ((forall j, j < cap -> at_ j None) /\ forall n, probe dec t cap n h = Fuel).
    Proof.
      destruct (first_hit cap) as [N|(i & r & Hi & A & B)].
      - right. split; auto. intros m. rewrite <- (pos_0 cap h) by auto. now apply probe_none.
      - left. exists i, r. repeat split; auto.
        rewrite <- (pos_0 cap h) at 1 by auto. rewrite (probe_from n 0 i r); auto; [|intros; apply B; lia|lia].
        now rewrite Nat.sub_0_r.
    Qed.

    Lemma back_from n : forall i0,
      i0 < cap ->
      (forall i r, i0 <= i < cap -> (forall j, i0 <= j < i -> at_ j None) -> at_ i (Some r) ->
         probe_back dec t cap n h (pos cap h i0) = if i - i0 <? n then Ok (Some (pos cap h i, r)) else Fuel)
      /\ ((forall j, i0 <= j < cap -> at_ j None) ->
          probe_back dec t cap n h (pos cap h i0) = if cap - S i0 <? n then Ok None else Fuel).
    Proof.
      induction n; intros i0 Hi0; [split; intros; reflexivity|]. cbn [probe_back]. split.
      - intros i r Hi B A. destruct (Nat.eq_dec i0 i) as [<-|].
        + destruct A as (s & E & D). unfold slot_at. rewrite E. cbn [bind]. rewrite D. cbn [bind].
          destruct (Nat.ltb_spec (i0 - i0) (S n)); [reflexivity|lia].
        + destruct (B i0) as (s & E & D); [lia|]. unfold slot_at. rewrite E. cbn [bind]. rewrite D. cbn [bind].
          rewrite pos_S by lia.
          destruct (Nat.eqb_spec (pos cap h (S i0)) h) as [X|_].
          { exfalso. rewrite <- (pos_0 cap h) in X at 2 by auto. apply pos_inj in X; auto; lia. }
          rewrite (proj1 (IHn (S i0) ltac:(lia)) i r); auto; [|lia|intros; apply B; lia].
          destruct (Nat.ltb_spec (i - S i0) n), (Nat.ltb_spec (i - i0) (S n)); auto; lia.
      - intros B. destruct (B i0) as (s & E & D); [lia|]. unfold slot_at. rewrite E. cbn [bind]. rewrite D. cbn [bind].
        rewrite pos_S by lia.
        destruct (Nat.eq_dec (S i0) cap) as [X|X].
        + rewrite pos_period, X, Nat.sub_diag, pos_0, Nat.eqb_refl by lia.
          destruct (Nat.ltb_spec (cap - cap) (S n)); [reflexivity|lia].
        + destruct (Nat.eqb_spec (pos cap h (S i0)) h) as [Y|_].
          { exfalso. rewrite <- (pos_0 cap h) in Y at 2 by auto. apply pos_inj in Y; auto; lia. }
          rewrite (proj2 (IHn (S i0) ltac:(lia))); [|intros; apply B; lia].
          destruct (Nat.ltb_spec (cap - S (S i0)) n), (Nat.ltb_spec (cap - S i0) (S n)); auto; lia.
    Qed.

    (** The checked loop: the first hit, or none after a full round. *)
    Lemma back_spec n :
      (exists i r, i < cap /\ at_ i (Some r) /\ (forall j, j < i -> at_ j None) /\
         probe_back dec t cap n h h = if i <? n then Ok (Some (pos cap h i, r)) else Fuel)
      \/ ((forall j, j < cap -> at_ j None) /\
          probe_back dec t cap n h h = if cap <=? n then Ok None else Fuel).
    Proof.
      destruct (back_from n 0) as [A B]; [lia|].
      rewrite pos_0 in A, B by auto.
      destruct (first_hit cap) as [N|(i & r & Hi & H1 & H2)].
      - right. split; auto. rewrite B; [|intros; apply N; lia].
        destruct (Nat.ltb_spec (cap - 1) n), (Nat.leb_spec cap n); auto; lia.
      - left. exists i, r. repeat split; auto. rewrite (A i r); auto; [|lia|intros; apply H2; lia].
        now rewrite Nat.sub_0_r.
    Qed.
  End L.

  (** ** Contents *)
  Definition item (s : slot K V) : list (K * V) :=
    if live s then match skv s with Some p => [p] | None => [] end else [].

  Definition contents t : list (K * V) := flat_map item t.

  Lemma contents_app t1 t2 : contents (t1 ++ t2) = contents t1 ++ contents t2.
  Proof. apply flat_map_app. Qed.

  Lemma contents_split t i s : nth_error t i = Some s ->
    exists t1 t2, t = t1 ++ s :: t2 /\ length t1 = i /\
      contents t = contents t1 ++ item s ++ contents t2 /\
      forall s', upd t i s' = t1 ++ s' :: t2 /\ contents (upd t i s') = contents t1 ++ item s' ++ contents t2.
  Proof.
    intros E. destruct (nth_error_split _ _ E) as (t1 & t2 & -> & L).
    exists t1, t2. repeat split; auto.
    - now rewrite contents_app.
    - now apply upd_middle'.
    - rewrite upd_middle' by auto. now rewrite contents_app.
  Qed.

  Lemma contents_repeat n : contents (repeat sfree0 n) = [].
  Proof. induction n; cbn; auto. Qed.

  (** ** Invariant *)
  Record tinv (t : list (slot K V)) : Prop := {
    ti_kv : forall s, In s t -> live s = true -> exists p, skv s = Some p;
    ti_nodup : NoDup (map fst (contents t));
    ti_reach : forall i k v s, i < length t ->
      nth_error t (pos (length t) (home hash (length t) k) i) = Some s ->
      live s = true -> skv s = Some (k, v) ->
      forall j, j < i -> exists s', nth_error t (pos (length t) (home hash (length t) k) j) = Some s' /\ socc s' = true }.

  Lemma tinv_free n : tinv (repeat sfree0 n).
  Proof.
    split.
    - intros s H L. apply repeat_spec in H. subst. discriminate.
    - rewrite contents_repeat. constructor.
    - intros i k v s Hi E L. apply nth_error_In, repeat_spec in E. subst. discriminate.
  Qed.

  Lemma in_contents t p : In p (contents t) <-> exists i s, nth_error t i = Some s /\ live s = true /\ skv s = Some p.
  Proof.
    unfold contents. rewrite in_flat_map. split.
    - intros (s & H & I). unfold item in I. destruct (live s) eqn:L; [|easy].
      destruct (skv s) eqn:E; [|easy]. destruct I as [<-|[]].
      apply In_nth_error in H as [i H]. eauto.
    - intros (i & s & E & L & S). exists s. split; [eapply nth_error_In; eauto|].
      unfold item. rewrite L, S. now left.
  Qed.

  Lemma live_unique t i j s s' k v v' : tinv t ->
    nth_error t i = Some s -> live s = true -> skv s = Some (k, v) ->
    nth_error t j = Some s' -> live s' = true -> skv s' = Some (k, v') -> i = j.
  Proof.
    intros T E L S E' L' S'.
    assert (forall i j s s' v v', i < j -> nth_error t i = Some s -> live s = true -> skv s = Some (k, v) ->
       nth_error t j = Some s' -> live s' = true -> skv s' = Some (k, v') -> False) as W.
    { clear - T. intros i j s s' v v' Hij E L S E' L' S'.
      destruct (contents_split t i s E) as (t1 & t2 & -> & Hl & C & _).
      pose proof (ti_nodup _ T) as N. rewrite C in N. unfold item in N. rewrite L, S in N.
      rewrite !map_app in N. cbn in N. apply NoDup_remove_2 in N. apply N. clear N.
      apply in_app_iff. right. apply in_map_iff. exists (k, v'). split; auto.
      apply in_contents. rewrite nth_error_app2 in E' by lia.
      replace (j - length t1) with (1 + (j - length t1 - 1)) in E' by lia. cbn in E'. eauto. }
    destruct (Nat.lt_total i j) as [?|[?|?]]; auto; exfalso; eauto.
  Qed.

  (** Making the slot at distance [i] from the home of [k] live with key [k], when all
      slots before it are occupied and no other live slot has key [k]. *)
  Lemma tinv_insert t i k v s :
    tinv t -> i < length t ->
    nth_error t (pos (length t) (home hash (length t) k) i) = Some s ->
    live s = false ->
    (forall j, j < i -> exists s', nth_error t (pos (length t) (home hash (length t) k) j) = Some s' /\ socc s' = true) ->
    ~ In k (map fst (contents t)) ->
    let t' := upd t (pos (length t) (home hash (length t) k) i) (mkslot true false (Some (k, v))) in
    tinv t' /\ Permutation (contents t') ((k, v) :: contents t).
  Proof.
    intros T Hi E L B N t'. set (p := pos _ _ i) in *.
    assert (P : Permutation (contents t') ((k, v) :: contents t)).
    { destruct (contents_split t p s E) as (t1 & t2 & _ & _ & C & U).
      unfold t'. rewrite (proj2 (U _)), C. unfold item at 2. rewrite L. cbn.
      apply Permutation_sym, Permutation_middle. }
    split; auto. split.
    - intros s' Hs' L'. apply In_nth_error in Hs' as [j Hj]. unfold t' in Hj.
      rewrite nth_error_upd in Hj. destruct ((p =? j) && (p <? length t)).
      + injection Hj as <-. cbn. eauto.
      + eapply (ti_kv _ T); eauto. eapply nth_error_In; eauto.
    - apply (Permutation_NoDup (l := map fst ((k, v) :: contents t))).
      + apply Permutation_sym. now apply Permutation_map.
      + cbn. constructor; auto. apply T.
    - unfold t'. rewrite length_upd. intros i' k' v' s' Hi' E' L' S' j Hj.
      rewrite nth_error_upd in E' |- *.
      destruct ((p =? pos (length t) (home hash (length t) k') j) && (p <? length t)) eqn:Q.
      { eexists; split; [reflexivity|]. reflexivity. }
      destruct ((p =? pos (length t) (home hash (length t) k') i') && (p <? length t)) eqn:Q2.
      + injection E' as <-. cbn in S'. injection S' as <- <-.
        apply B. apply andb_true_iff in Q2 as [Q2 _]. apply Nat.eqb_eq in Q2. unfold p in Q2.
        apply pos_inj in Q2; auto; [lia|apply home_lt; lia].
      + eapply (ti_reach _ T); eauto.
  Qed.

  (** Overwriting the value of a live slot. *)
  Lemma tinv_replace t p k v v' s :
    tinv t -> nth_error t p = Some s -> live s = true -> skv s = Some (k, v') ->
    let t' := upd t p (mkslot true false (Some (k, v))) in
    tinv t' /\
    exists c, Permutation (contents t) ((k, v') :: c) /\ Permutation (contents t') ((k, v) :: c).
  Proof.
    intros T E L S t'.
    destruct (contents_split t p s E) as (t1 & t2 & Ht & Hl & C & U).
    assert (C2 : contents t' = contents t1 ++ (k, v) :: contents t2).
    { unfold t'. rewrite (proj2 (U _)). reflexivity. }
    assert (C1 : contents t = contents t1 ++ (k, v') :: contents t2).
    { rewrite C. unfold item. rewrite L, S. reflexivity. }
    split.
    - split.
      + intros s' Hs' L'. apply In_nth_error in Hs' as [j Hj]. unfold t' in Hj.
        rewrite nth_error_upd in Hj. destruct ((p =? j) && (p <? length t)).
        * injection Hj as <-. cbn. eauto.
        * eapply (ti_kv _ T); eauto. eapply nth_error_In; eauto.
      + pose proof (ti_nodup _ T) as N. rewrite C1 in N. rewrite C2. rewrite !map_app in *. exact N.
      + unfold t'. rewrite length_upd. intros i' k' w s' Hi' E' L' S' j Hj.
        rewrite nth_error_upd in E' |- *.
        destruct ((p =? pos (length t) (home hash (length t) k') j) && (p <? length t)) eqn:Q.
        { eexists; split; reflexivity. }
        destruct ((p =? pos (length t) (home hash (length t) k') i') && (p <? length t)) eqn:Q2.
        * injection E' as <-. cbn in S'. injection S' as <- <-.
          apply andb_true_iff in Q2 as [Q2 _]. apply Nat.eqb_eq in Q2. rewrite Q2 in E.
          eapply (ti_reach _ T); eauto.
        * eapply (ti_reach _ T); eauto.
    - exists (contents t1 ++ contents t2). rewrite C1, C2. split; apply Permutation_sym, Permutation_middle.
  Qed.

  (** Turning a live slot into a tombstone. *)
  Lemma tinv_delete t p k v s o :
    tinv t -> nth_error t p = Some s -> live s = true -> skv s = Some (k, v) ->
    let t' := upd t p (mkslot true true o) in
    tinv t' /\ Permutation (contents t) ((k, v) :: contents t').
  Proof.
    intros T E L S t'.
    destruct (contents_split t p s E) as (t1 & t2 & Ht & Hl & C & U).
    assert (C2 : contents t' = contents t1 ++ contents t2).
    { unfold t'. rewrite (proj2 (U _)). reflexivity. }
    assert (C1 : contents t = contents t1 ++ (k, v) :: contents t2).
    { rewrite C. unfold item. rewrite L, S. reflexivity. }
    split.
    - split.
      + intros s' Hs' L'. apply In_nth_error in Hs' as [j Hj]. unfold t' in Hj.
        rewrite nth_error_upd in Hj. destruct ((p =? j) && (p <? length t)).
        * injection Hj as <-. discriminate.
        * eapply (ti_kv _ T); eauto. eapply nth_error_In; eauto.
      + pose proof (ti_nodup _ T) as N. rewrite C1 in N. rewrite C2. rewrite !map_app in *.
        cbn in N. now apply NoDup_remove_1 in N.
      + unfold t'. rewrite length_upd. intros i' k' w s' Hi' E' L' S' j Hj.
        rewrite nth_error_upd in E' |- *.
        destruct ((p =? pos (length t) (home hash (length t) k') j) && (p <? length t)) eqn:Q.
        { eexists; split; reflexivity. }
        destruct ((p =? pos (length t) (home hash (length t) k') i') && (p <? length t)) eqn:Q2.
        * injection E' as <-. discriminate.
        * eapply (ti_reach _ T); eauto.
    - rewrite C1, C2. apply Permutation_sym, Permutation_middle.
  Qed.

  (** A key that is live somewhere is met before any free slot. *)
  Lemma reach_before_free t k v p s i s0 :
    tinv t -> 0 < length t ->
    nth_error t p = Some s -> live s = true -> skv s = Some (k, v) ->
    nth_error t (pos (length t) (home hash (length t) k) i) = Some s0 -> socc s0 = false ->
    exists j, j < i /\ pos (length t) (home hash (length t) k) j = p.
  Proof.
    intros T H0 E L S E0 F.
    assert (Hh := home_lt (length t) k H0).
    assert (p < length t) by (apply nth_error_Some; congruence).
    destruct (pos_surj (length t) (home hash (length t) k) p) as (j & Hj & Q); auto.
    exists j. split; auto. destruct (Nat.lt_ge_cases j i); auto. exfalso.
    destruct (Nat.eq_dec i j).
    - subst i. rewrite Q in E0. unfold live in L. rewrite E in E0. injection E0 as ->. now rewrite F in L.
    - rewrite <- Q in E. destruct (ti_reach _ T j k v s Hj E L S i ltac:(lia)) as (s' & E' & O).
      congruence.
  Qed.

  (** number of occupied slots *)
  Definition occs t : nat := length (filter socc t).

  Lemma occs_le t : occs t <= length t.
  Proof. unfold occs. induction t; cbn; auto. destruct (socc a); cbn; lia. Qed.

  Lemma occs_free t : occs t < length t -> exists p s, nth_error t p = Some s /\ socc s = false.
  Proof.
    unfold occs. induction t as [|a t IH]; cbn; [lia|]. destruct (socc a) eqn:E; cbn; intros.
    - destruct IH as (p & s & ? & ?); [lia|]. exists (S p), s. auto.
    - exists 0, a. auto.
  Qed.

  Lemma occs_upd t p s s' : nth_error t p = Some s ->
    occs (upd t p s') + (if socc s then 1 else 0) = occs t + (if socc s' then 1 else 0).
  Proof.
    unfold occs. revert p. induction t as [|a t IH]; intros [|p] E; cbn in *; try discriminate.
    - injection E as ->. destruct (socc s), (socc s'); cbn; lia.
    - specialize (IH p E). destruct (socc a); cbn; lia.
  Qed.

  Lemma occs_full t : occs t = length t -> forall s, In s t -> socc s = true.
  Proof.
    unfold occs. induction t as [|a t IH]; cbn; intros H s; [easy|].
    destruct (socc a) eqn:E; cbn in H.
    - intros [<-|I]; [exact E|]. apply IH; [lia|exact I].
    - exfalso. pose proof (occs_le t). unfold occs in H0. lia.
  Qed.

  Lemma contents_length_le t : length (contents t) <= occs t.
  Proof.
    unfold contents, occs. induction t as [|a t IH]; cbn [flat_map filter]; auto. rewrite app_length.
    unfold item at 1, live. destruct (socc a); cbn [andb length]; [|lia].
    destruct (sdel a); cbn [negb length]; [lia|]. destruct (skv a); cbn [length]; lia.
  Qed.

  Lemma occs_repeat n : occs (repeat sfree0 n) = 0.
  Proof. unfold occs. induction n; cbn; auto. Qed.
End P.
Global Arguments contents : simpl never.
Global Arguments occs : simpl never.
Global Arguments pos : simpl never.
