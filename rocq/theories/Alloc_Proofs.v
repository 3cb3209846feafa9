From Verif Require Import Common Alloc_Model Alloc_Spec.
Local Open Scope N_scope.

Definition len {A} (l : list A) : N := N.of_nat (length l).

(** Little-endian numbers *)
Lemma to_le_len n v : length (to_le n v) = n.
Proof. revert v. induction n as [|n IH]; intros v; cbn; [reflexivity|]. now rewrite IH. Qed.
Lemma of_to_le n : forall v, v < 256 ^ N.of_nat n -> of_le (to_le n v) = v.
Proof.
  induction n as [|n IH]; intros v L; cbn [to_le of_le]; [cbn in L; lia|].
  rewrite Nat2N.inj_succ, N.pow_succ_r' in L. rewrite IH by (apply N.div_lt_upper_bound; lia).
  pose proof (N.div_mod v 256 ltac:(lia)). lia.
Qed.

(** Memory *)
Definition same (st st' : state) : Prop := rooms st' = rooms st /\ cap st' = cap st /\ used st' = used st.
Lemma store_list_ok l : forall st b o r, nth_error (rooms st) b = Some r -> o + len l <= r ->
  exists st', store_list st b o l = Ok st' /\ same st st'
  /\ forall b' o', mem st' b' o' = if (Nat.eqb b' b && (o <=? o') && (o' <? o + len l))%bool then nth (N.to_nat (o' - o)) l 0 else mem st b' o'.
Proof.
  unfold len. induction l as [|v l IH]; intros st b o r R L.
  - exists st. cbn [store_list length N.of_nat]. split; [reflexivity|]. split; [split; [reflexivity|split; reflexivity]|]. intros b' o'.
    destruct (N.leb_spec o o'), (N.ltb_spec o' (o + 0)); try lia; rewrite ?andb_false_r; cbn; rewrite ?andb_false_r; reflexivity.
  - cbn [length] in *. cbn [store_list]. unfold store. rewrite R. destruct (N.ltb_spec o r); [|lia]. cbn [bind].
    set (st1 := {| mem := _; rooms := _; cap := _; used := _ |}).
    destruct (IH st1 b (o + 1) r R) as (st' & E & (S1 & S2 & S3) & M); [lia|]. exists st'. split; [exact E|]. split; [split; [|split]; assumption|].
    intros b' o'. rewrite M. unfold st1. cbn [mem]. destruct (Nat.eqb_spec b' b) as [->|]; [|reflexivity]. cbn [andb].
    destruct (N.leb_spec (o + 1) o'), (N.ltb_spec o' (o + 1 + N.of_nat (length l))), (N.eqb_spec o' o), (N.leb_spec o o'), (N.ltb_spec o' (o + N.of_nat (S (length l)))); try lia; cbn [andb]; try reflexivity.
    + replace (N.to_nat (o' - o)) with (S (N.to_nat (o' - (o + 1)))) by lia. reflexivity.
    + subst o'. replace (N.to_nat (o - o)) with 0%nat by lia. reflexivity.
Qed.
Lemma load_list_ok n : forall st b o r, nth_error (rooms st) b = Some r -> o + N.of_nat n <= r ->
  load_list st b o n = Ok (map (fun j => mem st b (o + N.of_nat j)) (seq 0 n)).
Proof.
  induction n as [|n IH]; intros st b o r R L; [reflexivity|]. cbn [load_list]. unfold load. rewrite R.
  destruct (N.ltb_spec o r); [|lia]. cbn [bind]. rewrite (IH st b (o + 1) r R) by lia. cbn [bind seq map]. rewrite N.add_0_r.
  do 2 f_equal. rewrite <- seq_shift, map_map. apply map_ext. intros j. f_equal. lia.
Qed.

(** The invariant: [loc] gives the place of each array *)
Record good (st : state) (b : nat) (o : N) (a : array) : Prop := {
  g_low : 8 <= o;
  g_aligned : o mod 8 = 0;
  g_room : exists r, nth_error (rooms st) b = Some r /\ o + len a <= r;
  g_used : S b = length (rooms st) -> o + len a <= used st;
  g_size : len a < 2 ^ 62;
  g_header : forall j, (j < 8)%nat -> mem st b (o - 8 + N.of_nat j) = nth j (to_le 8 (len a)) 0;
  g_data : forall k v, nth_error a k = Some (Some v) -> mem st b (o + N.of_nat k) = v
}.
Record inv (st : state) (loc : list ptr) (arrs : list array) : Prop := {
  i_len : length loc = length arrs;
  i_cur : (rooms st = [] /\ arrs = []) \/ (exists rs, rooms st = rs ++ [cap st]) /\ used st <= cap st /\ cap st < 2 ^ 63 /\ used st mod 8 = 0;
  i_good : forall i b o a, nth_error loc i = Some (b, o) -> nth_error arrs i = Some a -> good st b o a;
  i_disj : forall i j b o o' a a', i <> j -> nth_error loc i = Some (b, o) -> nth_error loc j = Some (b, o') ->
           nth_error arrs i = Some a -> nth_error arrs j = Some a' -> o + len a <= o' - 8 \/ o' + len a' <= o - 8
}.

Lemma nth_error_snoc {A} (l : list A) x i y : nth_error (l ++ [x]) i = Some y -> (i < length l)%nat /\ nth_error l i = Some y \/ i = length l /\ y = x.
Proof.
  intros E. destruct (Nat.lt_ge_cases i (length l)) as [L|L].
  - rewrite nth_error_app1 in E by assumption. auto.
  - rewrite nth_error_app2 in E by assumption. right. assert (K : (i - length l < length [x])%nat) by (apply nth_error_Some; congruence).
    cbn in K. replace (i - length l)%nat with 0%nat in E by lia. cbn in E. split; [lia|congruence].
Qed.
Lemma set_len {A} (l : list A) i x : (i < length l)%nat -> length (set l i x) = length l.
Proof. intros L. unfold set. rewrite app_length, firstn_length. cbn [length]. rewrite skipn_length. lia. Qed.
Lemma set_nth {A} (l : list A) i x j : (i < length l)%nat -> nth_error (set l i x) j = if Nat.eqb j i then Some x else nth_error l j.
Proof.
  intros L. unfold set. destruct (Nat.eqb_spec j i) as [->|N].
  - rewrite nth_error_app2; rewrite firstn_length; [|lia]. replace (i - Nat.min i (length l))%nat with 0%nat by lia. reflexivity.
  - destruct (Nat.lt_ge_cases j i) as [J|J].
    + rewrite nth_error_app1 by (rewrite firstn_length; lia). rewrite nth_error_firstn. destruct (Nat.ltb_spec j i); [reflexivity|lia].
    + rewrite nth_error_app2; rewrite firstn_length; [|lia]. replace (j - Nat.min i (length l))%nat with (S (j - S i)) by lia. cbn [nth_error].
      rewrite nth_error_skipn. f_equal. lia.
Qed.

(** Writing into one array changes no other *)
Lemma write_array st loc arrs x b o a a' i l :
  inv st loc arrs -> nth_error loc x = Some (b, o) -> nth_error arrs x = Some a ->
  i + len l <= len a -> length a' = length a ->
  (forall k v, nth_error a' k = Some (Some v) ->
     i <= N.of_nat k < i + len l /\ nth_error l (k - N.to_nat i) = Some v \/
     ~ (i <= N.of_nat k < i + len l) /\ nth_error a k = Some (Some v)) ->
  exists st', store_list st b (o + i) l = Ok st' /\ inv st' loc (set arrs x a').
Proof.
  intros I LX AX L LA H. destruct (i_good _ _ _ I x b o a LX AX) as [G1 G2 (r & R & G3) G4 G5 G6 G7].
  assert (XL : (x < length arrs)%nat) by (apply nth_error_Some; congruence).
  destruct (store_list_ok l st b (o + i) r R) as (st' & E & (S1 & S2 & S3) & M); [lia|]. exists st'. split; [exact E|].
  assert (LE : len a' = len a) by (unfold len; now rewrite LA).
  constructor.
  - rewrite set_len by assumption. apply (i_len _ _ _ I).
  - rewrite S1, S2, S3. destruct (i_cur _ _ _ I) as [[C1 C2]|C]; [|right; exact C]. subst arrs. destruct x; discriminate.
  - intros j b' o' c LJ AJ. rewrite set_nth in AJ by assumption. destruct (Nat.eqb_spec j x) as [->|NX].
    + injection AJ as <-. rewrite LX in LJ. injection LJ as <- <-. constructor; auto.
      * rewrite S1. exists r. now rewrite LE.
      * now rewrite S1, S3, LE.
      * now rewrite LE.
      * intros j J. rewrite M. replace (o + i <=? o - 8 + N.of_nat j) with false by (symmetry; apply N.leb_gt; lia). rewrite andb_false_r. cbn [andb].
        rewrite LE. now apply G6.
      * intros k v K. rewrite M. rewrite Nat.eqb_refl. cbn [andb]. destruct (H k v K) as [[Q P]|[Q P]].
        -- replace (o + i <=? o + N.of_nat k) with true by (symmetry; apply N.leb_le; lia).
           replace (o + N.of_nat k <? o + i + len l) with true by (symmetry; apply N.ltb_lt; lia). cbn [andb].
           replace (N.to_nat (o + N.of_nat k - (o + i))) with (k - N.to_nat i)%nat by lia. now apply nth_error_nth.
        -- assert (X : ((o + i <=? o + N.of_nat k) && (o + N.of_nat k <? o + i + len l))%bool = false).
           { apply andb_false_iff. destruct (N.leb_spec (o + i) (o + N.of_nat k)); [right; apply N.ltb_ge; lia|now left]. }
           rewrite X. now apply G7.
    + destruct (i_good _ _ _ I j b' o' c LJ AJ) as [F1 F2 (r' & R' & F3) F4 F5 F6 F7].
      assert (D : b' = b -> o + len a <= o' - 8 \/ o' + len c <= o - 8).
      { intros ->. apply (i_disj _ _ _ I x j b o o' a c); auto. }
      assert (FR : forall q, o' - 8 <= q < o' + len c -> mem st' b' q = mem st b' q).
      { intros q Q. rewrite M. destruct (Nat.eqb_spec b' b) as [->|]; [|reflexivity]. cbn [andb]. specialize (D eq_refl).
        destruct (N.leb_spec (o + i) q), (N.ltb_spec q (o + i + len l)); try reflexivity. exfalso. lia. }
      constructor; auto.
      * rewrite S1. eauto.
      * now rewrite S1, S3.
      * intros y Y. rewrite FR by lia. now apply F6.
      * intros k v K. assert (KL : (k < length c)%nat) by (apply nth_error_Some; congruence). rewrite FR by (unfold len; lia). now apply F7.
  - intros i1 i2 b' o1 o2 c1 c2 NE L1 L2 A1 A2. rewrite set_nth in A1, A2 by assumption.
    assert (W : forall y c, (if Nat.eqb y x then Some a' else nth_error arrs y) = Some c -> exists c', nth_error arrs y = Some c' /\ len c' = len c).
    { intros y c K. destruct (Nat.eqb_spec y x) as [->|]; [injection K as <-; eauto|eauto]. }
    destruct (W _ _ A1) as (d1 & D1 & <-), (W _ _ A2) as (d2 & D2 & <-). eapply (i_disj _ _ _ I i1 i2); eauto.
Qed.

Section M.
Variable malloc_ok : nat -> N -> bool.

Lemma ldiff7 x : N.ldiff x 7 = x / 8 * 8.
Proof. change 7 with (N.ones 3). rewrite N.ldiff_ones_r, N.shiftl_mul_pow2, N.shiftr_div_pow2. reflexivity. Qed.

(** A new array *)
Lemma alloc_array st loc arrs n : inv st loc arrs -> size_ok n ->
  arena_alloc_raw malloc_ok st n = Panic \/
  exists st' b o, arena_alloc_raw malloc_ok st n = Ok (st', (b, o))
  /\ inv st' (loc ++ [(b, o)]) (arrs ++ [repeat None (N.to_nat n)]).
Proof.
  intros I SZ. unfold size_ok in SZ. change (2 ^ 62) with 4611686018427387904 in SZ. unfold arena_alloc_raw.
  assert (W : wrap (n + 8) = n + 8) by (unfold wrap; apply N.mod_small; change (2 ^ 64) with 18446744073709551616; lia). rewrite W.
  assert (W2 : wrap (n + 8 + 7) = n + 15) by (unfold wrap; rewrite N.mod_small; [lia|change (2 ^ 64) with 18446744073709551616; lia]). rewrite W2.
  rewrite ldiff7. remember ((n + 15) / 8 * 8) as act.
  pose proof (N.div_mod (n + 15) 8 ltac:(lia)) as DM. pose proof (N.mod_lt (n + 15) 8 ltac:(lia)) as ML.
  assert (A1 : n + 8 <= act <= n + 15) by lia.
  assert (A2 : act mod 8 = 0) by (subst act; apply N.mod_mul; lia).
  (* the block that is used *)
  assert (B : (exists st1, (if Nat.eqb (length (rooms st)) 0 || (cap st <? wrap (used st + act)) then
       let block_size := if 1048576 <? act then act else 1048576 in
       if malloc_ok (length (rooms st)) (wrap (24 + block_size)) then
         Ok {| mem := mem st; rooms := rooms st ++ [wrap (24 + block_size) - 24]; cap := block_size; used := 0 |}
       else Panic
     else Ok st) = Ok st1 /\ mem st1 = mem st /\ (exists rs, rooms st1 = rs ++ [cap st1]) /\ used st1 + act <= cap st1 /\ cap st1 < 2 ^ 63 /\ used st1 mod 8 = 0
       /\ (forall i r, nth_error (rooms st) i = Some r -> nth_error (rooms st1) i = Some r)
       /\ (forall i b o a, nth_error loc i = Some (b, o) -> nth_error arrs i = Some a -> S b = length (rooms st1) -> o + len a <= used st1))
     \/ (if Nat.eqb (length (rooms st)) 0 || (cap st <? wrap (used st + act)) then
       let block_size := if 1048576 <? act then act else 1048576 in
       if malloc_ok (length (rooms st)) (wrap (24 + block_size)) then
         Ok {| mem := mem st; rooms := rooms st ++ [wrap (24 + block_size) - 24]; cap := block_size; used := 0 |}
       else Panic
     else Ok st) = Panic).
  { destruct (Nat.eqb (length (rooms st)) 0 || (cap st <? wrap (used st + act)))%bool eqn:NB.
    - cbv zeta. remember (if 1048576 <? act then act else 1048576) as bsz.
      assert (BZ : act <= bsz < 2 ^ 63).
      { subst bsz. change (2 ^ 63) with 9223372036854775808. destruct (N.ltb_spec 1048576 act); lia. }
      assert (WB : wrap (24 + bsz) = 24 + bsz) by (unfold wrap; apply N.mod_small; change (2 ^ 64) with 18446744073709551616; change (2 ^ 63) with 9223372036854775808 in BZ; lia).
      rewrite WB. destruct (malloc_ok _ _); [|now right]. left. eexists. split; [reflexivity|]. cbn [mem rooms cap used].
      replace (24 + bsz - 24) with bsz by lia. split; [reflexivity|]. split; [eauto|]. split; [lia|]. split; [lia|]. split; [reflexivity|]. split.
      + intros i r E. rewrite nth_error_app1; [assumption|]. apply nth_error_Some. congruence.
      + intros i b o a LI AI SB. exfalso. rewrite app_length in SB. cbn [length] in SB.
        destruct (g_room _ _ _ _ (i_good _ _ _ I i b o a LI AI)) as (r & R & _).
        assert (b < length (rooms st))%nat by (apply nth_error_Some; congruence). lia.
    - apply orb_false_iff in NB. destruct NB as [NB1 NB2]. apply Nat.eqb_neq in NB1. apply N.ltb_ge in NB2. left. exists st.
      destruct (i_cur _ _ _ I) as [[C1 C2]|(C1 & C2 & C3 & C4)]; [rewrite C1 in NB1; contradiction|].
      assert (WU : wrap (used st + act) = used st + act) by (unfold wrap; apply N.mod_small; change (2 ^ 63) with 9223372036854775808 in C3; change (2 ^ 64) with 18446744073709551616; lia).
      rewrite WU in NB2. splits; auto. intros i b o a LI AI SB. exact (g_used _ _ _ _ (i_good _ _ _ I i b o a LI AI) SB). }
  cbv zeta in B. destruct B as [(st1 & -> & B1 & (rs & B2) & B3 & B4 & B5 & B6 & B7)| ->]; [|now left]. right. cbn [bind].
  assert (WU : wrap (used st1 + act) = used st1 + act) by (unfold wrap; apply N.mod_small; change (2 ^ 63) with 9223372036854775808 in B4; change (2 ^ 64) with 18446744073709551616; lia).
  rewrite WU. set (st2 := {| mem := _; rooms := _; cap := _; used := used st1 + act |}).
  assert (BL : (length (rooms st1) - 1)%nat = length rs) by (rewrite B2, app_length; cbn [length]; lia). rewrite BL.
  assert (R : nth_error (rooms st2) (length rs) = Some (cap st1)).
  { cbn [rooms st2]. unfold st2. cbn [rooms]. rewrite B2, nth_error_app2 by lia. now rewrite Nat.sub_diag. }
  destruct (store_list_ok (to_le 8 n) st2 (length rs) (used st1) (cap st1) R) as (st' & E & (S1 & S2 & S3) & M).
  { unfold len. rewrite to_le_len. lia. }
  exists st', (length rs), (used st1 + 8). split; [rewrite E; reflexivity|].
  unfold st2 in S1, S2, S3. cbn [rooms cap used] in S1, S2, S3. unfold len in M at 1. rewrite to_le_len in M.
  assert (LN : len (repeat (@None N) (N.to_nat n)) = n) by (unfold len; rewrite repeat_length; lia).
  assert (OLD : forall i b o a, nth_error loc i = Some (b, o) -> nth_error arrs i = Some a -> b = length rs -> o + len a <= used st1).
  { intros i b o a LI AI ->. apply (B7 i (length rs) o a LI AI). rewrite B2, app_length. cbn [length]. lia. }
  constructor.
  - rewrite !app_length, (i_len _ _ _ I). reflexivity.
  - right. rewrite S1, S2, S3. split; [eauto|]. split; [lia|]. split; [lia|]. rewrite N.add_mod, B5, A2 by lia. reflexivity.
  - intros i b o a LI AI. apply nth_error_snoc in LI. apply nth_error_snoc in AI. pose proof (i_len _ _ _ I) as IL.
    destruct LI as [[L1 LI]|[L1 LI]], AI as [[L2 AI]|[L2 AI]]; try lia.
    + destruct (i_good _ _ _ I i b o a LI AI) as [F1 F2 (r' & R' & F3) F4 F5 F6 F7].
      assert (FR : forall q, o - 8 <= q < o + len a -> mem st' b q = mem st b q).
      { intros q Q. rewrite M. unfold st2. cbn [mem]. rewrite B1. destruct (Nat.eqb_spec b (length rs)) as [->|]; [|reflexivity]. cbn [andb].
        pose proof (OLD i (length rs) o a LI AI eq_refl). destruct (N.leb_spec (used st1) q); [exfalso; lia|reflexivity]. }
      constructor; auto.
      * rewrite S1. eauto.
      * rewrite S1, S3. intros SB. pose proof (B7 i b o a LI AI SB). lia.
      * intros y Y. rewrite FR by lia. now apply F6.
      * intros k v K. assert (KL : (k < length a)%nat) by (apply nth_error_Some; congruence). rewrite FR by (unfold len; lia). now apply F7.
    + injection LI as -> ->. subst a. constructor.
      * lia.
      * rewrite N.add_mod, B5 by lia. reflexivity.
      * exists (cap st1). rewrite S1. split; [exact R|]. rewrite LN. lia.
      * rewrite S3, LN. lia.
      * rewrite LN. exact SZ.
      * intros j J. rewrite M. rewrite Nat.eqb_refl. cbn [andb].
        replace (used st1 <=? used st1 + 8 - 8 + N.of_nat j) with true by (symmetry; apply N.leb_le; lia).
        replace (used st1 + 8 - 8 + N.of_nat j <? used st1 + N.of_nat 8) with true by (symmetry; apply N.ltb_lt; lia). cbn [andb].
        rewrite LN. f_equal. lia.
      * intros k v K. rewrite nth_error_repeat' in K. destruct (k <? N.to_nat n)%nat; discriminate.
  - intros i j b o o' a a' NE LI LJ AI AJ. apply nth_error_snoc in LI. apply nth_error_snoc in AI. apply nth_error_snoc in LJ. apply nth_error_snoc in AJ.
    pose proof (i_len _ _ _ I) as IL.
    destruct LI as [[L1 LI]|[L1 LI]], AI as [[L2 AI]|[L2 AI]]; try lia; destruct LJ as [[L3 LJ]|[L3 LJ]], AJ as [[L4 AJ]|[L4 AJ]]; try lia.
    + eapply (i_disj _ _ _ I i j); eauto.
    + injection LJ as -> ->. left. pose proof (OLD i _ o a LI AI eq_refl). lia.
    + injection LI as -> ->. right. pose proof (OLD j _ o' a' LJ AJ eq_refl). lia.
Qed.

(** The whole: pointers returned so far, and the arrays they point to *)
Definition ok (st : state) (ps : list ptr) (h : heap) : Prop :=
  exists loc, inv st loc (arrays h) /\ Forall2 (fun p i => nth_error loc i = Some p) ps (handles h).
Lemma ok_handle st ps h loc k p : inv st loc (arrays h) -> Forall2 (fun p i => nth_error loc i = Some p) ps (handles h) ->
  nth_error ps k = Some p -> exists i a, nth_error (handles h) k = Some i /\ nth_error loc i = Some p /\ nth_error (arrays h) i = Some a.
Proof.
  intros I F. revert k. induction F as [|q i ps hs P F IH]; intros k E; [destruct k; discriminate|].
  destruct k as [|k]; cbn [nth_error] in *; [|now apply IH]. injection E as ->.
  assert (L : (i < length (arrays h))%nat) by (rewrite <- (i_len _ _ _ I); apply nth_error_Some; congruence).
  destruct (nth_error_lt (arrays h) i L) as [a A]. eauto.
Qed.
Lemma ok_handle' st ps h loc k i : inv st loc (arrays h) -> Forall2 (fun p i => nth_error loc i = Some p) ps (handles h) ->
  nth_error (handles h) k = Some i -> exists p, nth_error ps k = Some p /\ nth_error loc i = Some p.
Proof.
  intros I F. revert k. induction F as [|q i' ps hs P F IH]; intros k E; [destruct k; discriminate|].
  destruct k as [|k]; cbn [nth_error] in *; [injection E as ->; eauto|now apply IH].
Qed.
Lemma handles_more (loc : list ptr) q ps hs : Forall2 (fun p i => nth_error loc i = Some p) ps hs ->
  Forall2 (fun p i => nth_error (loc ++ [q]) i = Some p) (ps ++ [q]) (hs ++ [length loc]).
Proof.
  intros F. apply Forall2_app.
  - clear - F. induction F as [|p i ps hs P F IH]; constructor; [|exact IH]. rewrite nth_error_app1; [exact P|]. apply nth_error_Some. congruence.
  - constructor; [|constructor]. rewrite nth_error_app2 by lia. now rewrite Nat.sub_diag.
Qed.

Lemma alloc_ok st ps h n : ok st ps h -> size_ok n ->
  arena_alloc_raw malloc_ok st n = Panic \/
  exists st' p, arena_alloc_raw malloc_ok st n = Ok (st', p) /\ ok st' (ps ++ [p]) (fresh h (repeat None (N.to_nat n))).
Proof.
  intros (loc & I & F) SZ. destruct (alloc_array _ _ _ n I SZ) as [E|(st' & b & o & E & I')]; [now left|]. right.
  exists st', (b, o). split; [exact E|]. exists (loc ++ [(b, o)]). cbn [fresh arrays handles]. split; [exact I'|].
  rewrite <- (i_len _ _ _ I). now apply handles_more.
Qed.
Lemma set_last {A} (l : list A) x y : set (l ++ [x]) (length l) y = l ++ [y].
Proof.
  unfold set. rewrite firstn_app, Nat.sub_diag, firstn_all. cbn [firstn]. rewrite app_nil_r. f_equal. f_equal.
  apply skipn_all2. rewrite app_length. cbn. lia.
Qed.
(** Allocating and filling at once *)
Lemma alloc_fill st ps h n l a' : ok st ps h -> size_ok n -> len l <= n -> length a' = N.to_nat n ->
  (forall k v, nth_error a' k = Some (Some v) -> nth_error l k = Some v) ->
  arena_alloc_raw malloc_ok st n = Panic \/
  exists st1 b o st', arena_alloc_raw malloc_ok st n = Ok (st1, (b, o)) /\ store_list st1 b o l = Ok st'
  /\ ok st' (ps ++ [(b, o)]) (fresh h a')
  /\ (forall loc i b' o' a, inv st loc (arrays h) -> nth_error loc i = Some (b', o') -> nth_error (arrays h) i = Some a ->
        good st1 b' o' a).
Proof.
  intros (loc & I & F) SZ L LA H. destruct (alloc_array _ _ _ n I SZ) as [E|(st1 & b & o & E & I')]; [now left|]. right.
  destruct (write_array st1 (loc ++ [(b, o)]) _ (length (arrays h)) b o (repeat None (N.to_nat n)) a' 0 l I') as (st' & E' & I'').
  - rewrite <- (i_len _ _ _ I), nth_error_app2, Nat.sub_diag by lia. reflexivity.
  - rewrite nth_error_app2, Nat.sub_diag by lia. reflexivity.
  - unfold len at 2. rewrite repeat_length. lia.
  - now rewrite repeat_length.
  - intros k v K. apply H in K. left. replace (k - N.to_nat 0)%nat with k by lia. split; [|exact K].
    assert (k < length l)%nat by (apply nth_error_Some; congruence). unfold len. lia.
  - rewrite N.add_0_r in E'. exists st1, b, o, st'. split; [exact E|]. split; [exact E'|]. split.
    + exists (loc ++ [(b, o)]). cbn [fresh arrays handles]. rewrite set_last in I''. split; [exact I''|].
      rewrite <- (i_len _ _ _ I). now apply handles_more.
    + intros loc2 i b' o' a I2 L2 A2. destruct (alloc_array _ _ _ n I2 SZ) as [E2|(st2 & b2 & o2 & E2 & I2')]; [congruence|].
      rewrite E in E2. injection E2 as <- <- <-. apply (i_good _ _ _ I2' i b' o' a).
      * rewrite nth_error_app1; [exact L2|]. apply nth_error_Some. congruence.
      * rewrite nth_error_app1; [exact A2|]. apply nth_error_Some. congruence.
Qed.
Lemma calloc_ok st ps h n s : ok st ps h -> size_ok (n * s) ->
  xcalloc malloc_ok st n s = Panic \/
  exists st' p, xcalloc malloc_ok st n s = Ok (st', p) /\ ok st' (ps ++ [p]) (fresh h (repeat (Some 0) (N.to_nat (n * s)))).
Proof.
  intros O SZ. unfold xcalloc. assert (W : wrap (n * s) = n * s).
  { unfold wrap. apply N.mod_small. unfold size_ok in SZ. change (2 ^ 62) with 4611686018427387904 in SZ. change (2 ^ 64) with 18446744073709551616. lia. }
  rewrite W. destruct (alloc_fill st ps h (n * s) (repeat 0 (N.to_nat (n * s))) (repeat (Some 0) (N.to_nat (n * s))) O SZ) as [E|(st1 & b & o & st' & E & E' & O' & _)].
  - unfold len. rewrite repeat_length. lia.
  - apply repeat_length.
  - intros k v K. rewrite nth_error_repeat' in K. rewrite nth_error_repeat'. destruct (k <? N.to_nat (n * s))%nat; [congruence|discriminate].
  - left. now rewrite E.
  - right. rewrite E. cbn [bind]. rewrite E'. cbn [bind]. eauto.
Qed.
Lemma store_as_list st b o v : store st (b, o) v = store_list st b o [v].
Proof. cbn [store_list]. destruct (store st (b, o) v); reflexivity. Qed.
Lemma store_list_app l1 l2 : forall st b o, store_list st b o (l1 ++ l2) = do st <- store_list st b o l1; store_list st b (o + len l1) l2.
Proof.
  unfold len. induction l1 as [|v l1 IH]; intros st b o; cbn [app store_list length bind].
  - now rewrite N.add_0_r.
  - destruct (store st (b, o) v); cbn [bind]; try reflexivity. rewrite IH. destruct (store_list _ _ _ l1); cbn [bind]; try reflexivity.
    f_equal. lia.
Qed.
Lemma strdup_ok st ps h s : ok st ps h -> size_ok (N.of_nat (length s) + 1) ->
  xstrdup malloc_ok st s = Panic \/
  exists st' p, xstrdup malloc_ok st s = Ok (st', p) /\ ok st' (ps ++ [p]) (fresh h (map Some s ++ [Some 0])).
Proof.
  intros O SZ. unfold xstrdup. assert (W : wrap (N.of_nat (length s) + 1) = N.of_nat (length s) + 1).
  { unfold wrap. apply N.mod_small. unfold size_ok in SZ. change (2 ^ 62) with 4611686018427387904 in SZ. change (2 ^ 64) with 18446744073709551616. lia. }
  cbv zeta. rewrite W. destruct (alloc_fill st ps h (N.of_nat (length s) + 1) (s ++ [0]) (map Some s ++ [Some 0]) O SZ) as [E|(st1 & b & o & st' & E & E' & O' & _)].
  - unfold len. rewrite app_length. cbn [length]. lia.
  - rewrite app_length, map_length. cbn [length]. lia.
  - intros k v K. change [Some 0] with (map Some [0]) in K. rewrite <- map_app in K. rewrite nth_error_map in K.
    destruct (nth_error (s ++ [0]) k); [cbn in K; congruence|discriminate].
  - left. unfold xmalloc. now rewrite E.
  - right. unfold xmalloc. rewrite E. cbn [bind]. rewrite store_list_app in E'. destruct (store_list st1 b o s) as [st2| | |]; try discriminate.
    cbn [bind] in *. rewrite store_as_list. fold (len s). rewrite E'. cbn [bind]. eauto.
Qed.
Lemma header_value st b o a : good st b o a -> exists hd, load_list st b (o - 8) 8 = Ok hd /\ of_le hd = len a.
Proof.
  intros [G1 G2 (r & R & G3) G4 G5 G6 G7].
  exists (to_le 8 (len a)). split.
  - rewrite (load_list_ok 8 st b (o - 8) r R) by lia. f_equal.
    apply (nth_ext _ _ 0 0); [rewrite map_length, seq_length, to_le_len; reflexivity|].
    rewrite map_length, seq_length. intros j J. rewrite (nth_indep _ 0 (mem st b (o - 8 + N.of_nat 0))) by (rewrite map_length, seq_length; assumption).
    rewrite (map_nth (fun j => mem st b (o - 8 + N.of_nat j))). rewrite seq_nth by assumption. cbn [Nat.add]. now apply G6.
  - apply of_to_le. change (256 ^ N.of_nat 8) with 18446744073709551616. change (2 ^ 62) with 4611686018427387904 in G5. lia.
Qed.
Lemma realloc_ok st ps h k p n i a : ok st ps h -> size_ok n -> nth_error (handles h) k = Some i -> nth_error (arrays h) i = Some a ->
  nth_error ps k = Some p ->
  if (N.to_nat n <=? length a)%nat then
    exists st', xrealloc malloc_ok st (Some p) n = Ok (st', p) /\ ok st' (ps ++ [p]) {| arrays := arrays h; handles := handles h ++ [i] |}
  else
    xrealloc malloc_ok st (Some p) n = Panic \/
    exists st' p', xrealloc malloc_ok st (Some p) n = Ok (st', p') /\ ok st' (ps ++ [p']) (fresh h (a ++ repeat None (N.to_nat n - length a))).
Proof.
  intros O SZ HK AI PK. destruct O as (loc & I & F).
  destruct (ok_handle _ _ _ _ _ _ I F PK) as (i' & a' & HK' & LI & AI'). rewrite HK in HK'. injection HK' as <-. rewrite AI in AI'. injection AI' as <-.
  destruct p as [b o]. pose proof (i_good _ _ _ I i b o a LI AI) as G. destruct (header_value _ _ _ _ G) as (hd & EH & VH).
  cbn [xrealloc]. rewrite EH. cbn [bind]. rewrite VH. unfold len.
  destruct (Nat.leb_spec (N.to_nat n) (length a)) as [LE|GT].
  - destruct (N.leb_spec n (N.of_nat (length a))); [|lia]. exists st. split; [reflexivity|]. exists loc. cbn [arrays handles]. split; [exact I|].
    apply Forall2_app; [exact F|]. constructor; [exact LI|constructor].
  - destruct (N.leb_spec n (N.of_nat (length a))); [lia|].
    unfold xmalloc. destruct (alloc_array _ _ _ n I SZ) as [E|(st1 & b' & o' & E & I')]; [left; now rewrite E|]. right. rewrite E. cbn [bind].
    assert (G1 : good st1 b o a).
    { apply (i_good _ _ _ I' i b o a).
      - rewrite nth_error_app1; [exact LI|]. apply nth_error_Some. congruence.
      - rewrite nth_error_app1; [exact AI|]. apply nth_error_Some. congruence. }
    destruct (g_room _ _ _ _ G1) as (r & R & RL). unfold len in RL. rewrite Nat2N.id.
    rewrite (load_list_ok (length a) st1 b o r R RL). cbn [bind]. set (l := map _ _).
    assert (LV : forall j v, nth_error a j = Some (Some v) -> nth_error l j = Some v).
    { intros j v J. assert (JL : (j < length a)%nat) by (apply nth_error_Some; congruence). unfold l. rewrite nth_error_map.
      assert (S : nth_error (seq 0 (length a)) j = Some j).
      { rewrite (nth_error_nth' _ 0%nat) by (rewrite seq_length; assumption). now rewrite seq_nth. }
      rewrite S. cbn [option_map]. f_equal. now apply (g_data _ _ _ _ G1). }
    assert (LN : length l = length a) by (unfold l; now rewrite map_length, seq_length).
    destruct (write_array st1 (loc ++ [(b', o')]) _ (length (arrays h)) b' o' (repeat None (N.to_nat n)) (a ++ repeat None (N.to_nat n - length a)) 0 l I') as (st' & E' & I'').
    + rewrite <- (i_len _ _ _ I), nth_error_app2, Nat.sub_diag by lia. reflexivity.
    + rewrite nth_error_app2, Nat.sub_diag by lia. reflexivity.
    + unfold len. rewrite repeat_length, LN. lia.
    + rewrite app_length, !repeat_length. lia.
    + intros j v J. left. replace (j - N.to_nat 0)%nat with j by lia. rewrite nth_error_app_if in J. destruct (Nat.ltb_spec j (length a)).
      * split; [unfold len; rewrite LN; lia|now apply LV].
      * rewrite nth_error_repeat' in J. destruct (_ <? _)%nat; discriminate.
    + rewrite N.add_0_r in E'. rewrite E'. cbn [bind]. exists st', (b', o'). split; [reflexivity|].
      exists (loc ++ [(b', o')]). cbn [fresh arrays handles]. rewrite set_last in I''. split; [exact I''|].
      rewrite <- (i_len _ _ _ I). now apply handles_more.
Qed.
Lemma write_ok st ps h k i v x a : ok st ps h -> nth_error (handles h) k = Some x -> nth_error (arrays h) x = Some a -> (N.to_nat i < length a)%nat ->
  exists b o st', nth_error ps k = Some (b, o) /\ store st (b, o + i) v = Ok st'
  /\ ok st' ps {| arrays := set (arrays h) x (set a (N.to_nat i) (Some v)); handles := handles h |}.
Proof.
  intros (loc & I & F) HK AX L. destruct (ok_handle' _ _ _ _ _ _ I F HK) as ([b o] & PK & LX).
  destruct (write_array st loc _ x b o a (set a (N.to_nat i) (Some v)) i [v] I LX AX) as (st' & E & I').
  - unfold len. cbn [length]. lia.
  - now apply set_len.
  - intros j w J. rewrite set_nth in J by assumption. destruct (Nat.eqb_spec j (N.to_nat i)) as [->|NE].
    + injection J as ->. left. unfold len. cbn [length]. rewrite Nat.sub_diag. split; [lia|reflexivity].
    + right. unfold len. cbn [length]. split; [lia|exact J].
  - exists b, o, st'. split; [exact PK|]. split; [rewrite store_as_list; exact E|]. exists loc. cbn [arrays handles]. auto.
Qed.
Lemma read_ok st ps h k i a v : ok st ps h -> get h k = Some a -> nth_error a (N.to_nat i) = Some v ->
  exists b o w, nth_error ps k = Some (b, o) /\ load st (b, o + i) = Ok w /\ agrees v w.
Proof.
  intros (loc & I & F) HK AX. unfold get in HK. destruct (nth_error (handles h) k) as [x|] eqn:HX; [|discriminate].
  destruct (ok_handle' _ _ _ _ _ _ I F HX) as ([b o] & PK & LX). destruct (i_good _ _ _ I x b o a LX HK) as [G1 G2 (r & R & G3) G4 G5 G6 G7].
  assert (L : (N.to_nat i < length a)%nat) by (apply nth_error_Some; congruence). unfold len in G3.
  exists b, o, (mem st b (o + i)). split; [exact PK|]. split.
  - unfold load. rewrite R. destruct (N.ltb_spec (o + i) r); [reflexivity|lia].
  - destruct v as [v|]; [|exact Logic.I]. cbn [agrees]. rewrite <- (G7 _ _ AX). f_equal. lia.
Qed.

Theorem run_effs l : forall st ps h h' out, ok st ps h -> effs h l h' out ->
  run malloc_ok st ps l = Panic \/
  exists st' ps' out', run malloc_ok st ps l = Ok (st', ps', out') /\ Forall2 agrees out out' /\ ok st' ps' h'.
Proof.
  induction l as [|op l IH]; intros st ps h h' out O E; inversion E as [|? ? h1 o1 ? ? o2 E1 E2]; subst; clear E.
  - right. exists st, ps, []. cbn [run]. auto.
  - assert (PUSH : forall (r : res (state * ptr)) h2, h2 = h1 -> o1 = [] ->
      r = Panic \/ (exists st' p, r = Ok (st', p) /\ ok st' (ps ++ [p]) h2) ->
      (do x <- r; run malloc_ok (fst x) (ps ++ [snd x]) l) = Panic \/
      exists st' ps' out', (do x <- r; run malloc_ok (fst x) (ps ++ [snd x]) l) = Ok (st', ps', out') /\ Forall2 agrees (o1 ++ o2) out' /\ ok st' ps' h').
    { intros r h2 -> -> [->|(st' & p & -> & O')]; [now left|]. cbn [bind fst snd app]. exact (IH _ _ _ _ _ O' E2). }
    destruct op; inversion E1; subst; cbn [run].
    + eapply PUSH; [reflexivity|reflexivity|]. now apply alloc_ok.
    + eapply PUSH; [reflexivity|reflexivity|]. now apply calloc_ok.
    + cbn [xrealloc]. eapply PUSH; [reflexivity|reflexivity|]. now apply alloc_ok.
    + match goal with HG : get h k = Some a |- _ => unfold get in HG; destruct (nth_error (handles h) k) as [i|] eqn:HK; [|discriminate] end.
      pose proof O as (loc & I & F). destruct (ok_handle' _ _ _ _ _ _ I F HK) as (p & PK & _). rewrite PK.
      eapply PUSH; [reflexivity|reflexivity|]. pose proof (realloc_ok st ps h k p size i a O ltac:(assumption) HK ltac:(assumption) PK) as RO.
      destruct (Nat.leb_spec (N.to_nat size) (length a)); [lia|exact RO].
    + pose proof O as (loc & I & F). match goal with HK : nth_error (handles h) k = Some ?i |- _ => destruct (ok_handle' _ _ _ _ _ _ I F HK) as (p & PK & _); rewrite PK;
        pose proof (realloc_ok st ps h k p size i a O ltac:(assumption) HK ltac:(assumption) PK) as RO end.
      eapply PUSH; [reflexivity|reflexivity|]. destruct (Nat.leb_spec (N.to_nat size) (length a)); [|lia]. right. destruct RO as (st' & RE & RO). eauto.
    + eapply PUSH; [reflexivity|reflexivity|]. now apply strdup_ok.
    + match goal with HK : nth_error (handles ?hh) ?k = Some ?x, AX : nth_error (arrays ?hh) ?x = Some ?a, L : (N.to_nat ?i < length ?a)%nat |- context [store _ _ ?v] => destruct (write_ok st ps hh k i v x a O HK AX L) as (b & o & st' & PK & SE & O') end.
      rewrite PK, SE. cbn [bind app]. exact (IH _ _ _ _ _ O' E2).
    + match goal with HG : get ?hh ?k = Some ?a, AX : nth_error ?a (N.to_nat ?i) = Some ?v |- _ => destruct (read_ok st ps hh k i a v O HG AX) as (b & o & w & PK & LE & AG) end.
      rewrite PK, LE. cbn [bind]. destruct (IH _ _ _ _ _ O E2) as [->|(st' & ps' & out' & -> & FA & O')]; [now left|]. right. cbn [bind].
      exists st', ps', (w :: out'). cbn [app]. auto.
Qed.
Lemma ok_start m : ok (start m) [] empty.
Proof.
  exists []. split; [|constructor]. constructor; cbn.
  - reflexivity.
  - now left.
  - intros [|i]; discriminate.
  - intros [|i]; discriminate.
Qed.
End M.
