From Verif Require Import Common Bits Sha1_Model Sha1_Spec.
Local Open Scope N_scope.

Definition word (x : N) : Prop := x < 2 ^ 32.
Definition words (s : hstate) : Prop :=
  let '(a, b, c, d, e) := s in word a /\ word b /\ word c /\ word d /\ word e.

Lemma rot_ok x n m : word x -> n + m = 32 -> rot x n m = ROTL n x.
Proof.
  intros H E. unfold rot, ROTL, w32, M32, word in *.
  replace (32 - n) with m by lia. rewrite N.shiftl_mul_pow2, N.shiftr_div_pow2.
  assert (E2 : x * 2 ^ n mod 2 ^ 32 = (x mod 2 ^ m) * 2 ^ n).
  { rewrite <- E, N.pow_add_r, (N.mul_comm (2 ^ n)).
    rewrite N.mul_mod_distr_r by (apply N.pow_nonzero; lia). reflexivity. }
  rewrite E2. apply lor_add. apply N.div_lt_upper_bound.
  - apply N.pow_nonzero; lia.
  - rewrite <- N.pow_add_r. now replace (m + n) with 32 by lia.
Qed.
Lemma ROTL_word n x : word x -> n <= 32 -> word (ROTL n x).
Proof.
  intros H L. rewrite <- (rot_ok x n (32 - n)) by (auto; lia). unfold rot, w32, word in *.
  apply lor_bound.
  - apply N.mod_lt. discriminate.
  - rewrite N.shiftr_div_pow2. eapply N.le_lt_trans; [|exact H].
    apply N.div_le_upper_bound; [apply N.pow_nonzero; lia|].
    assert (2 ^ (32 - n) <> 0) by (apply N.pow_nonzero; lia). nia.
Qed.
Lemma lxor_word x y : word x -> word y -> word (N.lxor x y).
Proof. apply lxor_bound. Qed.
Lemma mod_word x : word (x mod M32).
Proof. apply N.mod_lt. discriminate. Qed.

Lemma not32_ok x : word x -> not32 x = NOT x.
Proof.
  intros H. unfold not32, NOT, M32, word in *.
  change 0xFFFFFFFF with (N.ones 32). change (2 ^ 32 - 1) with (N.ones 32).
  rewrite <- (N.lnot_sub_low x 32). { reflexivity. }
  destruct (N.eq_dec x 0) as [->|]; [reflexivity|].
  apply N.log2_lt_pow2; lia.
Qed.

Lemma sha_f_ok i b c d : word b -> sha_f i b c d = ft i b c d.
Proof.
  intros H. unfold sha_f, ft, Ch, Parity, Maj. rewrite (not32_ok b H).
  assert (E : forall n, (i <? S n)%nat = (i <=? n)%nat) by (intros; reflexivity).
  rewrite !(E). destruct (i <=? 19)%nat.
  - rewrite <- (not32_ok b H). unfold not32. apply N.bits_inj. intros k.
    rewrite ?N.lor_spec, ?N.lxor_spec, ?N.land_spec, ?N.lxor_spec.
    change 4294967295 with (N.ones 32). destruct (N.lt_ge_cases k 32) as [L|L].
    + rewrite N.ones_spec_low by exact L.
      destruct (N.testbit b k), (N.testbit c k), (N.testbit d k); reflexivity.
    + rewrite N.ones_spec_high by exact L. rewrite (bound_bits b 32 k H L).
      destruct (N.testbit c k), (N.testbit d k); reflexivity.
  - destruct (i <=? 39)%nat; [reflexivity|]. destruct (i <=? 59)%nat; [|reflexivity].
    apply N.bits_inj. intros k. rewrite ?N.lor_spec, ?N.lxor_spec, ?N.land_spec.
    destruct (N.testbit b k), (N.testbit c k), (N.testbit d k); reflexivity.
Qed.
Lemma sha_k_ok i : sha_k i = Kt i.
Proof.
  unfold sha_k, Kt. assert (E : forall n, (i <? S n)%nat = (i <=? n)%nat) by (intros; reflexivity).
  now rewrite !E.
Qed.

Lemma rd_ok l i x : nth_error l i = Some x -> rd l i = Ok x.
Proof. unfold rd. now intros ->. Qed.
Lemma rd_nth l i : (i < length l)%nat -> rd l i = Ok (nth i l 0).
Proof.
  intros H. destruct (nth_error_lt l i H) as [x E]. rewrite (rd_ok _ _ _ E).
  now rewrite (nth_error_nth _ _ _ E).
Qed.

Lemma word_be a b c d : is_byte a -> is_byte b -> is_byte c -> is_byte d ->
  N.lor (N.lor (N.lor (N.shiftl a 24) (N.shiftl b 16)) (N.shiftl c 8)) d = be_val [a; b; c; d].
Proof.
  unfold is_byte. intros. cbn [be_val length].
  change (256 ^ N.of_nat 3) with 16777216. change (256 ^ N.of_nat 2) with 65536.
  change (256 ^ N.of_nat 1) with 256. change (256 ^ N.of_nat 0) with 1.
  rewrite !N.shiftl_mul_pow2. rewrite (lor_add a (b * 2 ^ 16) 24) by (cbn; lia).
  replace (a * 2 ^ 24 + b * 2 ^ 16) with ((a * 256 + b) * 2 ^ 16) by (cbn; lia).
  rewrite (lor_add _ (c * 2 ^ 8) 16) by (cbn; lia).
  replace ((a * 256 + b) * 2 ^ 16 + c * 2 ^ 8) with ((a * 65536 + b * 256 + c) * 2 ^ 8) by (cbn; lia).
  rewrite lor_add by (cbn; lia). cbn. lia.
Qed.

Lemma firstn4_skipn (data : bytes) (j : nat) (a b c d : N) :
  nth_error data j = Some a -> nth_error data (j + 1)%nat = Some b ->
  nth_error data (j + 2)%nat = Some c -> nth_error data (j + 3)%nat = Some d ->
  firstn 4 (skipn j data) = [a; b; c; d].
Proof.
  intros E0 E1 E2 E3. apply list_ext. intros i.
  rewrite nth_error_firstn, nth_error_skipn.
  destruct i as [|[|[|[|i]]]]; cbn [nth_error]; rewrite ?Nat.add_0_r; auto.
  destruct (Nat.ltb_spec (S (S (S (S i)))) 4); [lia|]. now rewrite nth_error_nil'.
Qed.

Lemma load_words_ok data : is_bytes data -> (64 <= length data)%nat -> forall k i w,
  (i + k = 16)%nat ->
  load_words data w i k
  = Ok (w ++ map (fun t => be_val (firstn 4 (skipn (4 * t) data))) (seq i k)).
Proof.
  intros HB L. induction k; intros i w E; cbn [load_words seq map].
  - now rewrite app_nil_r.
  - destruct (nth_error_lt data (i * 4)) as [a Ea]; [lia|].
    destruct (nth_error_lt data (i * 4 + 1)) as [b Eb]; [lia|].
    destruct (nth_error_lt data (i * 4 + 2)) as [c Ec]; [lia|].
    destruct (nth_error_lt data (i * 4 + 3)) as [d Ed]; [lia|].
    rewrite (rd_ok _ _ _ Ea), (rd_ok _ _ _ Eb), (rd_ok _ _ _ Ec), (rd_ok _ _ _ Ed). cbn [bind].
    rewrite IHk by lia. rewrite <- app_assoc. f_equal. f_equal. cbn [app].
    replace (i + 1)%nat with (S i) by lia. f_equal.
    replace (4 * i)%nat with (i * 4)%nat by lia. rewrite (firstn4_skipn _ _ a b c d) by auto.
    unfold is_bytes in HB. rewrite Forall_forall in HB.
    apply word_be; apply HB; eapply nth_error_In; eauto.
Qed.

Lemma be_val_bound l : is_bytes l -> be_val l < 256 ^ N.of_nat (length l).
Proof.
  induction 1; cbn [be_val length]. { cbn; lia. }
  rewrite Nat2N.inj_succ, N.pow_succ_r'. unfold is_byte in *. nia.
Qed.
Lemma is_bytes_firstn n l : is_bytes l -> is_bytes (firstn n l).
Proof. intros H. unfold is_bytes in *. rewrite <- (firstn_skipn n l) in H. now apply Forall_app in H. Qed.
Lemma is_bytes_skipn n l : is_bytes l -> is_bytes (skipn n l).
Proof. intros H. unfold is_bytes in *. rewrite <- (firstn_skipn n l) in H. now apply Forall_app in H. Qed.

Lemma block_words_word b : is_bytes b -> Forall word (block_words b).
Proof.
  intros H. unfold block_words. apply Forall_forall. intros x I. apply in_map_iff in I as (t & <- & _).
  set (l := firstn 4 (skipn (4 * t) b)).
  assert (B : be_val l < 256 ^ N.of_nat (length l)).
  { apply be_val_bound. now apply is_bytes_firstn, is_bytes_skipn. }
  eapply N.lt_le_trans; [exact B|]. change (2 ^ 32) with (256 ^ 4).
  apply N.pow_le_mono_r; [lia|]. unfold l. rewrite firstn_length. lia.
Qed.
Lemma length_block_words b : length (block_words b) = 16%nat.
Proof. unfold block_words. now rewrite map_length, seq_length. Qed.

Lemma nth_word w i : Forall word w -> word (nth i w 0).
Proof.
  intros H. destruct (Nat.lt_ge_cases i (length w)).
  - rewrite Forall_forall in H. apply H. now apply nth_In.
  - rewrite nth_overflow by auto. unfold word. lia.
Qed.

Lemma next_W_word w : Forall word w -> Forall word (next_W w).
Proof.
  intros H. unfold next_W. apply Forall_app. split; auto. constructor; auto.
  apply ROTL_word; [|lia]. repeat apply lxor_word; now apply nth_word.
Qed.

Lemma iter_succ' {A} k (f : A -> A) x : Nat.iter (S k) f x = f (Nat.iter k f x).
Proof. reflexivity. Qed.
Lemma iter_succ_r' {A} k (f : A -> A) x : Nat.iter (S k) f x = Nat.iter k f (f x).
Proof. induction k; auto. rewrite iter_succ', IHk. reflexivity. Qed.

Lemma extend_words_ok : forall k w, Forall word w -> (16 <= length w)%nat ->
  extend_words w (length w) k = Ok (Nat.iter k next_W w).
Proof.
  induction k; intros w H L; cbn [extend_words]; auto.
  rewrite !rd_nth by lia. cbn [bind].
  rewrite rot_ok by (try reflexivity; repeat apply lxor_word; now apply nth_word).
  change (w ++ [ROTL 1 _]) with (next_W w).
  replace (length w + 1)%nat with (length (next_W w)).
  2:{ unfold next_W. rewrite app_length. reflexivity. }
  rewrite IHk.
  - now rewrite iter_succ_r'.
  - now apply next_W_word.
  - unfold next_W. rewrite app_length. lia.
Qed.

Lemma iter_W_word k w : Forall word w -> Forall word (Nat.iter k next_W w).
Proof. intros H. induction k; auto. rewrite iter_succ'. now apply next_W_word. Qed.
Lemma length_iter_W k w : length (Nat.iter k next_W w) = (length w + k)%nat.
Proof.
  induction k; [cbn; lia|]. rewrite iter_succ'. unfold next_W at 1. rewrite app_length, IHk. cbn. lia.
Qed.

Lemma round_words W s t : words s -> words (round W s t).
Proof.
  destruct s as [[[[a b] c] d] e]. intros (? & ? & ? & ? & ?). unfold round, words. splits; auto.
  - apply mod_word.
  - apply ROTL_word; auto; lia.
Qed.

Lemma sha_rounds_ok W : (80 <= length W)%nat -> forall k i s, (i + k = 80)%nat -> words s ->
  sha_rounds W i k s = Ok (fold_left (round W) (seq i k) s).
Proof.
  intros L. induction k; intros i s E Hs; cbn [sha_rounds seq fold_left]; auto.
  destruct s as [[[[a b] c] d] e]. rewrite rd_nth by lia. cbn [bind].
  destruct Hs as (Ha & Hb & Hc & Hd & He).
  rewrite !rot_ok by auto. rewrite sha_f_ok, sha_k_ok by auto. unfold w32.
  replace (i + 1)%nat with (S i) by lia. rewrite IHk.
  - reflexivity.
  - lia.
  - unfold words. splits; auto. { apply mod_word. } apply ROTL_word; auto; lia.
Qed.
Lemma fold_round_words W l : forall s, words s -> words (fold_left (round W) l s).
Proof. induction l; intros; cbn; auto. apply IHl. now apply round_words. Qed.

Lemma compress_words H b : words (compress H b).
Proof.
  unfold compress. destruct (fold_left _ _ H) as [[[[a b0] c] d] e]. destruct H as [[[[h0 h1] h2] h3] h4].
  unfold words. splits; apply mod_word.
Qed.

Lemma firstn_firstn4 (data : bytes) (t : nat) : (t < 16)%nat ->
  firstn 4 (skipn (4 * t) (firstn 64 data)) = firstn 4 (skipn (4 * t) data).
Proof.
  intros H. apply list_ext. intros i. rewrite !nth_error_firstn, !nth_error_skipn, nth_error_firstn.
  destruct (Nat.ltb_spec i 4); auto. destruct (Nat.ltb_spec (4 * t + i) 64); auto. lia.
Qed.

Lemma transform_ok H data : words H -> is_bytes data -> (64 <= length data)%nat ->
  transform H data = Ok (compress H (firstn 64 data)).
Proof.
  intros HW HB L. unfold transform. rewrite load_words_ok by auto. cbn [bind app].
  assert (E : map (fun t => be_val (firstn 4 (skipn (4 * t) data))) (seq 0 16)
              = block_words (firstn 64 data)).
  { unfold block_words. apply map_ext_in. intros t I. apply in_seq in I.
    now rewrite firstn_firstn4 by lia. }
  rewrite E. set (M := block_words (firstn 64 data)).
  assert (LM : length M = 16%nat) by apply length_block_words.
  assert (WM : Forall word M) by (apply block_words_word; now apply is_bytes_firstn).
  assert (X : extend_words M 16 64 = Ok (schedule M)).
  { rewrite <- LM at 1. apply extend_words_ok; auto; lia. }
  rewrite X. cbn [bind].
  rewrite sha_rounds_ok; auto.
  cbn [bind]. unfold compress. fold M.
  destruct (fold_left (round (schedule M)) (seq 0 80) H) as [[[[a b] c] d] e].
  destruct H as [[[[h0 h1] h2] h3] h4]. reflexivity.
Qed.

(** messages *)
Local Open Scope nat_scope.

Lemma blocks_words q : forall H m, words H -> words (blocks q H m).
Proof. induction q; intros; cbn; auto. apply IHq. apply compress_words. Qed.
Lemma blocks_add p q : forall H m, blocks (p + q) H m = blocks q (blocks p H m) (skipn (64 * p) m).
Proof.
  induction p; intros H m. { reflexivity. }
  cbn [Nat.add blocks]. rewrite IHp. f_equal. rewrite skipn_skipn'. f_equal. lia.
Qed.
Lemma blocks_prefix q : forall H m x, 64 * q <= length m -> blocks q H (m ++ x) = blocks q H m.
Proof.
  induction q; intros H m x L; cbn [blocks]; auto.
  rewrite firstn_app, skipn_app. replace (64 - length m) with 0 by lia.
  rewrite firstn_O, app_nil_r, skipn_O. apply IHq. rewrite skipn_length. lia.
Qed.

Definition H0_words : words H0.
Proof. unfold words, word, H0. splits; reflexivity. Qed.

(** state after absorbing the message [m] *)
Definition absorbed (h : sha) (m : bytes) : Prop :=
  st h = blocks (length m / 64) H0 m /\
  count h = ((8 * N.of_nat (length m)) mod 2 ^ 64)%N /\
  length (buffer h) = 64 /\ is_bytes (buffer h) /\
  firstn (length m mod 64) (buffer h) = skipn (64 * (length m / 64)) m.

Lemma absorbed_new : absorbed sha_new [].
Proof.
  unfold absorbed, sha_new. cbn [st count buffer length]. splits; try reflexivity.
  apply Forall_forall. intros x I. apply repeat_spec in I. subst. reflexivity.
Qed.

Lemma j_of n : N.to_nat (N.land (N.shiftr ((8 * N.of_nat n) mod 2 ^ 64) 3) 0x3F) = n mod 64.
Proof.
  change 0x3F%N with (2 ^ 6 - 1)%N. rewrite land_mask, N.shiftr_div_pow2.
  change (2 ^ 3)%N with 8%N. change (2 ^ 6)%N with 64%N. change (2 ^ 64)%N with 18446744073709551616%N. lia.
Qed.

Lemma update_blocks_ok data : is_bytes data -> forall q f i s m,
  words s -> i + 64 * q <= length data -> length data < i + 64 * q + 64 -> q < f ->
  m = skipn i data ->
  update_blocks f s data i = Ok (blocks q s m, i + 64 * q).
Proof.
  intros HB. induction q; intros f i s m HS L1 L2 Hf ->; (destruct f; [lia|]); cbn [update_blocks blocks].
  - destruct (Nat.ltb_spec (i + 63) (length data)); [lia|]. do 2 f_equal. lia.
  - destruct (Nat.ltb_spec (i + 63) (length data)); [|lia].
    rewrite transform_ok; auto.
    2:{ now apply is_bytes_skipn. } 2:{ rewrite skipn_length. lia. }
    cbn [bind]. rewrite (IHq f (i + 64) _ (skipn 64 (skipn i data))); auto; try lia.
    + do 2 f_equal. lia.
    + apply compress_words.
    + now rewrite skipn_skipn'.
Qed.

Lemma update_ok h m data : absorbed h m -> is_bytes m -> is_bytes data ->
  exists h', sha_update h data = Ok h' /\ absorbed h' (m ++ data).
Proof.
  intros (HS & HC & HL & HBf & HF) HM HB. unfold sha_update. rewrite HC, j_of.
  set (r := length m mod 64) in *. set (q := length m / 64) in *.
  assert (Em : length m = 64 * q + r) by (unfold q, r; lia).
  assert (Hr : r < 64) by (unfold r; lia).
  assert (CNT : (((8 * N.of_nat (length m)) mod 2 ^ 64 + N.shiftl (N.of_nat (length data)) 3 mod 2 ^ 64)
                 mod 2 ^ 64 = (8 * N.of_nat (length (m ++ data))) mod 2 ^ 64)%N).
  { rewrite N.shiftl_mul_pow2, <- N.add_mod by discriminate. f_equal.
    rewrite app_length. change (2 ^ 3)%N with 8%N. lia. }
  destruct (Nat.ltb_spec 63 (r + length data)).
  - unfold memcpy at 1. rewrite HL.
    destruct (Nat.leb_spec (r + (64 - r)) 64); [|lia].
    destruct (Nat.leb_spec (0 + (64 - r)) (length data)); [|lia]. cbn [andb bind].
    set (buf1 := firstn r (buffer h) ++ firstn (64 - r) (skipn 0 data) ++ skipn (r + (64 - r)) (buffer h)).
    assert (Ebuf : buf1 = firstn 64 (skipn (64 * q) (m ++ data))).
    { unfold buf1. rewrite HF. cbn [skipn]. rewrite (skipn_all2 (buffer h)) by lia. rewrite app_nil_r.
      rewrite skipn_app. replace (64 * q - length m) with 0 by lia. cbn [skipn].
      rewrite firstn_app. rewrite skipn_length.
      rewrite (@firstn_all2 _ 64 (skipn (64 * q) m)) by (rewrite skipn_length; lia).
      do 2 f_equal. lia. }
    assert (HBuf1 : is_bytes buf1).
    { rewrite Ebuf. apply is_bytes_firstn, is_bytes_skipn. apply Forall_app; auto. }
    assert (L1 : length buf1 = 64).
    { rewrite Ebuf, firstn_length, skipn_length, app_length. lia. }
    rewrite transform_ok; auto; [|rewrite HS; apply blocks_words, H0_words|lia]. cbn [bind].
    rewrite (firstn_all2 buf1) by lia.
    set (q2 := (length data - (64 - r)) / 64).
    assert (L2 : 64 - r + 64 * q2 <= length data) by (unfold q2; lia).
    assert (L3 : length data < 64 - r + 64 * q2 + 64) by (unfold q2; lia).
    rewrite (update_blocks_ok data HB q2 _ _ _ (skipn (64 - r) data)); auto; [|apply compress_words|lia].
    cbn [bind]. unfold memcpy. rewrite L1.
    destruct (Nat.leb_spec (0 + (length data - (64 - r + 64 * q2))) 64); [|lia].
    destruct (Nat.leb_spec (64 - r + 64 * q2 + (length data - (64 - r + 64 * q2))) (length data)); [|lia].
    cbn [andb bind]. eexists; split; [reflexivity|].
    assert (LQ : length (m ++ data) / 64 = q + (1 + q2)) by (rewrite app_length; lia).
    assert (LR : length (m ++ data) mod 64 = length data - (64 - r + 64 * q2)).
    { rewrite app_length. lia. }
    assert (TAIL : skipn (64 - r + 64 * q2) data = skipn (64 * (q + (1 + q2))) (m ++ data)).
    { rewrite skipn_app. rewrite (skipn_all2 m) by lia. cbn [app]. f_equal. lia. }
    unfold absorbed. cbn [st count buffer]. splits.
    + rewrite LQ. rewrite blocks_add, blocks_prefix by lia. rewrite <- HS.
      change (1 + q2) with (S q2). cbn [blocks]. rewrite <- Ebuf. f_equal.
      rewrite skipn_skipn', skipn_app, (skipn_all2 m) by lia. cbn [app]. f_equal. lia.
    + exact CNT.
    + rewrite !app_length, firstn_length, firstn_length, !skipn_length. lia.
    + apply Forall_app. split; [constructor|]. apply Forall_app. split.
      * now apply is_bytes_firstn, is_bytes_skipn.
      * now apply is_bytes_skipn.
    + rewrite LQ, LR, <- TAIL. cbn [firstn app].
      rewrite firstn_app.
      set (n2 := length data - (64 - r + 64 * q2)).
      assert (LT : length (skipn (64 - r + 64 * q2) data) = n2) by (rewrite skipn_length; reflexivity).
      rewrite (@firstn_all2 _ n2 (skipn _ data)) by lia.
      rewrite (@firstn_all2 _ n2 (skipn (64 - r + 64 * q2) data)) by lia.
      rewrite LT, Nat.sub_diag, firstn_O, app_nil_r. reflexivity.
  - unfold memcpy. rewrite HL.
    destruct (Nat.leb_spec (r + length data) 64); [|lia].
    destruct (Nat.leb_spec (0 + length data) (length data)); [|lia]. cbn [andb bind skipn].
    rewrite (firstn_all2 data) by lia.
    eexists; split; [reflexivity|].
    assert (LQ : length (m ++ data) / 64 = q) by (rewrite app_length; lia).
    assert (LR : length (m ++ data) mod 64 = r + length data) by (rewrite app_length; lia).
    unfold absorbed. cbn [st count buffer]. splits.
    + rewrite LQ, blocks_prefix by lia. exact HS.
    + exact CNT.
    + rewrite !app_length, firstn_length, skipn_length. lia.
    + apply Forall_app. split; [now apply is_bytes_firstn|]. apply Forall_app. split; auto.
      now apply is_bytes_skipn.
    + rewrite LQ, LR. rewrite skipn_app. replace (64 * q - length m) with 0 by lia. cbn [skipn].
      rewrite app_assoc, firstn_app.
      assert (LL : length (firstn r (buffer h) ++ data) = r + length data).
      { rewrite app_length, firstn_length. lia. }
      rewrite (@firstn_all2 _ (r + length data) (firstn r (buffer h) ++ data)) by lia.
      rewrite LL, Nat.sub_diag, firstn_O, app_nil_r. now rewrite HF.
Qed.

Lemma updates_ok cs : forall h m, absorbed h m -> is_bytes m -> Forall is_bytes cs ->
  exists h', sha_updates h cs = Ok h' /\ absorbed h' (m ++ concat cs).
Proof.
  induction cs; intros h m A HM HC; cbn [sha_updates concat].
  - rewrite app_nil_r. eauto.
  - inversion HC; subst. destruct (update_ok h m a A HM H1) as (h1 & -> & A1). cbn [bind].
    destruct (IHcs h1 (m ++ a)) as (h2 & E2 & A2); auto.
    { apply Forall_app; auto. } exists h2. split; auto. now rewrite app_assoc.
Qed.

Lemma land504 n : (N.land ((8 * N.of_nat n) mod 2 ^ 64) 504 = 8 * N.of_nat (n mod 64))%N.
Proof.
  change 504%N with (N.shiftl 63 3).
  assert (E : ((8 * N.of_nat n) mod 2 ^ 64 = N.shiftl (N.of_nat n mod 2 ^ 61) 3)%N).
  { rewrite N.shiftl_mul_pow2. change (2 ^ 3)%N with 8%N.
    change (2 ^ 64)%N with (8 * 2 ^ 61)%N. rewrite N.mul_mod_distr_l by discriminate. lia. }
  rewrite E, <- N.shiftl_land. change 63%N with (2 ^ 6 - 1)%N. rewrite land_mask.
  rewrite N.shiftl_mul_pow2. change (2 ^ 3)%N with 8%N. change (2 ^ 6)%N with 64%N.
  change (2 ^ 61)%N with 2305843009213693952%N. lia.
Qed.

Lemma pad_loop_ok z : forall f h m, absorbed h m -> is_bytes m ->
  (length m + z) mod 64 = 56 -> z < 64 -> z < f ->
  exists h', pad_loop f h = Ok h' /\ absorbed h' (m ++ repeat 0%N z).
Proof.
  induction z; intros f h m A HM E Hz Hf; (destruct f; [lia|]); cbn [pad_loop];
    pose proof A as (HS & HC & HL & HBf & HF); rewrite HC, land504.
  - destruct (N.eqb_spec (8 * N.of_nat (length m mod 64)) 448); [|lia].
    exists h. cbn [repeat]. rewrite app_nil_r. auto.
  - destruct (N.eqb_spec (8 * N.of_nat (length m mod 64)) 448); [lia|].
    destruct (update_ok h m [0%N] A HM) as (h1 & -> & A1). { repeat constructor. }
    cbn [bind]. destruct (IHz f h1 (m ++ [0%N]) A1) as (h2 & E2 & A2).
    + apply Forall_app; split; auto. repeat constructor.
    + rewrite app_length. cbn [length]. replace (length m + 1 + z) with (length m + S z) by lia. auto.
    + lia.
    + lia.
    + exists h2. split; auto. now rewrite <- app_assoc in A2.
Qed.

Lemma be_byte_eq x s : be_byte x s = ((x / 2 ^ s) mod 256)%N.
Proof.
  unfold be_byte. rewrite N.shiftr_div_pow2. change 0xFF%N with (2 ^ 8 - 1)%N. now rewrite land_mask.
Qed.

Lemma be_bytes_bytes w x : is_bytes (be_bytes w x).
Proof.
  induction w; cbn [be_bytes]; constructor; auto. apply N.mod_lt. discriminate.
Qed.
Lemma length_be_bytes w x : length (be_bytes w x) = w.
Proof. induction w; cbn; auto. Qed.

Lemma zeros_ok n : (n + 1 + zeros n) mod 64 = 56 /\ zeros n < 64.
Proof. unfold zeros. lia. Qed.

Lemma final_ok h m : absorbed h m -> is_bytes m -> (8 * N.of_nat (length m) < 2 ^ 64)%N ->
  sha_final h = Ok (fips_sha1 m).
Proof.
  intros A HM HL. unfold sha_final.
  assert (FC : map (fun k => be_byte (count h) ((7 - N.of_nat k) * 8)) (seq 0 8)
               = be_bytes 8 (8 * N.of_nat (length m))).
  { destruct A as (_ & HC & _). rewrite HC, N.mod_small by auto.
    cbn [seq map be_bytes]. rewrite !be_byte_eq. reflexivity. }
  rewrite FC. clear FC.
  destruct (update_ok h m [0x80%N] A HM) as (h1 & -> & A1). { repeat constructor. } cbn [bind].
  assert (HM1 : is_bytes (m ++ [0x80%N])) by (apply Forall_app; split; auto; repeat constructor).
  destruct (zeros_ok (length m)) as [Z1 Z2].
  destruct (pad_loop_ok (zeros (length m)) 65 h1 _ A1 HM1) as (h2 & -> & A2); [|lia|lia|].
  { rewrite app_length. cbn [length]. lia. }
  cbn [bind].
  assert (HM2 : is_bytes ((m ++ [0x80%N]) ++ repeat 0%N (zeros (length m)))).
  { apply Forall_app; split; auto. apply Forall_forall. intros x I. apply repeat_spec in I. subst. reflexivity. }
  destruct (pad_loop_ok 0 65 h2 _ A2 HM2) as (h3 & -> & A3); [|lia|lia|].
  { rewrite !app_length, repeat_length. cbn [length]. rewrite Nat.add_0_r. lia. }
  cbn [bind]. cbn [repeat] in A3. rewrite app_nil_r in A3.
  destruct (update_ok h3 _ (be_bytes 8 (8 * N.of_nat (length m))) A3 HM2) as (h4 & -> & A4).
  { apply be_bytes_bytes. }
  cbn [bind].
  assert (P : ((m ++ [0x80%N]) ++ repeat 0%N (zeros (length m))) ++ be_bytes 8 (8 * N.of_nat (length m))
              = pad m).
  { unfold pad. now rewrite <- !app_assoc. }
  rewrite P in A4. destruct A4 as (HS & _). unfold fips_sha1. rewrite HS.
  destruct (blocks (length (pad m) / 64) H0 (pad m)) as [[[[a b] c] d] e].
  cbn [seq map Nat.div Nat.divmod fst nth be_bytes app].
  rewrite !be_byte_eq. reflexivity.
Qed.
