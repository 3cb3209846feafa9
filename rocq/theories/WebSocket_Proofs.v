From Verif Require Import Common Bits Vec_Model Vec_Proofs Vec_Props String_Model String_Spec String_Proofs
  String_Props Base64_Model Base64_Spec Base64_Proofs Base64_Props Sha1_Model Sha1_Spec Sha1_Proofs Sha1_Props
  WebSocket_Model WebSocket_Spec.

Lemma peek_map b : forall tl, peek (map Some b ++ tl) (length b) = Ok b.
Proof. induction b; intros; cbn; auto. now rewrite IHb. Qed.
Lemma peek_ok v b : shold v b -> peek (data v) (slength v) = Ok b.
Proof.
  intros H. rewrite (slength_ok _ _ H). destruct H as [(tl & E & _) NN]. rewrite E.
  rewrite map_app, <- app_assoc. apply peek_map.
Qed.

(** reading *)
Definition no_errors (s : stream) : Prop := forall i, plan s i <> None.

Lemma read_loop_total : forall f s got len, len < length got + f -> length got <= len ->
  exists r s', read_exact_loop f s got len = Ok (r, s') /\ plan s' = plan s /\
    (forall b, r = Some b -> length b = len).
Proof.
  induction f; intros s got len L Lg; [lia|]. cbn [read_exact_loop].
  destruct (Nat.ltb_spec (length got) len).
  2:{ exists (Some got), s. splits; auto. intros b [= <-]. lia. }
  unfold tcp_read. destruct (plan s (reads s)) as [k|] eqn:E.
  2:{ eexists _, _. splits; [reflexivity|reflexivity|]. discriminate. }
  set (n := Nat.min (k + 1) _). assert (LN : length (firstn n (input s)) = n).
  { rewrite firstn_length. unfold n. lia. }
  destruct (firstn n (input s)) as [|c b] eqn:F.
  { eexists _, _. splits; [reflexivity|reflexivity|]. discriminate. }
  destruct (IHf (mkstream (skipn n (input s)) (reads s + 1) (plan s)) (got ++ c :: b) len) as (r & s' & E' & P & Q).
  { rewrite app_length. cbn. lia. } { rewrite app_length. lia. }
  exists r, s'. splits; auto.
Qed.
Lemma read_exact_total s len : exists r s', read_exact s len = Ok (r, s') /\ plan s' = plan s /\
    (forall b, r = Some b -> length b = len).
Proof.
  destruct (read_loop_total (S len) s [] len) as (r & s' & E & P & Q); [cbn; lia|cbn; lia|].
  exists r, s'. splits; auto.
Qed.

Lemma read_loop_ok : forall f s got len, no_errors s -> len < length got + f -> length got <= len ->
  len - length got <= length (input s) ->
  exists s', read_exact_loop f s got len = Ok (Some (got ++ firstn (len - length got) (input s)), s') /\
    plan s' = plan s /\ input s' = skipn (len - length got) (input s).
Proof.
  induction f; intros s got len NE L Lg Li; [lia|]. cbn [read_exact_loop].
  destruct (Nat.ltb_spec (length got) len).
  2:{ exists s. replace (len - length got) with 0 by lia. cbn [firstn skipn]. now rewrite app_nil_r. }
  unfold tcp_read. destruct (plan s (reads s)) as [k|] eqn:E.
  2:{ now apply NE in E. }
  set (n := Nat.min (k + 1) _). assert (LN : length (firstn n (input s)) = n).
  { rewrite firstn_length. unfold n. lia. }
  assert (0 < n) by (unfold n; lia). assert (n <= len - length got) by (unfold n; lia).
  destruct (firstn n (input s)) as [|c b] eqn:F; [cbn in LN; lia|]. rewrite <- F in LN |- *.
  destruct (IHf (mkstream (skipn n (input s)) (reads s + 1) (plan s)) (got ++ firstn n (input s)) len)
    as (s' & E' & P & Q); auto.
  { rewrite app_length. lia. } { rewrite app_length. lia. }
  { rewrite app_length. cbn [input]. rewrite skipn_length. lia. }
  exists s'. cbn [input plan] in *. rewrite app_length, LN in *. splits; auto.
  - rewrite E', <- app_assoc. do 4 f_equal.
    replace (len - length got) with (n + (len - (length got + n))) by lia.
    rewrite <- (firstn_skipn n (input s)) at 3. rewrite firstn_app, LN.
    rewrite (@firstn_all2 _ _ (firstn n (input s))) by lia. do 2 f_equal. lia.
  - rewrite Q, skipn_skipn'. f_equal. lia.
Qed.
Lemma read_exact_ok s a rest : no_errors s -> input s = a ++ rest ->
  exists s', read_exact s (length a) = Ok (Some a, s') /\ no_errors s' /\ input s' = rest /\ plan s' = plan s.
Proof.
  intros NE E. destruct (read_loop_ok (S (length a)) s [] (length a) NE) as (s' & E' & P & Q); try (cbn; lia).
  { rewrite E, app_length. cbn. lia. }
  cbn [length app] in *. rewrite Nat.sub_0_r, E in *. exists s'. splits; auto.
  - unfold read_exact. rewrite E', firstn_app, Nat.sub_diag, firstn_all, firstn_O, app_nil_r. auto.
  - intros i. rewrite P. apply NE.
  - rewrite Q, skipn_app, Nat.sub_diag, skipn_all. reflexivity.
Qed.

(** masking *)
Fixpoint xmask (key b : bytes) (i : nat) : bytes :=
  match b with [] => [] | c :: b => N.lxor c (nth (i mod 4) key 0%N) :: xmask key b (i + 1) end.
Lemma xmask_spec key b : forall i,
  xmask key b i = map (fun '(i, c) => N.lxor c (nth (i mod 4) key 0%N)) (combine (seq i (length b)) b).
Proof.
  induction b; intros i; auto. cbn [xmask length seq combine map]. f_equal.
  replace (i + 1) with (S i) by lia. apply IHb.
Qed.
Lemma transformed_xmask key b : transformed key b = xmask key b 0.
Proof. now rewrite xmask_spec. Qed.
Lemma length_xmask key b : forall i, length (xmask key b i) = length b.
Proof. induction b; intros; cbn; auto. Qed.
Lemma xmask_twice key b : forall i, xmask key (xmask key b i) i = b.
Proof.
  induction b; intros i; auto. cbn [xmask]. f_equal; auto.
  now rewrite N.lxor_assoc, N.lxor_nilpotent, N.lxor_0_r.
Qed.
Lemma unmask_ok key b : length key = 4 -> forall i, unmask key b i = Ok (xmask key b i).
Proof.
  intros L. induction b; intros i; auto. cbn [unmask xmask].
  destruct (nth_error_lt key (i mod 4)) as [x E]. { pose proof (Nat.mod_upper_bound i 4). lia. }
  rewrite E, IHb. cbn [bind]. now rewrite (nth_error_nth _ _ _ E).
Qed.

Lemma land7f n m : (n < 128)%N -> (m = 0 \/ m = 128)%N -> N.land (m + n) 0x7F = n.
Proof.
  intros H [-> | ->]; change 0x7F%N with (2 ^ 7 - 1)%N; rewrite land_mask; change (2 ^ 7)%N with 128%N; lia.
Qed.
Lemma land80 n m : (n < 128)%N -> (m = 0 \/ m = 128)%N -> N.land (m + n) 0x80 = m.
Proof.
  intros H Hm. assert (E : (m + n)%N = N.lor (m / 128 * 2 ^ 7) n).
  { rewrite lor_add by (cbn; lia). destruct Hm as [-> | ->]; cbn; lia. }
  rewrite E, N.land_lor_distr_l.
  assert (Z : N.land n 128 = 0%N).
  { apply N.bits_inj. intros k. rewrite N.land_spec, N.bits_0. change 128%N with (2 ^ 7)%N.
    rewrite N.pow2_bits_eqb. destruct (N.eqb_spec 7 k) as [<-|]; [|apply andb_false_r].
    rewrite (bound_bits n 7 7); [reflexivity|exact H|lia]. }
  rewrite Z, N.lor_0_r. destruct Hm as [-> | ->]; reflexivity.
Qed.

Lemma be2 n : (n < 2 ^ 16)%N -> exists x y, be_bytes 2 n = [x; y] /\ N.lor (N.shiftl x 8) y = n /\
  x = N.land (N.shiftr n 8) 0xFF /\ y = N.land n 0xFF.
Proof.
  intros H. eexists _, _. split; [reflexivity|].
  change 0xFF%N with (2 ^ 8 - 1)%N. rewrite !land_mask, N.shiftr_div_pow2.
  change (256 ^ N.of_nat 1)%N with 256%N. change (256 ^ N.of_nat 0)%N with 1%N. change (2 ^ 8)%N with 256%N.
  change (2 ^ 16)%N with 65536%N in H. rewrite N.shiftl_mul_pow2.
  rewrite lor_add by (cbn; lia). change (2 ^ 8)%N with 256%N. splits; lia.
Qed.

(** sending *)
Lemma header_ok t : (N.of_nat (length t) < 2 ^ 64)%N -> ws_header (N.of_nat (length t)) ++ t = text_frame None t.
Proof.
  intros H. unfold ws_header, text_frame. set (n := N.of_nat (length t)) in *.
  destruct (N.leb_spec n 125); destruct (N.ltb_spec n 126); try lia.
  { rewrite N.mod_small by lia. rewrite N.add_0_l. reflexivity. }
  destruct (N.leb_spec n 65535); destruct (N.ltb_spec n (2 ^ 16)); try lia.
  { destruct (be2 n) as (x & y & -> & _ & -> & ->); auto. }
  cbn [map]. unfold len_byte. change 0xFF%N with (2 ^ 8 - 1)%N. rewrite !land_mask, !N.shiftr_div_pow2.
  reflexivity.
Qed.

(** receiving *)
Lemma recv_frame s mask t rest : no_errors s -> mask_ok mask -> (N.of_nat (length t) < 2 ^ 16)%N ->
  input s = text_frame mask t ++ rest ->
  exists v s', ws_recv s = Ok (Received v, s') /\ shold v (cstr t) /\
    no_errors s' /\ input s' = rest /\ plan s' = plan s.
Proof.
  intros NE MO HL E. unfold text_frame in E. set (n := N.of_nat (length t)) in *.
  set (m := match mask with Some _ => 128%N | None => 0%N end) in *.
  assert (Hm : (m = 0 \/ m = 128)%N) by (unfold m; destruct mask; auto).
  set (body := match mask with Some key => key ++ transformed key t | None => t end) in *.
  (* tail of recv after the length *)
  assert (TAIL : forall s1, no_errors s1 -> input s1 = body ++ rest ->
    exists v s', (do '(k, s) <-
          (if negb (m =? 0)%N then
             do '(r, s) <- read_exact s1 4;
             match r with None => Ok (inr ReadMask, s) | Some k => Ok (inl k, s) end
           else Ok (inl [], s1));
        match k with
        | inr e => Ok (Failed e, s)
        | inl key =>
          do '(r, s) <- read_exact s (length t);
          match r with
          | None => Ok (Failed ReadFailed, s)
          | Some buf =>
            do buf <- (if negb (m =? 0)%N then unmask key buf 0 else Ok buf);
            do v <- snew (buf ++ [0%N]);
            Ok (Received v, s)
          end
        end) = Ok (Received v, s') /\ shold v (cstr t) /\ no_errors s' /\ input s' = rest /\ plan s' = plan s1).
  { assert (CS : cstr (t ++ [0%N]) = cstr t).
    { clear. induction t; cbn; auto. destruct (a =? 0)%N; auto. now rewrite IHt. }
    intros s1 NE1 E1. unfold body, m in *. destruct mask as [key|].
    - destruct MO as [LK HK]. change (negb (128 =? 0)%N) with true. cbv iota.
      rewrite <- app_assoc in E1. destruct (read_exact_ok s1 key _ NE1 E1) as (s2 & R2 & NE2 & E2 & P2).
      rewrite LK in R2. rewrite R2. cbn [bind].
      destruct (read_exact_ok s2 _ _ NE2 E2) as (s3 & R3 & NE3 & E3 & P3).
      rewrite transformed_xmask, length_xmask in *. rewrite R3. cbn [bind].
      rewrite unmask_ok by auto. cbn [bind]. rewrite xmask_twice.
      destruct (snew_ok (t ++ [0%N])) as (v & -> & Hv). cbn [bind]. rewrite CS in Hv.
      exists v, s3. splits; auto. congruence.
    - change (negb (0 =? 0)%N) with false. cbv iota. cbn [bind]. destruct (read_exact_ok s1 _ _ NE1 E1) as (s3 & R3 & NE3 & E3 & P3).
      rewrite R3. cbn [bind].
      destruct (snew_ok (t ++ [0%N])) as (v & -> & Hv). cbn [bind]. rewrite CS in Hv.
      exists v, s3. splits; auto. }
  unfold ws_recv. destruct (N.ltb_spec n 126).
  - change (input s = [129%N; (m + n)%N] ++ (body ++ rest)) in E.
    destruct (read_exact_ok s [129%N; (m + n)%N] _ NE E) as (s1 & R1 & NE1 & E1 & P1).
    change (length [129%N; (m + n)%N]) with 2 in R1. rewrite R1. cbn [bind nth_error].
    change (N.land 129 0x0F) with 1%N. change (1 =? 8)%N with false. change (negb (1 =? 1)%N) with false. cbv iota.
    rewrite land7f, land80 by (auto; lia). destruct (N.leb_spec n 125); [|lia]. cbn [bind].
    unfold n. rewrite Nat2N.id. destruct (TAIL s1 NE1 E1) as (v & s' & -> & ?). exists v, s'.
    intuition; congruence.
  - destruct (N.ltb_spec n (2 ^ 16)); [|lia]. destruct (be2 n) as (x & y & B & L & _ & _); auto. rewrite B in E.
    change (input s = [129%N; (m + 126)%N] ++ ([x; y] ++ (body ++ rest))) in E.
    destruct (read_exact_ok s [129%N; (m + 126)%N] _ NE E) as (s1 & R1 & NE1 & E1 & P1).
    change (length [129%N; (m + 126)%N]) with 2 in R1. rewrite R1. cbn [bind nth_error].
    change (N.land 129 0x0F) with 1%N. change (1 =? 8)%N with false. change (negb (1 =? 1)%N) with false. cbv iota.
    rewrite land7f, land80 by (auto; lia). change (126 <=? 125)%N with false. change (126 =? 126)%N with true. cbv iota.
    destruct (read_exact_ok s1 [x; y] _ NE1 E1) as (s2 & R2 & NE2 & E2 & P2).
    change (length [x; y]) with 2 in R2. rewrite R2. cbn [bind nth_error].
    rewrite L. unfold n. rewrite Nat2N.id. destruct (TAIL s2 NE2 E2) as (v & s' & -> & ?). exists v, s'.
    intuition; congruence.
Qed.

Lemma recv_huge s mask t rest : no_errors s -> (2 ^ 16 <= N.of_nat (length t))%N ->
  input s = text_frame mask t ++ rest -> exists s', ws_recv s = Ok (Failed Huge, s').
Proof.
  intros NE HL E. unfold text_frame in E. set (n := N.of_nat (length t)) in *.
  set (m := match mask with Some _ => 128%N | None => 0%N end) in *.
  assert (Hm : (m = 0 \/ m = 128)%N) by (unfold m; destruct mask; auto).
  destruct (N.ltb_spec n 126); [lia|]. destruct (N.ltb_spec n (2 ^ 16)); [lia|].
  rewrite <- !app_assoc in E. cbn [app] in E.
  change (129%N :: (m + 127)%N :: ?l) with ([129%N; (m + 127)%N] ++ l) in E.
  destruct (read_exact_ok s [129%N; (m + 127)%N] _ NE E) as (s1 & R1 & NE1 & E1 & P1).
  change (length [129%N; (m + 127)%N]) with 2 in R1. unfold ws_recv. rewrite R1. cbn [bind nth_error].
  change (N.land 129 0x0F) with 1%N. change (1 =? 8)%N with false. change (negb (1 =? 1)%N) with false. cbv iota.
  rewrite land7f by (auto; lia). change (127 <=? 125)%N with false. change (127 =? 126)%N with false.
  cbv iota. cbn [bind]. eauto.
Qed.

Lemma recv_total s : exists r s', ws_recv s = Ok (r, s').
Proof.
  unfold ws_recv. destruct (read_exact_total s 2) as (r & s1 & -> & _ & L). cbn [bind].
  destruct r as [h|]; [|eauto]. specialize (L h eq_refl).
  destruct h as [|b1 [|b2 [|? ?]]]; try discriminate. cbn [nth_error bind].
  destruct (N.land b1 15 =? 8)%N; [eauto|]. destruct (negb _); [eauto|].
  set (masked := negb (N.land b2 128 =? 0)%N).
  assert (TAIL : forall s1 len, exists r s', (do '(k, s) <-
          (if masked then
             do '(r, s) <- read_exact s1 4;
             match r with None => Ok (inr ReadMask, s) | Some k => Ok (inl k, s) end
           else Ok (inl [], s1));
        match k with
        | inr e => Ok (Failed e, s)
        | inl key =>
          do '(r, s) <- read_exact s len;
          match r with
          | None => Ok (Failed ReadFailed, s)
          | Some buf =>
            do buf <- (if masked then unmask key buf 0 else Ok buf);
            do v <- snew (buf ++ [0%N]);
            Ok (Received v, s)
          end
        end) = Ok (r, s')).
  { intros s2 len. destruct masked.
    - destruct (read_exact_total s2 4) as (r & s3 & -> & _ & L2). cbn [bind].
      destruct r as [k|]; cbn [bind]; [|eauto]. specialize (L2 k eq_refl).
      destruct (read_exact_total s3 len) as (r & s4 & -> & _ & L3). cbn [bind].
      destruct r as [b|]; [|eauto]. rewrite unmask_ok by auto. cbn [bind].
      destruct (snew_ok (xmask k b 0 ++ [0%N])) as (v & -> & _). cbn. eauto.
    - cbn [bind]. destruct (read_exact_total s2 len) as (r & s4 & -> & _ & L3). cbn [bind].
      destruct r as [b|]; [|eauto]. cbn [bind].
      destruct (snew_ok (b ++ [0%N])) as (v & -> & _). cbn. eauto. }
  destruct (N.land b2 127 <=? 125)%N.
  { cbn [bind]. apply TAIL. }
  destruct (N.land b2 127 =? 126)%N; [|cbn; eauto].
  destruct (read_exact_total s1 2) as (r & s2 & -> & _ & L9). cbn [bind].
  destruct r as [h|]; [|cbn; eauto]. specialize (L9 h eq_refl).
  destruct h as [|x [|y [|? ?]]]; try discriminate. cbn [nth_error bind]. apply TAIL.
Qed.

Lemma handshake_ok accept key k : shold key k -> is_bytes k ->
  (N.of_nat (length (k ++ GUID)) < 2 ^ 61)%N ->
  ws_handshake accept key = Ok (tcp_write accept 0 (handshake_response k)).
Proof.
  intros H HB HL. unfold ws_handshake. rewrite (cread_ok _ _ H). cbn [bind].
  destruct (snew_ok k) as (b & -> & Hb). rewrite cstr_id in Hb by apply H. cbn [bind].
  destruct (sappend_c_ok b k ws_guid Hb) as (b1 & -> & Hb1). cbn [bind].
  change (cstr ws_guid) with GUID in Hb1. rewrite (peek_ok _ _ Hb1). cbn [bind].
  assert (HB1 : is_bytes (k ++ GUID)). { apply Forall_app. split; auto. repeat constructor. }
  destruct (C16_sha1_hash _ HB1 HL) as (-> & _ & HD). cbn [bind].
  destruct (b64_encode_ok _ HD) as (a & -> & Ha). cbn [bind]. fold (accept_value k) in Ha.
  destruct (snew_ok (bs "HTTP/1.1 101 Switching Protocols" ++ crlf)) as (r & -> & Hr). cbn [bind].
  destruct (sappend_c_ok r _ (bs "Upgrade: websocket" ++ crlf) Hr) as (r1 & -> & Hr1). cbn [bind].
  destruct (sappend_c_ok r1 _ (bs "Connection: Upgrade" ++ crlf) Hr1) as (r2 & -> & Hr2). cbn [bind].
  destruct (sappend_c_ok r2 _ (bs "Sec-WebSocket-Accept: ") Hr2) as (r3 & -> & Hr3). cbn [bind].
  destruct (sappend_ok r3 _ a _ Hr3 Ha) as (r4 & -> & Hr4). cbn [bind].
  destruct (sappend_c_ok r4 _ (crlf ++ crlf) Hr4) as (r5 & -> & Hr5). cbn [bind].
  rewrite (peek_ok _ _ Hr5). reflexivity.
Qed.
