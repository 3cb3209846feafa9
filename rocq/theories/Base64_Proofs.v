From Verif Require Import Common Bits Vec_Model Vec_Proofs String_Model String_Spec String_Proofs
  Base64_Model Base64_Spec.

Lemma bytes_ind3 (P : list N -> Prop) :
  P [] -> (forall a, P [a]) -> (forall a b, P [a; b]) ->
  (forall a b c l, P l -> P (a :: b :: c :: l)) -> forall l, P l.
Proof.
  intros H0 H1 H2 H3. refine (fix go l := _).
  destruct l as [|a [|b [|c l]]];
    [exact H0|exact (H1 a)|exact (H2 a b)|exact (H3 a b c l (go l))].
Qed.

Lemma shl16 a : N.shiftl a 16 = (a * 2 ^ 16)%N.
Proof. apply N.shiftl_mul_pow2. Qed.

Lemma triple3 a b c : (b < 256)%N -> (c < 256)%N ->
  N.lor (N.lor (N.shiftl a 16) (N.shiftl b 8)) c = (a * 65536 + b * 256 + c)%N.
Proof.
  intros Hb Hc. rewrite !N.shiftl_mul_pow2.
  rewrite (lor_add a (b * 2 ^ 8) 16) by (cbn; lia).
  replace (a * 2 ^ 16 + b * 2 ^ 8)%N with ((a * 256 + b) * 2 ^ 8)%N by (cbn; lia).
  rewrite lor_add by (cbn; lia). cbn. lia.
Qed.
Lemma triple2 a b : (b < 256)%N ->
  N.lor (N.shiftl a 16) (N.shiftl b 8) = (a * 65536 + b * 256)%N.
Proof.
  intros Hb. rewrite !N.shiftl_mul_pow2. rewrite lor_add by (cbn; lia). cbn. lia.
Qed.

Lemma sextet_eq t k : sextet t k = ((t / 2 ^ k) mod 64)%N.
Proof.
  unfold sextet. rewrite N.shiftr_div_pow2. change 0x3F%N with (2 ^ 6 - 1)%N. now rewrite land_mask.
Qed.

Definition achar (n : N) : N := nth (N.to_nat n) alphabet 0%N.

Lemma tbl_ok n : (n < 64)%N -> tbl n = Ok (achar n) /\ achar n <> 0%N.
Proof.
  intros H. unfold tbl, achar.
  assert (L : N.to_nat n < length alphabet) by (vm_compute (length alphabet); lia).
  change b64_table with alphabet.
  destruct (nth_error_lt alphabet _ L) as [x E]. rewrite E.
  rewrite (nth_error_nth _ _ _ E). split; auto.
  assert (A : forallb (fun c => negb (c =? 0)%N) alphabet = true) by (vm_compute; reflexivity).
  rewrite forallb_forall in A. apply nth_error_In in E. specialize (A _ E).
  now destruct (N.eqb_spec x 0).
Qed.

(** the characters of the specification, by triples *)
Lemma val6 (b1 b2 b3 b4 b5 b6 : bool) :
  val_be [b1; b2; b3; b4; b5; b6] =
  (32 * N.b2n b1 + 16 * N.b2n b2 + 8 * N.b2n b3 + 4 * N.b2n b4 + 2 * N.b2n b5 + N.b2n b6)%N.
Proof. now destruct b1, b2, b3, b4, b5, b6. Qed.

(** The bits of a byte, checked for all 256 *)
Definition byte_fact (a : N) : bool :=
  let t i := N.b2n (N.testbit a i) in
  ((32 * t 7 + 16 * t 6 + 8 * t 5 + 4 * t 4 + 2 * t 3 + t 2 =? a / 4) && (2 * t 1 + t 0 =? a mod 4) &&
   (8 * t 7 + 4 * t 6 + 2 * t 5 + t 4 =? a / 16) && (8 * t 3 + 4 * t 2 + 2 * t 1 + t 0 =? a mod 16) &&
   (2 * t 7 + t 6 =? a / 64) && (32 * t 5 + 16 * t 4 + 8 * t 3 + 4 * t 2 + 2 * t 1 + t 0 =? a mod 64))%N.
Lemma byte_facts a : (a < 256)%N -> byte_fact a = true.
Proof.
  intros H. assert (A : forallb (fun i => byte_fact (N.of_nat i)) (seq 0 256) = true) by (vm_compute; reflexivity).
  rewrite forallb_forall in A. specialize (A (N.to_nat a)). rewrite N2Nat.id in A. apply A. apply in_seq. lia.
Qed.
Ltac sext := rewrite val6; cbn [N.b2n];
  repeat match goal with H : (?a < 256)%N |- _ =>
    let F := fresh in pose proof (byte_facts a H) as F; clear H; unfold byte_fact in F; rewrite !andb_true_iff, !N.eqb_eq in F end;
  lia.

Lemma s1 a : (a < 256)%N -> val_be [N.testbit a 7; N.testbit a 6; N.testbit a 5; N.testbit a 4;
   N.testbit a 3; N.testbit a 2] = (a / 4)%N.
Proof. intros. sext. Qed.
Lemma s2 a b : (a < 256)%N -> (b < 256)%N ->
  val_be [N.testbit a 1; N.testbit a 0; N.testbit b 7; N.testbit b 6; N.testbit b 5; N.testbit b 4]
  = ((a mod 4) * 16 + b / 16)%N.
Proof. intros. sext. Qed.
Lemma s3 b c : (b < 256)%N -> (c < 256)%N ->
  val_be [N.testbit b 3; N.testbit b 2; N.testbit b 1; N.testbit b 0; N.testbit c 7; N.testbit c 6]
  = ((b mod 16) * 4 + c / 64)%N.
Proof. intros. sext. Qed.
Lemma s4 c : (c < 256)%N ->
  val_be [N.testbit c 5; N.testbit c 4; N.testbit c 3; N.testbit c 2; N.testbit c 1; N.testbit c 0]
  = (c mod 64)%N.
Proof. intros. sext. Qed.
Lemma s2' a : (a < 256)%N ->
  val_be [N.testbit a 1; N.testbit a 0; false; false; false; false] = ((a mod 4) * 16)%N.
Proof. intros. sext. Qed.
Lemma s3' b : (b < 256)%N ->
  val_be [N.testbit b 3; N.testbit b 2; N.testbit b 1; N.testbit b 0; false; false]
  = ((b mod 16) * 4)%N.
Proof. intros. sext. Qed.

Lemma rfc_cons a b c l : (a < 256)%N -> (b < 256)%N -> (c < 256)%N ->
  rfc4648 (a :: b :: c :: l) =
  [achar (a / 4); achar ((a mod 4) * 16 + b / 16); achar ((b mod 16) * 4 + c / 64); achar (c mod 64)]%N
  ++ rfc4648 l.
Proof.
  intros Ha Hb Hc. unfold rfc4648.
  set (rest := concat (map (bits_be 8) l)).
  change (concat (map (bits_be 8) (a :: b :: c :: l)))
    with (bits_be 8 a ++ bits_be 8 b ++ bits_be 8 c ++ rest).
  cbn [bits_be app sextets map]. cbn [length].
  change (N.of_nat 7) with 7%N; change (N.of_nat 6) with 6%N; change (N.of_nat 5) with 5%N;
  change (N.of_nat 4) with 4%N; change (N.of_nat 3) with 3%N; change (N.of_nat 2) with 2%N;
  change (N.of_nat 1) with 1%N; change (N.of_nat 0) with 0%N.
  rewrite s1, s2, s3, s4 by auto.
  set (cs := map _ (sextets rest)).
  replace (S (S (S (S (length cs)))) mod 4) with (length cs mod 4).
  2:{ replace (S (S (S (S (length cs))))) with (length cs + 1 * 4) by lia. now rewrite Nat.mod_add. }
  reflexivity.
Qed.
Lemma rfc_two a b : (a < 256)%N -> (b < 256)%N ->
  rfc4648 [a; b] = [achar (a / 4); achar ((a mod 4) * 16 + b / 16); achar ((b mod 16) * 4); ch "="]%N.
Proof.
  intros Ha Hb. unfold rfc4648. cbn [map concat bits_be app sextets length Nat.sub repeat].
  change (N.of_nat 7) with 7%N; change (N.of_nat 6) with 6%N; change (N.of_nat 5) with 5%N;
  change (N.of_nat 4) with 4%N; change (N.of_nat 3) with 3%N; change (N.of_nat 2) with 2%N;
  change (N.of_nat 1) with 1%N; change (N.of_nat 0) with 0%N.
  rewrite s1, s2, s3' by auto. reflexivity.
Qed.
Lemma rfc_one a : (a < 256)%N ->
  rfc4648 [a] = [achar (a / 4); achar ((a mod 4) * 16); ch "="; ch "="]%N.
Proof.
  intros Ha. unfold rfc4648. cbn [map concat bits_be app sextets length Nat.sub repeat].
  change (N.of_nat 7) with 7%N; change (N.of_nat 6) with 6%N; change (N.of_nat 5) with 5%N;
  change (N.of_nat 4) with 4%N; change (N.of_nat 3) with 3%N; change (N.of_nat 2) with 2%N;
  change (N.of_nat 1) with 1%N; change (N.of_nat 0) with 0%N.
  rewrite s1, s2' by auto. reflexivity.
Qed.

Lemma dat_skip data i a r : skipn i data = a :: r -> dat data i = Ok a /\ i < length data.
Proof.
  intros E. unfold dat. assert (nth_error data i = Some a) as ->.
  { rewrite <- (Nat.add_0_r i), <- nth_error_skipn, E. reflexivity. }
  split; auto. destruct (Nat.lt_ge_cases i (length data)); auto.
  rewrite skipn_all2 in E by lia. discriminate.
Qed.
Lemma skipn_add {A} i j (l : list A) : skipn (i + j) l = skipn j (skipn i l).
Proof. symmetry. apply skipn_skipn'. Qed.

Lemma cstr4 a b c d : a <> 0%N -> b <> 0%N -> c <> 0%N -> d <> 0%N -> cstr [a; b; c; d; 0%N] = [a; b; c; d].
Proof.
  intros. cbn. destruct (N.eqb_spec a 0), (N.eqb_spec b 0), (N.eqb_spec c 0), (N.eqb_spec d 0);
    try congruence; reflexivity.
Qed.

Lemma b64_loop_ok data : is_bytes data -> forall l, forall f i out o,
  skipn i data = l -> length l < f -> shold out o ->
  exists out', b64_loop f data out i = Ok out' /\ shold out' (o ++ rfc4648 l).
Proof.
  intros HB. assert (EQ : ch "=" <> 0%N) by (vm_compute; discriminate).
  induction l as [|a|a b|a b c l IH] using bytes_ind3; intros f i out o E Hf Ho;
    (destruct f; [lia|]); cbn [b64_loop].
  - destruct (Nat.ltb_spec i (length data)).
    { exfalso. pose proof (skipn_length i data). rewrite E in H0. cbn in H0. lia. }
    exists out. cbn. rewrite app_nil_r. auto.
  - assert (L := f_equal (@length N) E). rewrite skipn_length in L. cbn in L.
    destruct (dat_skip _ _ _ _ E) as [-> Hi].
    assert (Ba : (a < 256)%N).
    { unfold is_bytes in HB. rewrite Forall_forall in HB. apply HB.
      rewrite <- (firstn_skipn i data), E. apply in_or_app; right; left; auto. }
    destruct (Nat.ltb_spec i (length data)); [|lia]. cbn [bind].
    destruct (Nat.ltb_spec (i + 1) (length data)); [lia|].
    rewrite !sextet_eq, shl16.
    replace ((a * 2 ^ 16 / 2 ^ 18) mod 64)%N with (a / 4)%N by (cbn; lia).
    replace ((a * 2 ^ 16 / 2 ^ 12) mod 64)%N with ((a mod 4) * 16)%N by (cbn; lia).
    destruct (tbl_ok (a / 4)) as [-> N1]; [lia|]. destruct (tbl_ok (a mod 4 * 16)) as [-> N2]; [lia|].
    cbn [bind].
    destruct (sappend_c_ok out o [achar (a / 4); achar (a mod 4 * 16); ch "="; ch "="; 0%N] Ho)
      as (o1 & -> & H1). cbn [bind]. rewrite cstr4 in H1 by auto.
    exists o1. destruct f; [cbn in Hf; lia|]. cbn [b64_loop].
    destruct (Nat.ltb_spec (i + 1) (length data)); [lia|]. split; auto. now rewrite rfc_one.
  - assert (L := f_equal (@length N) E). rewrite skipn_length in L. cbn in L.
    destruct (dat_skip _ _ _ _ E) as [-> Hi].
    assert (E1 : skipn (i + 1) data = [b]) by (rewrite skipn_add, E; reflexivity).
    destruct (dat_skip _ _ _ _ E1) as [-> Hi1].
    assert (Ba : Forall is_byte (a :: b :: [])).
    { unfold is_bytes in HB. rewrite <- (firstn_skipn i data), E in HB. now apply Forall_app in HB. }
    inversion Ba as [|? ? B1 T1]; subst. inversion T1 as [|? ? B2 T2]; subst. unfold is_byte in *.
    destruct (Nat.ltb_spec i (length data)); [|lia]. cbn [bind].
    destruct (Nat.ltb_spec (i + 1) (length data)); [|lia]. cbn [bind].
    destruct (Nat.ltb_spec (i + 2) (length data)); [lia|].
    rewrite !sextet_eq, triple2 by auto.
    replace (((a * 65536 + b * 256) / 2 ^ 18) mod 64)%N with (a / 4)%N by (cbn; lia).
    replace (((a * 65536 + b * 256) / 2 ^ 12) mod 64)%N with ((a mod 4) * 16 + b / 16)%N by (cbn; lia).
    replace (((a * 65536 + b * 256) / 2 ^ 6) mod 64)%N with ((b mod 16) * 4)%N by (cbn; lia).
    destruct (tbl_ok (a / 4)) as [-> N1]; [lia|].
    destruct (tbl_ok (a mod 4 * 16 + b / 16)) as [-> N2]; [lia|].
    destruct (tbl_ok (b mod 16 * 4)) as [-> N3]; [lia|].
    cbn [bind].
    destruct (sappend_c_ok out o
      [achar (a / 4); achar (a mod 4 * 16 + b / 16); achar (b mod 16 * 4); ch "="; 0%N] Ho)
      as (o1 & -> & H2). cbn [bind]. rewrite cstr4 in H2 by auto.
    exists o1. destruct f; [cbn in Hf; lia|]. cbn [b64_loop].
    destruct (Nat.ltb_spec (i + 2) (length data)); [lia|]. split; auto. now rewrite rfc_two.
  - assert (L := f_equal (@length N) E). rewrite skipn_length in L. cbn in L.
    destruct (dat_skip _ _ _ _ E) as [-> Hi].
    assert (E1 : skipn (i + 1) data = b :: c :: l) by (rewrite skipn_add, E; reflexivity).
    destruct (dat_skip _ _ _ _ E1) as [-> Hi1].
    assert (E2 : skipn (i + 2) data = c :: l) by (rewrite skipn_add, E; reflexivity).
    destruct (dat_skip _ _ _ _ E2) as [-> Hi2].
    assert (Ba : Forall is_byte (a :: b :: c :: l)).
    { unfold is_bytes in HB. rewrite <- (firstn_skipn i data), E in HB. now apply Forall_app in HB. }
    inversion Ba as [|? ? B1 T1]; subst. inversion T1 as [|? ? B2 T2]; subst.
    inversion T2 as [|? ? B3 T3]; subst. unfold is_byte in *.
    destruct (Nat.ltb_spec i (length data)); [|lia]. cbn [bind].
    destruct (Nat.ltb_spec (i + 1) (length data)); [|lia]. cbn [bind].
    destruct (Nat.ltb_spec (i + 2) (length data)); [|lia]. cbn [bind].
    rewrite !sextet_eq, triple3 by auto.
    replace (((a * 65536 + b * 256 + c) / 2 ^ 18) mod 64)%N with (a / 4)%N by (cbn; lia).
    replace (((a * 65536 + b * 256 + c) / 2 ^ 12) mod 64)%N with ((a mod 4) * 16 + b / 16)%N by (cbn; lia).
    replace (((a * 65536 + b * 256 + c) / 2 ^ 6) mod 64)%N with ((b mod 16) * 4 + c / 64)%N by (cbn; lia).
    replace (((a * 65536 + b * 256 + c) / 2 ^ 0) mod 64)%N with (c mod 64)%N by (cbn; lia).
    destruct (tbl_ok (a / 4)) as [-> N1]; [lia|].
    destruct (tbl_ok (a mod 4 * 16 + b / 16)) as [-> N2]; [lia|].
    destruct (tbl_ok (b mod 16 * 4 + c / 64)) as [-> N3]; [lia|].
    destruct (tbl_ok (c mod 64)) as [-> N4]; [lia|].
    cbn [bind].
    destruct (sappend_c_ok out o
      [achar (a / 4); achar (a mod 4 * 16 + b / 16); achar (b mod 16 * 4 + c / 64); achar (c mod 64); 0%N] Ho)
      as (o1 & -> & H3). cbn [bind]. rewrite cstr4 in H3 by auto.
    assert (E3 : skipn (i + 3) data = l) by (rewrite skipn_add, E; reflexivity).
    assert (Hf' : length l < f) by (cbn in Hf; lia).
    destruct (IH f (i + 3) o1 _ E3 Hf' H3) as (o2 & E4 & H4).
    exists o2. split; auto. rewrite rfc_cons by auto. now rewrite <- app_assoc in H4.
Qed.

Lemma sreserve_ok v b n : shold v b -> exists v', sreserve v n = Ok v' /\ shold v' b.
Proof.
  intros [R NN]. unfold sreserve.
  destruct (Nat.leb_spec (length (b ++ [0%N])) (n + 1)).
  - destruct (vgrow_to_fit_ok _ _ _ R H) as (v' & E & R' & _). exists v'. split; auto. split; auto.
  - unfold vgrow_to_fit. pose proof R as R0. destruct R as (tl & E & L & C).
    destruct (Nat.leb_spec (n + 1) (cap v)).
    + exists v. split; auto. split; auto.
    + exfalso. rewrite C, E, app_length, map_length in H0. lia.
Qed.

Lemma b64_encode_ok data : is_bytes data ->
  exists v, b64_encode data = Ok v /\ shold v (rfc4648 data).
Proof.
  intros HB. unfold b64_encode. destruct (snew_ok []) as (o & -> & Ho). cbn [bind].
  destruct (sreserve_ok _ _ (4 * ((length data + 2) / 3)) Ho) as (o' & -> & Ho'). cbn [bind].
  destruct (b64_loop_ok data HB data (S (length data)) 0 o' _ eq_refl (Nat.lt_succ_diag_r _) Ho')
    as (v & E & R). exists v. split; auto.
Qed.

(** shape and round trip of the specification *)
Lemma rfc_length data : is_bytes data -> length (rfc4648 data) = 4 * ((length data + 2) / 3).
Proof.
  induction data as [|a|a b|a b c l IH] using bytes_ind3; intros HB.
  - reflexivity.
  - inversion HB; subst. rewrite rfc_one by auto. reflexivity.
  - inversion HB as [|? ? B1 T1]; subst. inversion T1; subst. rewrite rfc_two by auto. reflexivity.
  - inversion HB as [|? ? B1 T1]; subst. inversion T1 as [|? ? B2 T2]; subst.
    inversion T2 as [|? ? B3 T3]; subst. rewrite rfc_cons by auto. rewrite app_length, IH by auto.
    cbn [length]. replace (S (S (S (length l))) + 2) with (length l + 2 + 1 * 3) by lia.
    rewrite Nat.div_add by lia. lia.
Qed.

Lemma sextets_spec l : exists z, concat (sextets l) = l ++ repeat false z /\ z < 6 /\
  Forall (fun g => length g = 6) (sextets l).
Proof.
  revert l. refine (fix go l := _).
  destruct l as [|a [|b [|c [|d [|e [|f r]]]]]].
  - exists 0. cbn. splits; auto; lia.
  - exists 5. cbn. splits; auto; lia.
  - exists 4. cbn. splits; auto; lia.
  - exists 3. cbn. splits; auto; lia.
  - exists 2. cbn. splits; auto; lia.
  - exists 1. cbn. splits; auto; lia.
  - destruct (go r) as (z & E & Hz & F). exists z. cbn [sextets concat app].
    rewrite E. splits; auto.
Qed.

Lemma octets_spec data z : is_bytes data -> z < 8 ->
  octets (concat (map (bits_be 8) data) ++ repeat false z) = data.
Proof.
  intros HB Hz. induction HB.
  - cbn [map concat app]. do 8 (destruct z as [|z]; [reflexivity|]). lia.
  - cbn [map concat]. rewrite <- app_assoc.
    assert (E : val_be (bits_be 8 x) = x).
    { rewrite val_bits_be. apply N.mod_small. exact H. }
    revert E. cbn [bits_be app octets]. intros ->. f_equal. exact IHHB.
Qed.

Lemma position_achar n : (n < 64)%N -> position (achar n) alphabet 0 = Some n /\ achar n <> ch "=".
Proof.
  intros H.
  assert (A : forallb (fun i => match position (achar (N.of_nat i)) alphabet 0 with
     | Some j => (j =? N.of_nat i)%N | None => false end && negb (achar (N.of_nat i) =? ch "=")%N)
     (seq 0 64) = true) by (vm_compute; reflexivity).
  rewrite forallb_forall in A. specialize (A (N.to_nat n)). rewrite N2Nat.id in A.
  rewrite andb_true_iff in A. destruct A as [A1 A2]; [apply in_seq; lia|].
  destruct (position (achar n) alphabet 0); [|discriminate]. split.
  - f_equal. now apply N.eqb_eq.
  - intros E. rewrite E in A2. now rewrite N.eqb_refl in A2.
Qed.

Lemma text_bits_groups gs p : Forall (fun g => length g = 6) gs ->
  text_bits (map (fun g => nth (N.to_nat (val_be g)) alphabet 0%N) gs ++ repeat (ch "=") p)
  = Some (concat gs).
Proof.
  induction 1; cbn [map app concat].
  - destruct p; reflexivity.
  - cbn [text_bits]. fold (achar (val_be x)).
    pose proof (val_be_bound x) as B. rewrite H in B. change (2 ^ N.of_nat 6)%N with 64%N in B.
    destruct (position_achar _ B) as [-> Ne].
    destruct (N.eqb_spec (achar (val_be x)) (ch "=")); [easy|].
    unfold achar in IHForall. rewrite IHForall. f_equal. f_equal. rewrite <- H. apply bits_val_be.
Qed.

Lemma decode_rfc data : is_bytes data -> b64_decode (rfc4648 data) = Some data.
Proof.
  intros HB. unfold b64_decode, rfc4648.
  destruct (sextets_spec (concat (map (bits_be 8) data))) as (z & E & Hz & F).
  rewrite text_bits_groups by auto. cbn [option_map]. f_equal. rewrite E.
  apply octets_spec; [exact HB|lia].
Qed.

Lemma rfc_chars data : is_bytes data ->
  Forall (fun c => In c alphabet \/ c = ch "=") (rfc4648 data).
Proof.
  intros HB. unfold rfc4648. apply Forall_app. split.
  - destruct (sextets_spec (concat (map (bits_be 8) data))) as (z & _ & _ & F).
    induction F; cbn [map]; constructor; auto.
    left. apply nth_In. pose proof (val_be_bound x) as B. rewrite H in B.
    change (2 ^ N.of_nat 6)%N with 64%N in B. change (length alphabet) with 64. lia.
  - apply Forall_forall. intros c I. right. now apply repeat_spec in I.
Qed.
