From Verif Require Import Common Vec_Model Vec_Proofs String_Model String_Spec String_Proofs
  WebSocket_Model WebSocket_Proofs Url_Model Url_Proofs Http_Model Http_Spec.
From Verif Require IntLit_Model Url_Spec.

(** printing a length *)
Lemma print_ok fuel : forall n, (n < 10 ^ N.of_nat fuel)%N -> 0 < fuel ->
  IntLit_Model.decimal fuel n <> [] /\ Forall is_digit (IntLit_Model.decimal fuel n) /\
  decimal (IntLit_Model.decimal fuel n) = Z.of_N n.
Proof.
  induction fuel as [|f IH]; intros n L H; [lia|]. cbn [IntLit_Model.decimal].
  assert (D : is_digit (48 + n mod 10)%N) by (unfold is_digit; lia).
  destruct (N.ltb_spec n 10) as [Lt|Ge].
  - splits; [discriminate|repeat constructor; exact (proj1 D) || exact (proj2 D)|].
    cbn [app]. unfold decimal. cbn [fold_left]. lia.
  - destruct f as [|f].
    { cbn in L. lia. }
    destruct (IH (n / 10)%N) as (A & B & C); [|lia|].
    { replace (N.of_nat (S (S f))) with (N.succ (N.of_nat (S f))) in L by lia. rewrite N.pow_succ_r' in L. lia. }
    splits.
    + intros E. apply app_eq_nil in E. easy.
    + apply Forall_app. split; auto.
    + unfold decimal. rewrite fold_left_app. cbn [fold_left].
      unfold decimal in C. rewrite C. lia.
Qed.

Lemma digits_nonul ds : Forall is_digit ds -> nonul ds.
Proof. intros F. eapply Forall_impl; [|exact F]. unfold is_digit. intros; lia. Qed.

Lemma short_20 b : short b -> (N.of_nat (length b) < 10 ^ N.of_nat 20)%N.
Proof. unfold short. intros H. change (10 ^ N.of_nat 20)%N with 100000000000000000000%N. lia. Qed.

(** the response *)
Definition hold2 (h : str * str) (f : bytes * bytes) : Prop := shold (fst h) (fst f) /\ shold (snd h) (snd f).
Definition hline (f : bytes * bytes) : bytes := fst f ++ bs ": " ++ snd f ++ crlf.

Lemma put_headers_ok hs fs : Forall2 hold2 hs fs -> forall o a, shold o a ->
  exists o', put_headers o hs = Ok o' /\ shold o' (a ++ concat (map hline fs)).
Proof.
  induction 1 as [|[k v] [kb vb] hs fs [Hk Hv] F IH]; intros o a Ho; cbn [put_headers map concat].
  - exists o. rewrite app_nil_r. auto.
  - cbn [fst snd] in *.
    destruct (sappend_ok _ _ _ _ Ho Hk) as (o1 & -> & H1). cbn [bind].
    destruct (sappend_c_ok _ _ (bs ": ") H1) as (o2 & -> & H2). cbn [bind].
    destruct (sappend_ok _ _ _ _ H2 Hv) as (o3 & -> & H3). cbn [bind].
    destruct (sappend_c_ok _ _ [13; 10]%N H3) as (o4 & -> & H4). cbn [bind].
    destruct (IH _ _ H4) as (o5 & -> & H5). exists o5. split; auto.
    change (cstr (bs ": ")) with (bs ": ") in H5. change (cstr [13; 10]%N) with crlf in H5.
    unfold hline at 1. cbn [fst snd]. rewrite <- !app_assoc in *. exact H5.
Qed.

Definition reply (st : Z) (fs : list (bytes * bytes)) (b : bytes) : bytes :=
  bs "HTTP/1.1 " ++ status_line st ++ concat (map hline fs) ++ bs "Content-Length: " ++
  IntLit_Model.print_llu (N.of_nat (length b)) ++ crlf ++ crlf ++ b.

Lemma status_line_nonul st : nonul (status_line st).
Proof.
  unfold status_line. destruct (st =? 200)%Z; [|destruct (st =? 404)%Z];
    apply nonul_in; vm_compute; intuition discriminate.
Qed.

Lemma respond_ok a fs b : Forall2 hold2 (headers a) fs -> shold (body a) b ->
  (N.of_nat (length b) < 10 ^ N.of_nat 20)%N ->
  exists o, respond a = Ok o /\ shold o (reply (status a) fs b).
Proof.
  intros Hh Hb L. unfold respond.
  destruct (snew_ok (bs "HTTP/1.1 ")) as (o0 & -> & H0). cbn [bind].
  destruct (sappend_c_ok _ _ (status_line (status a)) H0) as (o1 & -> & H1). cbn [bind].
  destruct (put_headers_ok _ _ Hh _ _ H1) as (o2 & -> & H2). cbn [bind].
  destruct (sappend_c_ok _ _ (bs "Content-Length: ") H2) as (o3 & -> & H3). cbn [bind].
  rewrite (slength_ok _ _ Hb).
  destruct (print_ok 20 (N.of_nat (length b)) L) as (_ & D & _); [lia|].
  destruct (sappend_c_ok _ _ (IntLit_Model.print_llu (N.of_nat (length b))) H3) as (o4 & -> & H4). cbn [bind].
  destruct (sappend_c_ok _ _ [13; 10]%N H4) as (o5 & -> & H5). cbn [bind].
  destruct (sappend_c_ok _ _ [13; 10]%N H5) as (o6 & -> & H6). cbn [bind].
  destruct (sappend_ok _ _ _ _ H6 Hb) as (o7 & E & H7).
  exists o7. split; [exact E|].
  rewrite (cstr_id (status_line _)) in H7 by apply status_line_nonul.
  rewrite (cstr_id (IntLit_Model.print_llu _)) in H7 by (apply digits_nonul, D).
  change (cstr (bs "HTTP/1.1 ")) with (bs "HTTP/1.1 ") in H7.
  change (cstr (bs "Content-Length: ")) with (bs "Content-Length: ") in H7.
  change (cstr [13; 10]%N) with crlf in H7.
  unfold reply. rewrite <- !app_assoc in H7. exact H7.
Qed.

(** the request line *)
Lemma fields_len d b : Forall (fun p => length p <= length b) (fields d b).
Proof.
  induction b as [|c b IH]; cbn [fields]. { repeat constructor. }
  destruct (fields_nonempty d b) as (p & r & E). rewrite E in *. inversion IH; subst.
  destruct (N.eqb_spec c d).
  - constructor; cbn; [lia|]. constructor; auto. eapply Forall_impl; [|exact H2]. cbn. intros; lia.
  - constructor; cbn; [lia|]. eapply Forall_impl; [|exact H2]. cbn. intros; lia.
Qed.
Lemma fields_app d a r : ~ In d a -> fields d (a ++ d :: r) = a :: fields d r.
Proof.
  induction a as [|c a IH]; intros I; cbn [app fields].
  - now rewrite N.eqb_refl.
  - destruct (N.eqb_spec c d) as [->|N]; [now destruct I; left|]. rewrite IH; auto.
    intros J. apply I. now right.
Qed.

Lemma received_short c : short (cstr (received c)).
Proof.
  assert (L : forall b, length (cstr b) <= length b).
  { induction b; cbn; auto. destruct (a =? 0)%N; cbn; lia. }
  unfold short. specialize (L (received c)). unfold received in *.
  destruct (N.ltb_spec (N.of_nat (length c)) 4096); [lia|].
  rewrite firstn_length in L.
  assert (length (cstr (firstn (N.to_nat 4095) c)) <= N.to_nat 4095) by lia. lia.
Qed.

Lemma split_parts v b d : shold v b -> short b ->
  exists ps, ssplit v d = Ok ps /\ Forall (fun p => exists x, shold p x /\ short x) ps.
Proof.
  intros H S. destruct (ssplit_ok v b d H S) as (ps & E & F). exists ps. split; auto.
  assert (L : Forall short (match b with [] => [] | _ => fields d b end)).
  { destruct b as [|c t]; [constructor|]. eapply Forall_impl; [|apply fields_len].
    intros x Lx. exact (short_le _ _ Lx S). }
  clear E. induction F; [constructor|]. inversion L; subst. constructor; eauto.
Qed.

Definition handler_ok (h : request -> response -> response) : Prop :=
  forall q r0, exists fs b, Forall2 hold2 (headers (h q r0)) fs /\ shold (body (h q r0)) b /\
    (N.of_nat (length b) < 10 ^ N.of_nat 20)%N.

Lemma tcp_read_le s n b : fst (tcp_read s n) = Some b -> length b <= n.
Proof.
  unfold tcp_read. destruct (plan s (reads s)); [|discriminate]. cbn [fst].
  injection 1 as <-. rewrite firstn_length. lia.
Qed.

Lemma serve_total h acc s : handler_ok h -> exists o, serve h acc s = Ok o.
Proof.
  intros HO. unfold serve. destruct (fst (tcp_read s (N.to_nat 4096))) as [[|c0 ck]|]; eauto.
  set (chunk := c0 :: ck).
  destruct (snew_ok (received chunk)) as (rs & -> & Hrs). cbn [bind].
  assert (S0 := received_short chunk).
  destruct (split_parts rs _ 10%N Hrs S0) as (ls & -> & Fl). cbn [bind].
  destruct Fl as [|fl ls (b & Hf & Sb) _]; eauto.
  destruct (split_parts fl b (ch " ") Hf Sb) as (ps & -> & Fp). cbn [bind].
  destruct Fp as [|m ps (x & Hx & Sx) Fp]; eauto.
  destruct Fp as [|p ps (y & Hy & Sy) _]; eauto.
  destruct (strim_ok m x Hx Sx) as (m' & mb & -> & Hm' & _). cbn [bind].
  destruct (strim_ok p y Hy Sy) as (p' & pb & -> & Hp' & _). cbn [bind].
  unfold request_new, response_new.
  destruct (snew_ok []) as (e & -> & He). cbn [bind].
  set (q := mkreq m' p' [] e). set (r0 := mkresp 200 [] e).
  destruct (HO q r0) as (fs & bb & A & B & C).
  destruct (respond_ok _ _ _ A B C) as (o & -> & Ho). cbn [bind].
  rewrite (peek_ok _ _ Ho). cbn [bind]. eauto.
Qed.

(** a clean request *)
Lemma word_trim w m : word w -> Trimmed w m -> m = w.
Proof.
  intros [_ W] T. apply Trimmed_clean in T; auto. intros c I B. apply W in I. apply I.
  unfold blank in B. cbn in B |- *. tauto.
Qed.
Lemma word_nonul w : word w -> nonul w.
Proof. intros [_ W]. apply nonul_in. intros I. apply W in I. apply I. cbn. tauto. Qed.
Lemma word_no w c : word w -> In c [32; 9; 13; 10; 0]%N -> ~ In c w.
Proof. intros [_ W] J I. now apply W in I. Qed.

Lemma serve_ok h acc s chunk m p rest :
  fst (tcp_read s (N.to_nat 4096)) = Some chunk -> (N.of_nat (length chunk) < 4096)%N ->
  cstr chunk = m ++ bs " " ++ p ++ bs " " ++ rest -> word m -> word p ->
  exists q r0, shold (r_method q) m /\ shold (r_path q) p /\ r_headers q = [] /\ shold (r_body q) [] /\
    status r0 = 200%Z /\ headers r0 = [] /\ shold (body r0) [] /\
    forall fs b, Forall2 hold2 (headers (h q r0)) fs -> shold (body (h q r0)) b ->
      (N.of_nat (length b) < 10 ^ N.of_nat 20)%N ->
      serve h acc s = Ok (mkserved (Some q) (tcp_write acc 0 (reply (status (h q r0)) fs b))).
Proof.
  intros Rd L E Wm Wp. unfold serve. rewrite Rd.
  destruct chunk as [|c0 ck]. { cbn in E. destruct m; [now destruct Wm|discriminate]. }
  set (chunk := c0 :: ck) in *.
  assert (Rc : received chunk = chunk).
  { unfold received. destruct (N.ltb_spec (N.of_nat (length chunk)) 4096); [reflexivity|lia]. }
  destruct (snew_ok (received chunk)) as (rs & -> & Hrs). cbn [bind].
  assert (S0 := received_short chunk). rewrite Rc in Hrs, S0. rewrite E in *.
  set (R := m ++ bs " " ++ p ++ bs " " ++ rest) in *.
  destruct (ssplit_ok rs R 10%N Hrs S0) as (ls & -> & Fl). cbn [bind].
  assert (HR : exists line lr, fields 10%N R = (m ++ bs " " ++ p ++ bs " " ++ line) :: lr).
  { destruct (fields_nonempty 10%N rest) as (l1 & lr & El). exists l1, lr.
    assert (G : forall w t x y, ~ In 10%N w -> fields 10%N t = x :: y -> fields 10%N (w ++ t) = (w ++ x) :: y).
    { induction w as [|c w IH]; intros t x y I Et; [exact Et|]. cbn [app fields].
      destruct (N.eqb_spec c 10) as [->|]; [now destruct I; left|].
      rewrite (IH t x y); auto. intros J. apply I. now right. }
    assert (Sp : ~ In 10%N (bs " ")) by (cbn; intuition discriminate).
    unfold R. apply G; [apply word_no; cbn; auto|]. apply G; [exact Sp|].
    apply G; [apply word_no; cbn; auto|]. now apply G. }
  destruct HR as (line & lr & HR).
  assert (RN : R <> []). { unfold R. destruct m; [now destruct Wm|discriminate]. }
  destruct ls as [|fl ls].
  { destruct R; [easy|]. rewrite HR in Fl. inversion Fl. }
  set (FL := m ++ bs " " ++ p ++ bs " " ++ line) in *.
  assert (Hfl : shold fl FL /\ short FL).
  { assert (LL := fields_len 10%N R). rewrite HR in LL. inversion LL; subst.
    destruct R; [easy|]. rewrite HR in Fl. inversion Fl; subst. split; auto. eapply short_le; eauto. }
  destruct Hfl as (Hfl & SF).
  destruct (ssplit_ok fl FL (ch " ") Hfl SF) as (ps & -> & Fp). cbn [bind].
  assert (HF : fields (ch " ") FL = m :: p :: fields (ch " ") line).
  { unfold FL. cbn [bs app]. change (Ascii.N_of_ascii " ") with (ch " ").
    rewrite fields_app by (apply word_no; cbn; auto). now rewrite fields_app by (apply word_no; cbn; auto). }
  assert (FN : FL <> []). { unfold FL. destruct m; [now destruct Wm|discriminate]. }
  assert (LF := fields_len (ch " ") FL). rewrite HF in LF. inversion LF as [|? ? L1 LF']; subst.
  inversion LF' as [|? ? L2 _]; subst.
  destruct FL as [|f0 ft] eqn:EF; [easy|]. rewrite <- EF in *. rewrite HF in Fp.
  inversion Fp as [|m0 ? ps0 ? Hm0 Fp']; subst. inversion Fp' as [|p0 ? ps1 ? Hp0 Fp'']; subst.
  destruct (strim_ok m0 m Hm0) as (m' & mb & -> & Hm' & Tm). { eapply short_le; eauto. } cbn [bind].
  destruct (strim_ok p0 p Hp0) as (p' & pb & -> & Hp' & Tp). { eapply short_le; eauto. } cbn [bind].
  apply word_trim in Tm; auto. apply word_trim in Tp; auto. subst mb pb.
  unfold request_new, response_new.
  destruct (snew_ok []) as (e & -> & He). cbn [bind].
  set (q := mkreq m' p' [] e). set (r0 := mkresp 200 [] e).
  exists q, r0. splits; auto.
  intros fs b A B C. destruct (respond_ok _ _ _ A B C) as (o & -> & Ho). cbn [bind].
  rewrite (peek_ok _ _ Ho). reflexivity.
Qed.

(** the message grammar *)
Lemma Fields_intro fs body : Forall (fun f => field_name (fst f) /\ field_value (snd f)) fs ->
  Fields fs body (concat (map hline fs) ++ crlf ++ body).
Proof.
  induction 1 as [|[k v] fs [Hk Hv] F IH]; cbn [map concat].
  - constructor.
  - unfold hline at 1. cbn [fst snd]. rewrite <- !app_assoc. now constructor.
Qed.

Lemma split_at (c : N) a1 b1 a2 b2 : ~ In c a1 -> ~ In c a2 -> a1 ++ c :: b1 = a2 ++ c :: b2 -> a1 = a2 /\ b1 = b2.
Proof.
  revert a2. induction a1 as [|x a1 IH]; intros [|y a2] I1 I2 E; cbn in E.
  - now injection E.
  - injection E as -> _. now destruct I2; left.
  - injection E as -> _. now destruct I1; left.
  - injection E as -> E. destruct (IH a2) as [-> ->]; auto; intros J; [apply I1|apply I2]; now right.
Qed.

Lemma Fields_cases fs b msg : Fields fs b msg ->
  (fs = [] /\ msg = crlf ++ b) \/
  exists k v fs' rest, fs = (k, v) :: fs' /\ msg = k ++ ch ":" :: 32%N :: v ++ crlf ++ rest /\
    field_name k /\ field_value v /\ Fields fs' b rest.
Proof. destruct 1; [left; auto|right]. exists k, v, fs, rest. splits; auto; apply H || apply H0. Qed.
Lemma name_no k c : field_name k -> In c [ch ":"; 32; 9; 13; 10]%N -> ~ In c k.
Proof. intros [_ H] J I. now apply H in I. Qed.
Lemma value_no v c : field_value v -> In c [13; 10]%N -> ~ In c v.
Proof. intros [H _] J I. now apply H in I. Qed.

Lemma Fields_inj fs b msg : Fields fs b msg -> forall fs' b', Fields fs' b' msg -> fs = fs' /\ b = b'.
Proof.
  induction 1 as [b|k v fs b rest Hk Hv F IH]; intros fs' b' F';
    apply Fields_cases in F' as [(-> & E)|(k' & v' & f' & r' & -> & E & Hk' & Hv' & F')].
  - now injection E as <-.
  - exfalso. destruct k' as [|c k']; [now destruct Hk'|]. cbn [app crlf] in E. injection E as <- _.
    eapply name_no; [exact Hk'| |now left]. cbn; tauto.
  - exfalso. destruct k as [|c k]; [now destruct Hk|]. cbn [app crlf] in E. injection E as -> _.
    eapply name_no; [exact Hk| |now left]. cbn; tauto.
  - change (bs ": " ++ v ++ crlf ++ rest) with (ch ":" :: 32%N :: v ++ crlf ++ rest) in E.
    apply split_at in E as [-> E]; [|apply name_no; cbn; auto; tauto|apply name_no; cbn; auto; tauto].
    injection E as E. cbn [app crlf] in E.
    apply split_at in E as [-> E]; [|apply value_no; cbn; auto; tauto|apply value_no; cbn; auto; tauto].
    injection E as <-. apply IH in F' as [-> ->]. auto.
Qed.

Lemma Message_inj st fs b st' fs' b' msg : Message st fs b msg -> Message st' fs' b' msg ->
  st = st' /\ fs = fs' /\ b = b'.
Proof.
  intros (A & r & -> & F) (A' & r' & E & F'). cbn [app crlf] in E. apply split_at in E as [-> E].
  2:{ intros I. apply A in I. apply I. cbn; tauto. }
  2:{ intros I. apply A' in I. apply I. cbn; tauto. }
  injection E as <-. split; auto. eapply Fields_inj; eauto.
Qed.

Definition code_of (st : Z) : bytes * bytes :=
  if (st =? 200)%Z then (bs "200", bs "OK")
  else if (st =? 404)%Z then (bs "404", bs "Not Found")
  else (bs "500", bs "Internal Server Error").

Lemma digits_value_field ds : ds <> [] -> Forall is_digit ds -> field_value ds.
Proof.
  intros N F. rewrite Forall_forall in F. split.
  - intros c I J. apply F in I. unfold is_digit in I. cbn in J. lia.
  - exists [], []. rewrite app_nil_r. splits; auto.
    + intros c m' E B. assert (I : In c ds) by (rewrite E; now left). apply F in I. unfold is_digit, blank in *. cbn in B. lia.
    + intros c m' E B. assert (I : In c ds) by (rewrite E; apply in_or_app; right; now left).
      apply F in I. unfold is_digit, blank in *. cbn in B. lia.
Qed.

Lemma reply_message st fs b : Forall (fun f => field_name (fst f) /\ field_value (snd f)) fs ->
  (N.of_nat (length b) < 10 ^ N.of_nat 20)%N ->
  Message (status_text (fst (code_of st)) (snd (code_of st)))
    (fs ++ [(bs "Content-Length", IntLit_Model.print_llu (N.of_nat (length b)))]) b (reply st fs b).
Proof.
  intros F L. split.
  - unfold code_of. destruct (st =? 200)%Z; [|destruct (st =? 404)%Z];
      apply Forall_forall; repeat constructor; cbn; lia.
  - exists (concat (map hline (fs ++ [(bs "Content-Length", IntLit_Model.print_llu (N.of_nat (length b)))])) ++ crlf ++ b).
    split.
    + unfold reply, status_line, status_text, code_of. rewrite map_app, concat_app. cbn [map concat].
      unfold hline at 3. cbn [fst snd]. rewrite app_nil_r. destruct (st =? 200)%Z; [|destruct (st =? 404)%Z]; cbn [fst snd];
        rewrite <- !app_assoc; reflexivity.
    + apply Fields_intro. apply Forall_app. split; auto. constructor; [|constructor]. cbn [fst snd].
      destruct (print_ok 20 (N.of_nat (length b)) L) as (A & D & _); [lia|]. split.
      * split; [discriminate|]. apply Forall_forall. repeat constructor; cbn; lia.
      * now apply digits_value_field.
Qed.

(** fetch *)
Lemma strstr_skip a r : ~ In 13%N a ->
  strstr [13; 10; 13; 10]%N (a ++ r) = option_map (Nat.add (length a)) (strstr [13; 10; 13; 10]%N r).
Proof.
  induction a as [|c a IH]; intros I; cbn [app length].
  - now destruct (strstr _ r).
  - cbn [strstr is_prefix]. destruct (N.eqb_spec 13 c) as [<-|N]; [now destruct I; left|]. cbn [andb].
    rewrite IH by (intros J; apply I; now right). destruct (strstr _ r); reflexivity.
Qed.

Lemma strstr_fields fs b rest : Fields fs b rest -> forall a, ~ In 13%N a ->
  exists k, strstr [13; 10; 13; 10]%N (a ++ crlf ++ rest) = Some k /\
    k + 4 + length b = length (a ++ crlf ++ rest) /\ skipn (k + 4) (a ++ crlf ++ rest) = b.
Proof.
  induction 1 as [b|k v fs b rest Hk Hv F IH]; intros a Na.
  - exists (length a). rewrite strstr_skip by auto. splits.
    + change (strstr [13; 10; 13; 10]%N (crlf ++ crlf ++ b)) with (Some 0). cbn [option_map]. now rewrite Nat.add_0_r.
    + rewrite !app_length. cbn. lia.
    + rewrite skipn_app, skipn_all2 by lia. replace (length a + 4 - length a) with 4 by lia. reflexivity.
  - destruct (IH (k ++ bs ": " ++ v)) as (j & E & L & Sk).
    { intros I. apply in_app_or in I as [I|I].
      - revert I. apply name_no; auto. cbn; tauto.
      - apply in_app_or in I as [I|I]; [cbn in I; intuition discriminate|].
        revert I. apply value_no; auto. cbn; tauto. }
    set (T := k ++ bs ": " ++ v ++ crlf ++ rest).
    assert (ET : (k ++ bs ": " ++ v) ++ crlf ++ rest = T) by (unfold T; now rewrite <- !app_assoc).
    rewrite ET in *. exists (length a + (2 + j)). rewrite strstr_skip by auto.
    assert (E2 : strstr [13; 10; 13; 10]%N (crlf ++ T) = Some (2 + j)).
    { assert (H0 : exists c T', T = c :: T' /\ c <> 13%N).
      { unfold T. destruct k as [|c k]; [now destruct Hk|]. cbn [app]. do 2 eexists. split; [reflexivity|].
        intros ->. eapply name_no; [exact Hk| |now left]. cbn; tauto. }
      destruct H0 as (c & T' & ET' & NC).
      change (option_map S (option_map S (strstr [13; 10; 13; 10]%N T)) = Some (2 + j)) ||
      assert (P : is_prefix [13; 10; 13; 10]%N (crlf ++ T) = false)
        by (rewrite ET'; cbn; destruct (N.eqb_spec 13 c); [congruence|reflexivity]).
      transitivity (option_map S (option_map S (strstr [13; 10; 13; 10]%N T))); [|now rewrite E].
      change (crlf ++ T) with (13 :: 10 :: T)%N in *.
      change (strstr [13; 10; 13; 10]%N (13 :: 10 :: T)%N) with
        (if is_prefix [13; 10; 13; 10]%N (13 :: 10 :: T)%N then Some 0
         else option_map S (option_map S (strstr [13; 10; 13; 10]%N T))).
      now rewrite P. }
    rewrite E2. splits; [reflexivity| |].
    + rewrite app_length. cbn [crlf app length] in *. lia.
    + rewrite skipn_app, skipn_all2 by lia. cbn [app].
      replace (length a + (2 + j) + 4 - length a) with (2 + (j + 4)) by lia. cbn [crlf app skipn Nat.add]. exact Sk.
Qed.

Lemma decimal_same ds : decimal ds = Url_Spec.decimal ds.
Proof. reflexivity. Qed.

Lemma substr_N v b i n : shold v b -> short b -> (i + n <= N.of_nat (length b))%N ->
  exists v', ssubstring v i n = Ok v' /\ shold v' (firstn (N.to_nat n) (skipn (N.to_nat i) b)).
Proof. apply ssubstring_ok. Qed.

Lemma response_status_ok raw ver code rest : shold raw (ver ++ bs " " ++ code ++ bs " " ++ rest) ->
  short (ver ++ bs " " ++ code ++ bs " " ++ rest) ->
  ~ In 32%N ver -> Forall is_digit code -> (decimal code < 2 ^ 31)%Z ->
  response_status raw = Ok (decimal code).
Proof.
  intros H S NV D L. unfold response_status. set (B := ver ++ bs " " ++ code ++ bs " " ++ rest) in *.
  rewrite (sfind_ok _ _ _ H), index_of_strchr. unfold B at 1.
  change (bs " " ++ code ++ bs " " ++ rest) with (ch " " :: code ++ bs " " ++ rest).
  rewrite strchr_app by exact NV. cbn [bind]. rewrite (slength_ok _ _ H).
  assert (LB : length B = length ver + 1 + length code + 1 + length rest)
    by (unfold B; rewrite !app_length; cbn; lia).
  destruct (ssubstring_ok raw B (N.of_nat (length ver) + 1) (N.of_nat (length B) - N.of_nat (length ver) - 1) H S)
    as (rl & -> & Hr); [lia|]. cbn [bind].
  replace (N.to_nat (N.of_nat (length ver) + 1)) with (length ver + 1) in Hr by lia.
  assert (E : skipn (length ver + 1) B = code ++ ch " " :: rest).
  { unfold B. rewrite skipn_app, skipn_all2 by lia. replace (length ver + 1 - length ver) with 1 by lia. reflexivity. }
  rewrite E, firstn_all2 in Hr by (rewrite app_length; cbn; lia).
  rewrite (sfind_ok _ _ _ Hr), index_of_strchr.
  rewrite strchr_app.
  2:{ intros I. rewrite Forall_forall in D. apply D in I. unfold is_digit in I. change (ch " ") with 32%N in I. lia. }
  cbn [bind].
  destruct (ssubstring_ok rl (code ++ ch " " :: rest) 0 (N.of_nat (length code)) Hr) as (cs & -> & Hc).
  { eapply short_le; [|exact S]. rewrite app_length. cbn. lia. }
  { rewrite app_length. lia. }
  cbn [bind]. cbn [N.to_nat skipn] in Hc. rewrite Nat2N.id, firstn_app, Nat.sub_diag, firstn_all, app_nil_r in Hc.
  rewrite (cread_ok _ _ Hc). cbn [bind]. now apply atoi_ok.
Qed.

Lemma response_body_ok raw msg st fs b r : shold raw msg -> short msg -> Message st fs b msg ->
  exists r', response_body raw r = Ok r' /\ status r' = status r /\ headers r' = headers r /\ shold (body r') b.
Proof.
  intros H S (A & rest & E & F). unfold response_body. rewrite (cread_ok _ _ H). cbn [bind].
  destruct (strstr_fields fs b rest F st) as (k & Es & L & Sk).
  { intros I. apply A in I. apply I. cbn; tauto. }
  rewrite <- E in *. rewrite Es. rewrite (slength_ok _ _ H).
  destruct (ssubstring_ok raw msg (N.of_nat k + 4) (N.of_nat (length msg) - (N.of_nat k + 4)) H S)
    as (bv & -> & Hb); [lia|].
  cbn [bind]. eexists. splits; [reflexivity..|]. cbn [set_body body].
  replace (N.to_nat (N.of_nat k + 4)) with (k + 4) in Hb by lia. rewrite Sk in Hb.
  rewrite firstn_all2 in Hb by lia. exact Hb.
Qed.

Definition target (pa q : bytes) : bytes := pa ++ match q with [] => [] | _ => bs "?" ++ q end.
Definition get_text (pa q h : bytes) : bytes :=
  bs "GET " ++ target pa q ++ bs " HTTP/1.1" ++ crlf ++ bs "Host: " ++ h ++ crlf ++ bs "Connection: close" ++ crlf ++ crlf.

Lemma request_text_ok u h pa q : shold (host u) h -> shold (path u) pa -> shold (query u) q ->
  exists o, request_text u = Ok o /\ shold o (get_text pa q h).
Proof.
  intros Hh Hp Hq. unfold request_text.
  destruct (snew_ok (bs "GET ")) as (o0 & -> & H0). cbn [bind].
  destruct (sappend_ok _ _ _ _ H0 Hp) as (o1 & -> & H1). cbn [bind].
  assert (Q : exists o2, (if sis_empty (query u) then Ok o1
           else do o <- sappend_c o1 (bs "?"); sappend o (query u)) = Ok o2 /\
           shold o2 (cstr (bs "GET ") ++ target pa q)).
  { unfold sis_empty. rewrite (slength_ok _ _ Hq). unfold target. destruct q as [|c q]; cbn [length Nat.eqb].
    - exists o1. rewrite app_nil_r. auto.
    - destruct (sappend_c_ok _ _ (bs "?") H1) as (o2 & -> & H2). cbn [bind].
      destruct (sappend_ok _ _ _ _ H2 Hq) as (o3 & -> & H3). exists o3. split; auto.
      rewrite <- !app_assoc in H3. exact H3. }
  destruct Q as (o2 & -> & H2). cbn [bind].
  destruct (sappend_c_ok _ _ (bs " HTTP/1.1" ++ [13; 10]%N ++ bs "Host: ") H2) as (o3 & -> & H3). cbn [bind].
  destruct (sappend_ok _ _ _ _ H3 Hh) as (o4 & -> & H4). cbn [bind].
  destruct (sappend_c_ok _ _ ([13; 10]%N ++ bs "Connection: close" ++ [13; 10; 13; 10]%N) H4) as (o5 & -> & H5).
  exists o5. split; auto.
  change (cstr (bs "GET ")) with (bs "GET ") in H5.
  change (cstr (bs " HTTP/1.1" ++ [13; 10]%N ++ bs "Host: ")) with (bs " HTTP/1.1" ++ crlf ++ bs "Host: ") in H5.
  change (cstr ([13; 10]%N ++ bs "Connection: close" ++ [13; 10; 13; 10]%N))
    with (crlf ++ bs "Connection: close" ++ crlf ++ crlf) in H5.
  unfold get_text. rewrite <- !app_assoc in H5. exact H5.
Qed.
