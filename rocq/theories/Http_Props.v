(** Properties C59 (HTTP server) and C60 (fetch). *)
From Verif Require Import Common Vec_Model Vec_Proofs Vec_Props String_Model String_Spec String_Proofs String_Props
  WebSocket_Model WebSocket_Proofs WebSocket_Props Url_Model Url_Spec Url_Proofs Http_Model Http_Spec Http_Proofs.

Definition header_text (h : str * str) (f : bytes * bytes) : Prop := text (fst h) (fst f) /\ text (snd h) (snd f).
Lemma header_hold hs fs : Forall2 header_text hs fs -> Forall2 hold2 hs fs.
Proof. induction 1 as [|h f hs fs [A B]]; constructor; auto. split; now apply text_shold. Qed.

(** What the first read of up to 4096 bytes delivers *)
Definition first_read (s : stream) : option bytes := fst (tcp_read s (N.to_nat 4096)).

(** The handler answers requests for method m and path p with this status, these headers
    and this body. *)
Definition answers (h : request -> response -> response) (m p : bytes) (st : Z) (fs : list (bytes * bytes)) (b : bytes) : Prop :=
  forall q r0, text (r_method q) m -> text (r_path q) p -> headers r0 = [] -> text (body r0) [] ->
    status (h q r0) = st /\ Forall2 header_text (headers (h q r0)) fs /\ text (body (h q r0)) b.

Definition clean (fs : list (bytes * bytes)) : Prop := Forall (fun f => field_name (fst f) /\ field_value (snd f)) fs.

(** A request that arrives in one piece of less than 4096 bytes is handed to the handler
    with its method and path, and the client is sent one HTTP/1.1 message with the
    handler's status (200 or 404), headers and body, and the body's length. *)
Theorem C59_reply_partial :
  forall h accept s m p rest st code reason fs b,
  full_writes accept ->
  first_read s = Some (m ++ bs " " ++ p ++ bs " " ++ rest) ->
  (N.of_nat (length (m ++ bs " " ++ p ++ bs " " ++ rest)) < 4096)%N -> ~ In 0%N rest ->
  word m -> word p ->
  answers h m p st fs b -> clean fs -> short b ->
  In (st, code, reason) [(200%Z, bs "200", bs "OK"); (404%Z, bs "404", bs "Not Found")] ->
  exists q wire ds, serve h accept s = Ok (mkserved (Some q) wire) /\
    text (r_method q) m /\ text (r_path q) p /\
    Message (status_text code reason) (fs ++ [(bs "Content-Length", ds)]) b wire /\
    ds <> [] /\ Forall is_digit ds /\ decimal ds = Z.of_nat (length b).
Proof.
  intros h acc s m p rest st code reason fs b FW Rd L N0 Wm Wp An Cl Sb Ic.
  destruct (serve_ok h acc s _ m p rest Rd L) as (q & r0 & A & B & _ & _ & _ & C & D & K); auto.
  { apply cstr_id. repeat apply nonul_app; auto using word_nonul; apply nonul_in; auto; cbn; intuition discriminate. }
  apply text_shold in A, B, D.
  destruct (An q r0 A B C D) as (E & F & G). apply header_hold in F. apply text_shold in G.
  specialize (K fs b F G (short_20 b Sb)). rewrite E in K.
  exists q. do 2 eexists. splits; try eassumption.
  - unfold tcp_write. rewrite firstn_all2 by apply FW.
    assert (EC : code_of st = (code, reason)).
    { destruct Ic as [Ic|[Ic|[]]]; injection Ic as <- <- <-; reflexivity. }
    assert (M := reply_message st fs b Cl (short_20 b Sb)). rewrite EC in M. exact M.
  - apply (print_ok 20 (N.of_nat (length b)) (short_20 b Sb)). lia.
  - apply (print_ok 20 (N.of_nat (length b)) (short_20 b Sb)). lia.
  - destruct (print_ok 20 (N.of_nat (length b)) (short_20 b Sb)) as (_ & _ & H); [lia|].
    unfold IntLit_Model.print_llu.
    rewrite H. lia.
Qed.
Print Assumptions C59_reply_partial.

(** The message format is unambiguous: a receiver can read only one start line, one list
    of headers and one body from it. *)
Theorem C59_unambiguous :
  forall st fs b st' fs' b' msg, Message st fs b msg -> Message st' fs' b' msg ->
  st = st' /\ fs = fs' /\ b = b'.
Proof. exact Message_inj. Qed.
Print Assumptions C59_unambiguous.

(** Whatever bytes arrive, however they are cut, serving them does not crash. *)
Theorem C59_total :
  forall h accept s,
  (forall q r0, exists fs b, Forall2 header_text (headers (h q r0)) fs /\ text (body (h q r0)) b /\ short b) ->
  exists o, serve h accept s = Ok o.
Proof.
  intros h acc s HO. apply serve_total. intros q r0. destruct (HO q r0) as (fs & b & A & B & C).
  exists fs, b. splits; [now apply header_hold|now apply text_shold|now apply short_20].
Qed.
Print Assumptions C59_total.

(** No request headers and no request body ever reach the handler. *)
Theorem C59_request_headers_refuted :
  forall h accept s q wire, serve h accept s = Ok (mkserved (Some q) wire) ->
  r_headers q = [] /\ text (r_body q) [].
Proof.
  intros h acc s q wire. unfold serve. destruct (fst (tcp_read s (N.to_nat 4096))) as [[|c0 ck]|]; [discriminate| |discriminate].
  destruct (snew (received (c0 :: ck))) as [s0| | |]; [|discriminate..]. cbn [bind].
  destruct (ssplit s0 10) as [[|fl ls]| | |]; [discriminate| |discriminate..]. cbn [bind].
  destruct (ssplit fl (ch " ")) as [[|m [|p ps]]| | |]; [discriminate|discriminate| |discriminate..]. cbn [bind].
  destruct (strim m); [|discriminate..]. cbn [bind]. destruct (strim p); [|discriminate..]. cbn [bind].
  unfold request_new, response_new. destruct (snew_ok []) as (e & -> & He). cbn [bind].
  destruct (respond _); [|discriminate..]. cbn [bind]. destruct (peek _ _); [|discriminate..]. cbn [bind].
  injection 1 as <- _. split; auto. now apply text_shold.
Qed.
Print Assumptions C59_request_headers_refuted.

(** Every status other than 200 and 404 is sent as 500. *)
Theorem C59_status_refuted :
  forall h accept s m p rest st fs b,
  full_writes accept -> first_read s = Some (m ++ bs " " ++ p ++ bs " " ++ rest) ->
  (N.of_nat (length (m ++ bs " " ++ p ++ bs " " ++ rest)) < 4096)%N -> ~ In 0%N rest ->
  word m -> word p -> answers h m p st fs b -> clean fs -> short b ->
  st <> 200%Z -> st <> 404%Z ->
  exists q wire hs, serve h accept s = Ok (mkserved (Some q) wire) /\
    Message (status_text (bs "500") (bs "Internal Server Error")) hs b wire.
Proof.
  intros h acc s m p rest st fs b FW Rd L N0 Wm Wp An Cl Sb N2 N4.
  destruct (serve_ok h acc s _ m p rest Rd L) as (q & r0 & A & B & _ & _ & _ & C & D & K); auto.
  { apply cstr_id. repeat apply nonul_app; auto using word_nonul; apply nonul_in; auto; cbn; intuition discriminate. }
  apply text_shold in A, B, D.
  destruct (An q r0 A B C D) as (E & F & G). apply header_hold in F. apply text_shold in G.
  specialize (K fs b F G (short_20 b Sb)). rewrite E in K.
  exists q. do 2 eexists. split; [exact K|].
  unfold tcp_write. rewrite firstn_all2 by apply FW.
  assert (M := reply_message st fs b Cl (short_20 b Sb)). unfold code_of in M.
  destruct (Z.eqb_spec st 200); [easy|]. destruct (Z.eqb_spec st 404); [easy|]. exact M.
Qed.
Print Assumptions C59_status_refuted.

Lemma fields_sub d b : Forall (fun p => forall c, In c p -> In c b) (fields d b).
Proof.
  induction b as [|x b IH]; cbn [fields]. { repeat constructor. auto. }
  destruct (fields_nonempty d b) as (p & r & E). rewrite E in *. inversion IH; subst.
  assert (G : Forall (fun p => forall c, In c p -> In c (x :: b)) r).
  { eapply Forall_impl; [|exact H2]. intros a Ha c I. right. auto. }
  destruct (N.eqb_spec x d).
  - constructor; [easy|]. constructor; auto. intros c I. right. auto.
  - constructor; auto. intros c [->|I]; [now left|right; auto].
Qed.

(** Nothing is answered when the first segment of a request ends inside its first word:
    the server reads once. *)
Theorem C59_segments_refuted :
  forall h accept s seg, first_read s = Some seg -> (N.of_nat (length seg) < 4096)%N ->
  ~ In 0%N seg -> ~ In 32%N seg ->
  serve h accept s = Ok (mkserved None []).
Proof.
  intros h acc s seg Rd L N0 N32. unfold serve, first_read in *. rewrite Rd.
  destruct seg as [|c0 ck]; [reflexivity|]. set (seg := c0 :: ck) in *.
  destruct (snew_ok (received seg)) as (rs & -> & Hrs). cbn [bind].
  assert (S0 := received_short seg).
  assert (Rc : cstr (received seg) = seg).
  { unfold received. destruct (N.ltb_spec (N.of_nat (length seg)) 4096); [|lia]. apply cstr_id. now apply nonul_in. }
  rewrite Rc in *.
  destruct (ssplit_ok rs seg 10 Hrs S0) as (ls & -> & F). cbn [bind].
  assert (LL := fields_len 10 seg). assert (SS := fields_sub 10 seg).
  unfold seg in F at 1. cbn [bind] in F. remember (fields 10 seg) as fl eqn:E. clear E.
  destruct F as [|l b ls bs' Hl _]; [reflexivity|].
  inversion LL as [|? ? Lb _]; subst. inversion SS as [|? ? Sb _]; subst.
  destruct (ssplit_ok l b (ch " ") Hl) as (ps & -> & F). { eapply short_le; [exact Lb|exact S0]. } cbn [bind].
  destruct b as [|x b']. { now inversion F. }
  rewrite fields_one in F.
  - inversion F as [|? ? ? ? _ F']; subst. now inversion F'.
  - intros I. apply N32. apply Sb, I.
Qed.
Print Assumptions C59_segments_refuted.

(** A line end in a header value adds a header of the attacker's choice to the message. *)
Theorem C59_injection_refuted :
  exists (v : bytes), ~ In 0%N v /\
  forall k, field_name k -> ~ In 0%N k ->
  exists hv kv o wire, snew v = Ok hv /\ snew k = Ok kv /\
    (do e <- snew []; respond (set_header (mkresp 200 [] e) kv hv)) = Ok o /\ text o wire /\
    Message (status_text (bs "200") (bs "OK"))
      [(k, bs "x"); (bs "Set-Cookie", bs "a=b"); (bs "Content-Length", bs "0")] [] wire.
Proof.
  exists (bs "x" ++ crlf ++ bs "Set-Cookie: a=b"). split. { vm_compute. intuition discriminate. }
  intros k Fk Nk.
  destruct (snew_ok (bs "x" ++ crlf ++ bs "Set-Cookie: a=b")) as (hv & E1 & H1).
  destruct (snew_ok k) as (kv & E2 & H2). rewrite cstr_id in H2 by now apply nonul_in.
  destruct (snew_ok []) as (e & E3 & H3).
  destruct (respond_ok (set_header (mkresp 200 [] e) kv hv) [(k, bs "x" ++ crlf ++ bs "Set-Cookie: a=b")] []) as (o & E4 & H4).
  { constructor; [|constructor]. split; [exact H2|exact H1]. }
  { exact H3. }
  { reflexivity. }
  exists hv, kv, o, (status_text (bs "200") (bs "OK") ++ crlf ++ k ++ bs ": " ++ bs "x" ++ crlf ++
    bs "Set-Cookie" ++ bs ": " ++ bs "a=b" ++ crlf ++ bs "Content-Length" ++ bs ": " ++ bs "0" ++ crlf ++ crlf ++ []).
  split; [exact E1|]. split; [exact E2|]. split. { rewrite E3. cbn [bind]. exact E4. } split.
  { apply text_shold.
    replace (reply (status (set_header (mkresp 200 [] e) kv hv)) [(k, bs "x" ++ crlf ++ bs "Set-Cookie: a=b")] [])
      with (status_text (bs "200") (bs "OK") ++ crlf ++ k ++ bs ": " ++ bs "x" ++ crlf ++
    bs "Set-Cookie" ++ bs ": " ++ bs "a=b" ++ crlf ++ bs "Content-Length" ++ bs ": " ++ bs "0" ++ crlf ++ crlf ++ []) in H4;
      [exact H4|].
    unfold reply, status_line. cbn [status set_header]. change (200 =? 200)%Z with true. cbn iota.
    cbn [map concat]. unfold hline. cbn [fst snd]. rewrite app_nil_r.
    change (IntLit_Model.print_llu (N.of_nat (length (@nil N)))) with (bs "0").
    unfold status_text. rewrite <- !app_assoc. reflexivity. }
  split. { apply Forall_forall. repeat constructor; cbn; lia. }
  eexists. split; [reflexivity|].
  assert (V : forall v, In v [bs "x"; bs "a=b"; bs "0"] -> field_value v).
  { intros v I. split.
    - apply Forall_forall. cbn in I. destruct I as [<-|[<-|[<-|[]]]]; repeat constructor; cbn; lia.
    - exists [], []. rewrite app_nil_r. splits; auto; intros c m' E B;
        (assert (J : In c v) by (rewrite E; try (now left); apply in_or_app; right; now left));
        unfold blank in B; cbn in I, B; destruct I as [<-|[<-|[<-|[]]]]; cbn in J; lia. }
  apply (fields_more k (bs "x")); [exact Fk|apply V; cbn; auto|].
  apply (fields_more (bs "Set-Cookie") (bs "a=b")); [|apply V; cbn; auto|].
  { split; [discriminate|]. apply Forall_forall; repeat constructor; cbn; lia. }
  apply (fields_more (bs "Content-Length") (bs "0")); [|apply V; cbn; auto|constructor].
  split; [discriminate|]. apply Forall_forall; repeat constructor; cbn; lia.
Qed.
Print Assumptions C59_injection_refuted.

(** ** fetch *)

(** The request line's target: the path, and the query behind a question mark if there is one. *)
Definition request_target (p : parts) : bytes :=
  url_path p ++ match url_query p with [] => [] | q => bs "?" ++ q end.

Lemma get_message p : word (request_target p) ->
  (forall c, In c (p_host p) -> ~ In c [ch ":"; ch "/"; ch "?"; 32%N; 9%N; 10%N; 13%N]) ->
  Message (bs "GET " ++ request_target p ++ bs " HTTP/1.1")
    [(bs "Host", p_host p); (bs "Connection", bs "close")] [] (get_text (url_path p) (url_query p) (p_host p)).
Proof.
  intros W HH. split.
  - intros c I J. apply in_app_or in I as [I|I].
    + cbn in I, J. lia.
    + apply in_app_or in I as [I|I].
      * apply W in I. apply I. cbn in J |- *. tauto.
      * cbn in I, J. lia.
  - eexists. split.
    + unfold get_text. fold (request_target p).
      replace (target (url_path p) (url_query p)) with (request_target p)
        by (unfold request_target, target; now destruct (url_query p)).
      rewrite <- !app_assoc. reflexivity.
    + apply (fields_more (bs "Host") (p_host p)).
      * split; [discriminate|]. apply Forall_forall; repeat constructor; cbn; lia.
      * split. { intros c I J. apply HH in I. apply I. cbn in J |- *. tauto. }
        exists [], []. rewrite app_nil_r. splits; auto; intros c m' E B;
          (assert (I : In c (p_host p)) by (rewrite E; try (now left); apply in_or_app; right; now left));
          apply HH in I; apply I; unfold blank in B; cbn in B |- *; tauto.
      * apply (fields_more (bs "Connection") (bs "close")); [| |constructor].
        -- split; [discriminate|]. apply Forall_forall; repeat constructor; cbn; lia.
        -- split. { apply Forall_forall; repeat constructor; cbn; lia. }
           exists [], []. rewrite app_nil_r. splits; auto; intros c m' E B;
             (assert (I : In c (bs "close")) by (rewrite E; try (now left); apply in_or_app; right; now left));
             unfold blank in B; cbn in B, I; lia.
Qed.

(** What fetch sends for an http URL, and what it makes of the answer: if the answer is
    one HTTP message that arrives whole in one read of less than 4096 bytes, the status
    code and the body are those of the message. *)
Theorem C60_fetch_partial :
  forall connect accept url p s ver code reason fs b msg,
  full_writes accept -> text url (url_text p) -> short (url_text p) -> wf_parts p -> p_scheme p = bs "http" ->
  word (request_target p) ->
  (forall h, text h (p_host p) -> connect h (url_port p) = Some s) ->
  first_read s = Some msg -> (N.of_nat (length msg) < 4096)%N -> ~ In 0%N msg ->
  Message (ver ++ bs " " ++ code ++ bs " " ++ reason) fs b msg ->
  ~ In 32%N ver -> Forall Http_Spec.is_digit code -> (Http_Spec.decimal code < 2 ^ 31)%Z ->
  exists sent r, fetch connect accept url = Ok (Some sent, r) /\
    Message (bs "GET " ++ request_target p ++ bs " HTTP/1.1")
      [(bs "Host", p_host p); (bs "Connection", bs "close")] [] sent /\
    status r = Http_Spec.decimal code /\ text (body r) b.
Proof.
  intros connect acc url p s ver code reason fs b msg FW Hu Su Wp Sch Wt Hc Rd Lm Nm M NV D Dl.
  apply text_shold in Hu. destruct (url_parse_ok url p Hu Su Wp) as (u & E & A & B & C & F & G).
  unfold fetch. rewrite E. cbn [bind]. unfold seq_str. rewrite (cread_ok _ _ A). cbn [bind].
  rewrite Sch. change (beq_bytes (bs "http") (cstr (bs "http"))) with true. cbn [negb].
  rewrite C, (Hc (host u)) by (apply text_shold; exact B).
  destruct (request_text_ok u _ _ _ B F G) as (o & -> & Ho). cbn [bind].
  rewrite (peek_ok _ _ Ho). cbn [bind].
  unfold first_read in Rd. rewrite Rd.
  destruct msg as [|c0 mt]. { destruct M as (_ & r & X & _). destruct ver; discriminate. }
  set (msg := c0 :: mt) in *.
  assert (Rc : cstr (received msg) = msg).
  { unfold received. destruct (N.ltb_spec (N.of_nat (length msg)) 4096); [|lia]. apply cstr_id. now apply nonul_in. }
  destruct (snew_ok (received msg)) as (rs & -> & Hrs). cbn [bind].
  assert (S0 := received_short msg). rewrite Rc in *.
  assert (St : response_status rs = Ok (Http_Spec.decimal code)).
  { destruct M as (_ & rest & X & _). rewrite X in Hrs, S0.
    rewrite <- !app_assoc in Hrs, S0. eapply response_status_ok; eauto. }
  rewrite St. cbn [bind]. unfold response_new. destruct (snew_ok []) as (e & -> & He). cbn [bind].
  destruct (response_body_ok rs msg _ fs b (mkresp (Http_Spec.decimal code) [] e) Hrs S0 M) as (r' & -> & Q1 & Q2 & Q3).
  cbn [bind]. eexists. exists r'. splits; [reflexivity| |exact Q1|now apply text_shold].
  unfold tcp_write. rewrite firstn_all2 by apply FW. apply get_message; auto. apply Wp.
Qed.
Print Assumptions C60_fetch_partial.

(** The two together: when each side's bytes reach the other in one piece of less than
    4096 bytes, the handler is asked for GET and the URL's target, and fetch returns the
    handler's status and body. *)
Theorem C60_roundtrip_partial :
  forall h connect accept accept' url p cs ss st fs b sent r q wire,
  full_writes accept -> full_writes accept' ->
  text url (url_text p) -> short (url_text p) -> wf_parts p -> p_scheme p = bs "http" ->
  word (request_target p) ->
  answers h (bs "GET") (request_target p) st fs b -> clean fs -> short b ->
  Forall (fun f => ~ In 0%N (fst f ++ snd f)) fs -> ~ In 0%N b ->
  (st = 200 \/ st = 404)%Z ->
  (forall hs, text hs (p_host p) -> connect hs (url_port p) = Some cs) ->
  fetch connect accept url = Ok (Some sent, r) -> first_read ss = Some sent ->
  serve h accept' ss = Ok (mkserved q wire) -> first_read cs = Some wire ->
  (N.of_nat (length sent) < 4096)%N -> (N.of_nat (length wire) < 4096)%N ->
  status r = st /\ text (body r) b /\
  exists q', q = Some q' /\ text (r_method q') (bs "GET") /\ text (r_path q') (request_target p).
Proof.
  intros h connect acc acc' url p cs ss st fs b sent r q wire FW FW' Hu Su Wp Sch Wt An Cl Sb NF Nb St Hc
    Ef Rs Es Rc Ls Lw.
  (* what fetch sends *)
  assert (Sent : sent = get_text (url_path p) (url_query p) (p_host p)).
  { clear - Ef FW Hu Su Wp Sch Hc. apply text_shold in Hu.
    destruct (url_parse_ok url p Hu Su Wp) as (u & E & A & B & C & F & G).
    unfold fetch in Ef. rewrite E in Ef. cbn [bind] in Ef. unfold seq_str in Ef. rewrite (cread_ok _ _ A) in Ef.
    cbn [bind] in Ef. rewrite Sch in Ef. change (beq_bytes (bs "http") (cstr (bs "http"))) with true in Ef.
    cbn [negb] in Ef. rewrite C, (Hc (host u)) in Ef by (apply text_shold; exact B).
    destruct (request_text_ok u _ _ _ B F G) as (o & E2 & Ho). rewrite E2 in Ef. cbn [bind] in Ef.
    rewrite (peek_ok _ _ Ho) in Ef. cbn [bind] in Ef.
    assert (W : tcp_write acc 0 (get_text (url_path p) (url_query p) (p_host p)) =
                get_text (url_path p) (url_query p) (p_host p)).
    { unfold tcp_write. now rewrite firstn_all2 by apply FW. }
    rewrite W in Ef. unfold response_new in Ef. destruct (snew_ok []) as (e & E3 & _). rewrite E3 in Ef. cbn [bind] in Ef.
    destruct (fst (tcp_read cs (N.to_nat 4096))) as [[|c0 ck]|].
    - injection Ef as <- _. reflexivity.
    - destruct (snew _); [|discriminate..]. cbn [bind] in Ef. destruct (response_status _); [|discriminate..].
      cbn [bind] in Ef. destruct (response_body _ _); [|discriminate..]. cbn [bind] in Ef.
      injection Ef as <- _. reflexivity.
    - injection Ef as <- _. reflexivity. }
  set (rest := bs "HTTP/1.1" ++ crlf ++ bs "Host: " ++ p_host p ++ crlf ++ bs "Connection: close" ++ crlf ++ crlf) in *.
  assert (Sent2 : sent = bs "GET" ++ bs " " ++ request_target p ++ bs " " ++ rest).
  { rewrite Sent. unfold get_text, rest.
    replace (target (url_path p) (url_query p)) with (request_target p)
      by (unfold request_target, target; now destruct (url_query p)).
    reflexivity. }
  assert (N0 : ~ In 0%N rest).
  { unfold rest. intros I. destruct Wp as (W0 & _). apply W0. unfold url_text.
    apply in_or_app; right. apply in_or_app; right. apply in_or_app; left.
    repeat (apply in_app_or in I as [I|I]; [try (exfalso; vm_compute in I; intuition discriminate)|]); auto;
    exfalso; vm_compute in I; intuition discriminate. }
  destruct (C59_reply_partial h acc' ss (bs "GET") (request_target p) rest st
    (fst (code_of st)) (snd (code_of st)) fs b) as (q' & wire' & ds & E & A & B & M & _); auto.
  { now rewrite Rs, Sent2. }
  { now rewrite <- Sent2. }
  { split; [discriminate|]. apply Forall_forall. repeat constructor; cbn; lia. }
  { destruct St as [-> | ->]; cbn; auto. }
  rewrite E in Es. injection Es as <- <-.
  assert (Sx : exists reason, Message (bs "HTTP/1.1" ++ bs " " ++ fst (code_of st) ++ bs " " ++ reason)
     (fs ++ [(bs "Content-Length", ds)]) b wire').
  { exists (snd (code_of st)). exact M. }
  destruct Sx as (reason & M').
  assert (Nw : ~ In 0%N wire').
  { assert (Mr := reply_message st fs b Cl (short_20 b Sb)).
    destruct (serve_ok h acc' ss sent (bs "GET") (request_target p) rest Rs Ls) as (q2 & r2 & A2 & B2 & _ & _ & _ & C2 & D2 & K2).
    { rewrite Sent2. apply cstr_id. assert (NG : nonul (bs "GET") /\ nonul (bs " ")).
      { split; apply nonul_in; cbn; intuition discriminate. }
      apply nonul_app; [apply NG|]. apply nonul_app; [apply NG|]. apply nonul_app; [now apply word_nonul|].
      apply nonul_app; [apply NG|]. now apply nonul_in. }
    { split; [discriminate|]. apply Forall_forall. repeat constructor; cbn; lia. }
    { exact Wt. }
    apply text_shold in A2, B2, D2. destruct (An q2 r2 A2 B2 C2 D2) as (E5 & F5 & G5).
    apply header_hold in F5. apply text_shold in G5.
    destruct (respond_ok _ _ _ F5 G5 (short_20 b Sb)) as (o & _ & Ho).
    specialize (K2 fs b F5 G5 (short_20 b Sb)). rewrite E in K2. injection K2 as _ K2.
    unfold tcp_write in K2. rewrite firstn_all2 in K2 by apply FW'. rewrite K2. apply nonul_in, Ho. }
  destruct (C60_fetch_partial connect acc url p cs (bs "HTTP/1.1") (fst (code_of st)) reason
    (fs ++ [(bs "Content-Length", ds)]) b wire') as (sent' & r' & Ef' & _ & R1 & R2); auto.
  { cbn. intuition discriminate. }
  { apply Forall_forall. destruct St as [-> | ->]; cbn; unfold Http_Spec.is_digit; intros c; lia. }
  { destruct St as [-> | ->]; reflexivity. }
  rewrite Ef in Ef'. injection Ef' as <- <-. splits; eauto.
  rewrite R1. destruct St as [-> | ->]; reflexivity.
Qed.
Print Assumptions C60_roundtrip_partial.

(** The headers of the answer are lost, whatever they are. *)
Theorem C60_headers_refuted :
  forall connect accept url sent r, fetch connect accept url = Ok (sent, r) -> headers r = [].
Proof.
  intros connect acc url sent r. unfold fetch, response_new.
  destruct (snew_ok []) as (e & -> & _). cbn [bind].
  destruct (url_parse url) as [[u|]| | |]; [| |discriminate..]; cbn [bind].
  2:{ now injection 1 as _ <-. }
  destruct (seq_str _ _) as [[|]| | |]; [| |discriminate..]; cbn [bind negb].
  2:{ now injection 1 as _ <-. }
  destruct (connect (host u) (port u)). 2:{ now injection 1 as _ <-. }
  destruct (request_text u); [|discriminate..]; cbn [bind]. destruct (peek _ _); [|discriminate..]; cbn [bind].
  destruct (fst (tcp_read s (N.to_nat 4096))) as [[|c0 ck]|]; [now injection 1 as _ <-| |now injection 1 as _ <-].
  destruct (snew _); [|discriminate..]. cbn [bind]. destruct (response_status _); [|discriminate..]. cbn [bind].
  unfold response_body. destruct (cread _) as [c| | |]; [|discriminate..]. cbn [bind].
  destruct (strstr _ c); [|now injection 1 as _ <-].
  destruct (ssubstring _ _ _); [|discriminate..]. cbn [bind]. now injection 1 as _ <-.
Qed.
Print Assumptions C60_headers_refuted.

Definition all_of : nat -> nat -> nat := fun _ n => n.
Definition msg1 (b : bytes) : bytes := bs "HTTP/1.1 200 OK" ++ crlf ++ bs "Content-Length: 5" ++ crlf ++ crlf ++ b.
Definition ask (s : stream) : res (option bytes * response) :=
  do u <- snew (bs "http://h:81/x?k"); fetch (fun _ _ => Some s) all_of u.
Definition body_of (x : res (option bytes * response)) : res bytes := do '(_, r) <- x; cread (data (body r)).

(** A body that arrives in a second segment and one that holds a NUL are lost, and no body
    ever has 4096 bytes or more. *)
Theorem C60_body_refuted :
  (exists s, input s = msg1 (bs "hello") /\ (forall i, plan s i <> None) /\ body_of (ask s) = Ok (bs "he")) /\
  (exists s, input s = msg1 (bs "h" ++ [0%N] ++ bs "llo") /\ first_read s = Some (input s) /\ body_of (ask s) = Ok (bs "h")) /\
  (forall connect accept url sent r b, fetch connect accept url = Ok (sent, r) -> text (body r) b ->
     (N.of_nat (length b) < 4096)%N).
Proof.
  splits.
  - exists (mkstream (msg1 (bs "hello")) 0 (fun i => match i with 0 => Some 39 | _ => Some 0 end)). splits.
    + reflexivity.
    + intros [|i]; discriminate.
    + vm_compute. reflexivity.
  - exists (mkstream (msg1 (bs "h" ++ [0%N] ++ bs "llo")) 0 (fun i => Some 400)). splits; vm_compute; reflexivity.
  - intros connect acc url sent r b E B. apply text_shold in B. revert E. unfold fetch, response_new.
    destruct (snew_ok []) as (e & -> & He). cbn [bind cstr] in *.
    assert (G : body r = e -> (N.of_nat (length b) < 4096)%N).
    { intros Eb. rewrite Eb in B. rewrite <- (slength_ok _ _ B), (slength_ok _ _ He). cbn. lia. }
    destruct (url_parse url) as [[u|]| | |]; [| |discriminate..]; cbn [bind].
    2:{ injection 1 as _ <-. exact (G eq_refl). }
    destruct (seq_str _ _) as [[|]| | |]; [| |discriminate..]; cbn [bind negb].
    2:{ injection 1 as _ <-. exact (G eq_refl). }
    destruct (connect (host u) (port u)). 2:{ injection 1 as _ <-. exact (G eq_refl). }
    destruct (request_text u); [|discriminate..]; cbn [bind]. destruct (peek _ _); [|discriminate..]; cbn [bind].
    destruct (fst (tcp_read s (N.to_nat 4096))) as [ck|].
    2:{ injection 1 as _ <-. exact (G eq_refl). }
    destruct ck as [|c0 ck]. { injection 1 as _ <-. exact (G eq_refl). }
    destruct (snew_ok (received (c0 :: ck))) as (rs & -> & Hrs). cbn [bind]. destruct (response_status _); [|discriminate..]. cbn [bind].
    unfold response_body. rewrite (cread_ok _ _ Hrs). cbn [bind].
    assert (L : (N.of_nat (length (cstr (received (c0 :: ck)))) < 4096)%N).
    { assert (Lc : forall x, length (cstr x) <= length x). { induction x as [|y x IH]; cbn; auto. destruct (y =? 0)%N; cbn; lia. }
      specialize (Lc (received (c0 :: ck))). unfold received in *. destruct (N.ltb_spec (N.of_nat (length (c0 :: ck))) 4096); [lia|].
      rewrite firstn_length in Lc. assert (length (cstr (firstn (N.to_nat 4095) (c0 :: ck))) <= N.to_nat 4095) by lia. lia. }
    destruct (strstr _ _) as [k|] eqn:K. 2:{ cbn [bind]. injection 1 as _ <-. exact (G eq_refl). }
    assert (Kl : forall x k, strstr [13; 10; 13; 10]%N x = Some k -> k + 4 <= length x).
    { induction x as [|y x IH]; intros j; [discriminate|]. cbn [strstr]. destruct (is_prefix [13; 10; 13; 10]%N (y :: x)) eqn:Px.
      - intros [= <-]. apply is_prefix_spec in Px as [q ->]. rewrite app_length. cbn. lia.
      - destruct (strstr _ x) as [j'|] eqn:Ej; [|discriminate]. intros [= <-]. specialize (IH j' eq_refl). cbn [length]. lia. }
    specialize (Kl _ _ K). rewrite (slength_ok _ _ Hrs).
    destruct (ssubstring_ok rs _ (N.of_nat k + 4) (N.of_nat (length (cstr (received (c0 :: ck)))) - (N.of_nat k + 4)) Hrs (received_short _)) as (bv & -> & Hb); [lia|].
    cbn [bind]. intros E.
    injection E as _ <-. cbn [set_body body] in B.
    rewrite <- (slength_ok _ _ B), (slength_ok _ _ Hb), firstn_length. lia.
Qed.
Print Assumptions C60_body_refuted.

(** The Host header never carries the port, so a server on a port other than 80 is
    addressed by the wrong authority (RFC 7230, 5.4); and a status number of 2^31 or more
    is an undefined conversion. *)
Theorem C60_host_refuted :
  (exists sent r, ask (mkstream (msg1 (bs "hello")) 0 (fun _ => Some 400)) = Ok (Some sent, r) /\
     sent = bs "GET /x?k HTTP/1.1" ++ crlf ++ bs "Host: h" ++ crlf ++ bs "Connection: close" ++ crlf ++ crlf) /\
  ask (mkstream (bs "HTTP/1.1 4294967296 OK" ++ crlf ++ crlf) 0 (fun _ => Some 400)) = UB.
Proof.
  split.
  - do 2 eexists. split; [vm_compute; reflexivity|reflexivity].
  - vm_compute. reflexivity.
Qed.
Print Assumptions C60_host_refuted.

(** A blank in the path ends it: the server hands the handler a shorter path. *)
Definition path_seen (url : bytes) : res (option bytes) :=
  do u <- snew url;
  do '(sent, _) <- fetch (fun _ _ => Some (mkstream [] 0 (fun _ => Some 0))) all_of u;
  match sent with
  | None => Ok None
  | Some sent =>
    do sv <- serve (fun _ r => r) all_of (mkstream sent 0 (fun _ => Some 400));
    match handled sv with
    | None => Ok None
    | Some q => do p <- cread (data (r_path q)); Ok (Some p)
    end
  end.
Theorem C60_blank_refuted :
  path_seen (bs "http://h/a b") = Ok (Some (bs "/a")) /\ path_seen (bs "http://h/a+b") = Ok (Some (bs "/a+b")).
Proof. split; vm_compute; reflexivity. Qed.
Print Assumptions C60_blank_refuted.

(** Non-vacuity: a handler, a URL and both directions of one exchange. *)
Definition hello_handler (q : request) (r : response) : response :=
  match snew (bs "hello"), snew (bs "X-A"), snew (bs "b c") with
  | Ok b, Ok k, Ok v => set_body (set_header (mkresp 404 (headers r) (body r)) k v) b
  | _, _, _ => r
  end.
Example C59_C60_example :
  let p := mkparts (bs "http") (bs "h") (Some (bs "81")) (Some (bs "x")) (Some (bs "k=1")) in
  let req := mkstream (get_text (bs "/x") (bs "k=1") (bs "h")) 0 (fun _ => Some 400) in
  let wire := bs "HTTP/1.1 404 Not Found" ++ crlf ++ bs "X-A: b c" ++ crlf ++ bs "Content-Length: 5" ++ crlf ++ crlf ++ bs "hello" in
  answers hello_handler (bs "GET") (bs "/x?k=1") 404 [(bs "X-A", bs "b c")] (bs "hello") /\
  clean [(bs "X-A", bs "b c")] /\ word (request_target p) /\ wf_parts p /\
  (do sv <- serve hello_handler all_of req;
   match handled sv with Some q => do x <- cread (data (r_path q)); Ok (x, written sv) | None => UB end) =
    Ok (bs "/x?k=1", wire) /\
  (do u <- snew (url_text p);
   do '(sent, r) <- fetch (fun _ _ => Some (mkstream wire 0 (fun _ => Some 400))) all_of u;
   do x <- cread (data (body r)); Ok (sent, status r, x)) = Ok (first_read req, 404%Z, bs "hello").
Proof.
  cbn zeta. splits.
  - intros q r0 _ _ E _. unfold hello_handler.
    destruct (snew_ok (bs "hello")) as (b & -> & Hb). destruct (snew_ok (bs "X-A")) as (k & -> & Hk).
    destruct (snew_ok (bs "b c")) as (v & -> & Hv). cbn [set_body set_header status headers body]. rewrite E.
    splits; auto.
    + constructor; [|constructor]. split; now apply text_shold.
    + now apply text_shold.
  - constructor; [|constructor]. cbn [fst snd]. split.
    + split; [discriminate|]. apply Forall_forall. repeat constructor; cbn; lia.
    + split. { apply Forall_forall. repeat constructor; cbn; lia. }
      exists [], []. splits; auto; intros c m' E B.
      * injection E as <- _. unfold blank in B. cbn in B. lia.
      * destruct m' as [|? [|? [|? [|]]]]; try discriminate. injection E as _ _ <-. unfold blank in B; cbn in B; lia.
  - split; [discriminate|]. apply Forall_forall. repeat constructor; cbn; lia.
  - unfold wf_parts. cbn [p_scheme p_host p_port p_path p_query]. splits.
    + vm_compute. intuition discriminate.
    + vm_compute. intuition discriminate.
    + apply Forall_forall. repeat constructor; vm_compute; intuition discriminate.
    + intros ds E. injection E as <-. splits; [discriminate| |reflexivity]. apply Forall_forall. cbn.
      unfold Url_Spec.is_digit. intros c. lia.
    + intros x E. injection E as <-. vm_compute. intuition discriminate.
  - vm_compute. reflexivity.
  - vm_compute. reflexivity.
Qed.
