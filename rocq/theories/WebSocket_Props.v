(** Properties C17 (WebSocket frames) and C18 (handshake). *)
From Verif Require Import Common Bits Vec_Model Vec_Props String_Model String_Spec String_Proofs
  String_Props Sha1_Spec WebSocket_Model WebSocket_Spec WebSocket_Proofs.

(** The operating system takes the whole of every write. *)
Definition full_writes (accept : nat -> nat -> nat) : Prop := forall i n, n <= accept i n.
(** No read fails; reads may return any non-zero number of bytes. *)
Definition reliable (s : stream) : Prop := forall i, plan s i <> None.

(** Sending: for every text the bytes on the wire are the RFC 6455 frame. *)
Theorem C17_send :
  forall accept v t, full_writes accept -> text v t -> (N.of_nat (length t) < 2 ^ 64)%N ->
  ws_send accept v = Ok (text_frame None t).
Proof.
  intros accept v t FW H HL. apply text_shold in H. unfold ws_send.
  rewrite (peek_ok _ _ H). cbn [bind]. rewrite (slength_ok _ _ H). unfold tcp_write.
  rewrite !firstn_all2 by apply FW. now rewrite header_ok.
Qed.
Print Assumptions C17_send.

(** Receiving: whatever the masking key and however the connection fragments the bytes,
    recv returns the payload of a frame of less than 2^16 bytes and leaves the bytes that
    follow.  (A String cannot hold a NUL; see C17_nul_refuted.) *)
Theorem C17_recv_partial :
  forall s mask t rest, reliable s -> mask_ok mask ->
  ~ In 0%N t -> (N.of_nat (length t) < 2 ^ 16)%N ->
  input s = text_frame mask t ++ rest ->
  exists v s', ws_recv s = Ok (Received v, s') /\ text v t /\ input s' = rest /\ reliable s'.
Proof.
  intros s mask t rest NE MO NN HL E.
  destruct (recv_frame s mask t rest NE MO HL E) as (v & s' & R & H & NE' & E' & _).
  exists v, s'. splits; auto. apply text_shold. rewrite cstr_id in H; auto.
  apply Forall_forall. intros c I ->. auto.
Qed.
Print Assumptions C17_recv_partial.

(** n calls of recv *)
Fixpoint recv_n (n : nat) (s : stream) : res (list ws_result * stream) :=
  match n with
  | 0 => Ok ([], s)
  | S n => do '(r, s) <- ws_recv s; do '(rs, s) <- recv_n n s; Ok (r :: rs, s)
  end.
Fixpoint send_all (accept : nat -> nat -> nat) (vs : list str) : res bytes :=
  match vs with
  | [] => Ok []
  | v :: vs => do b <- ws_send accept v; do r <- send_all accept vs; Ok (b ++ r)
  end.

(** C17 restricted to texts below 64 KiB and full writes: any sequence of sent texts is
    received unchanged, in order, for every fragmentation of the byte stream. *)
Theorem C17_roundtrip_partial :
  forall accept vs ts, full_writes accept -> Forall2 text vs ts ->
  Forall (fun t => N.of_nat (length t) < 2 ^ 16)%N ts ->
  exists wire, send_all accept vs = Ok wire /\
  forall s, reliable s -> input s = wire ->
  exists us s', recv_n (length vs) s = Ok (map Received us, s') /\ Forall2 text us ts /\ input s' = [].
Proof.
  intros accept vs ts FW F HL.
  assert (G : exists wire, send_all accept vs = Ok wire /\
    forall s rest, reliable s -> input s = wire ++ rest ->
    exists us s', recv_n (length vs) s = Ok (map Received us, s') /\ Forall2 text us ts /\ input s' = rest).
  { induction F as [|v t vs ts H F IH]; cbn [send_all].
    - exists []. split; auto. intros s rest R E. exists [], s. splits; auto.
    - inversion HL; subst. destruct (IH H3) as (w & Ew & Hw).
      rewrite (C17_send accept v t FW H) by (eapply N.lt_trans; [eassumption|reflexivity]).
      rewrite Ew. cbn [bind]. eexists. split; [reflexivity|]. intros s rest R E.
      rewrite <- app_assoc in E.
      destruct (C17_recv_partial s None t (w ++ rest) R I (proj2 H) H2 E) as (u & s1 & R1 & T1 & E1 & NE1).
      destruct (Hw s1 rest NE1 E1) as (us & s2 & R2 & T2 & E2).
      exists (u :: us), s2. cbn [length recv_n]. rewrite R1. cbn [bind]. rewrite R2. cbn [bind map].
      splits; auto. }
  destruct G as (w & Ew & Hw). exists w. split; auto. intros s R E. apply Hw; auto.
  now rewrite app_nil_r.
Qed.
Print Assumptions C17_roundtrip_partial.

(** On arbitrary bytes, with reads failing or the peer closing at any point, recv returns
    (a string or an error): no access outside a buffer, no endless loop. *)
Theorem C17_recv_total :
  forall s, exists r s', ws_recv s = Ok (r, s').
Proof. exact recv_total. Qed.
Print Assumptions C17_recv_total.

(** No text of 64 KiB or more is ever received. *)
Theorem C17_large_refuted :
  forall s mask t rest, reliable s -> (2 ^ 16 <= N.of_nat (length t))%N ->
  input s = text_frame mask t ++ rest ->
  exists s', ws_recv s = Ok (Failed Huge, s').
Proof. exact recv_huge. Qed.
Print Assumptions C17_large_refuted.

(** A payload with a NUL is cut there. *)
Theorem C17_nul_refuted :
  forall s mask a b rest, reliable s -> mask_ok mask -> ~ In 0%N a ->
  (N.of_nat (length (a ++ [0%N] ++ b)) < 2 ^ 16)%N ->
  input s = text_frame mask (a ++ [0%N] ++ b) ++ rest ->
  exists v s', ws_recv s = Ok (Received v, s') /\ text v a.
Proof.
  intros s mask a b rest NE MO NN HL E.
  destruct (recv_frame s mask _ rest NE MO HL E) as (v & s' & R & H & _).
  exists v, s'. split; auto. apply text_shold. replace (cstr (a ++ [0%N] ++ b)) with a in H; auto.
  clear -NN. induction a as [|c a IH]; cbn; auto. cbn in NN.
  destruct (N.eqb_spec c 0); [subst; tauto|]. f_equal. cbn in IH. apply IH. tauto.
Qed.
Print Assumptions C17_nul_refuted.

(** If the system takes only part of a write, send reports success and the frame on the
    wire is truncated. *)
Theorem C17_short_write_refuted :
  exists accept v t, text v t /\
  (forall i n, 0 < n -> 0 < accept i n) /\
  exists wire, ws_send accept v = Ok wire /\ wire <> text_frame None t /\ length wire < length (text_frame None t).
Proof.
  destruct (snew_ok (bs "hello")) as (v & _ & H).
  exists (fun _ n => Nat.min n 2), v, (bs "hello"). splits.
  - now apply text_shold.
  - intros; lia.
  - unfold ws_send. rewrite (peek_ok _ _ H). cbn [bind]. rewrite (slength_ok _ _ H).
    eexists. splits; [reflexivity| |]; vm_compute; [discriminate|]. repeat constructor.
Qed.
Print Assumptions C17_short_write_refuted.

(** One byte at a time, masked, then a second frame. *)
Example C17_example :
  let t := repeat (ch "x") 200 in
  let key := [1; 2; 3; 4]%N in
  let s := mkstream (text_frame (Some key) t ++ text_frame None (bs "ok")) 0 (fun _ => Some 0) in
  reliable s /\ mask_ok (Some key) /\ ~ In 0%N t /\ (N.of_nat (length t) < 2 ^ 16)%N /\
  (exists v s', ws_recv s = Ok (Received v, s') /\ cread (data v) = Ok t /\ input s' = text_frame None (bs "ok")) /\
  full_writes (fun _ n => n) /\ (exists v, snew (bs "hi") = Ok v /\ text v (bs "hi")).
Proof.
  cbv zeta. splits.
  - intros i; discriminate.
  - split; [reflexivity|repeat constructor].
  - intros I. now apply repeat_spec in I.
  - reflexivity.
  - eexists _, _. splits; vm_compute; reflexivity.
  - intros i n. lia.
  - destruct (snew_ok (bs "hi")) as (v & E & H). exists v. split; auto. now apply text_shold.
Qed.

(** C18.  For every key the response sent is the RFC 6455 one. *)
Theorem C18_handshake :
  forall accept v key, full_writes accept -> text v key -> is_bytes key ->
  (N.of_nat (length key) < 2 ^ 60)%N ->
  ws_handshake accept v = Ok (handshake_response key).
Proof.
  intros accept v key FW H HB HL. apply text_shold in H. rewrite (handshake_ok accept v key H HB).
  - unfold tcp_write. now rewrite firstn_all2 by apply FW.
  - rewrite app_length. change (length GUID) with 36.
    change (2 ^ 60)%N with 1152921504606846976%N in HL. change (2 ^ 61)%N with 2305843009213693952%N. lia.
Qed.
Print Assumptions C18_handshake.

(** The example of RFC 6455, section 1.3. *)
Example C18_example :
  accept_value (bs "dGhlIHNhbXBsZSBub25jZQ==") = bs "s3pPLMBiTxaQ9kYGzzhZRbK+xOo=" /\
  exists v, text v (bs "dGhlIHNhbXBsZSBub25jZQ==") /\ is_bytes (bs "dGhlIHNhbXBsZSBub25jZQ==").
Proof.
  split.
  - vm_compute. reflexivity.
  - destruct (snew_ok (bs "dGhlIHNhbXBsZSBub25jZQ==")) as (v & E & H). exists v. split.
    + now apply text_shold.
    + repeat constructor.
Qed.
