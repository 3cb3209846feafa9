(** RFC 6455: data frames (section 5.2, 5.3) and the opening handshake (4.2.2). *)
From Verif Require Import Common Base64_Spec Sha1_Spec.
Local Open Scope N_scope.

(** "octet i of the transformed data is octet i of the original data XOR octet i modulo 4
    of the key" *)
Definition transformed (key payload : bytes) : bytes :=
  map (fun '(i, c) => N.lxor c (nth (i mod 4) key 0))
      (combine (seq 0 (length payload)) payload).

(** An unfragmented text frame: FIN, opcode 1; mask bit and payload length in the fewest
    of 1, 3 or 9 bytes; masking key; payload. *)
Definition text_frame (mask : option bytes) (payload : bytes) : bytes :=
  let n := N.of_nat (length payload) in
  let m := match mask with Some _ => 128 | None => 0 end in
  [129] ++
  (if n <? 126 then [m + n]
   else if n <? 2 ^ 16 then (m + 126) :: be_bytes 2 n
   else (m + 127) :: be_bytes 8 n) ++
  match mask with
  | Some key => key ++ transformed key payload
  | None => payload
  end.

Definition mask_ok (mask : option bytes) : Prop :=
  match mask with Some key => length key = 4%nat /\ is_bytes key | None => True end.

Definition GUID : bytes := bs "258EAFA5-E914-47DA-95CA-C5AB0DC85B11".
Definition accept_value (key : bytes) : bytes := rfc4648 (fips_sha1 (key ++ GUID)).
Definition CRLF : bytes := [13; 10].
Definition handshake_response (key : bytes) : bytes :=
  bs "HTTP/1.1 101 Switching Protocols" ++ CRLF ++
  bs "Upgrade: websocket" ++ CRLF ++
  bs "Connection: Upgrade" ++ CRLF ++
  bs "Sec-WebSocket-Accept: " ++ accept_value key ++ CRLF ++
  CRLF.
