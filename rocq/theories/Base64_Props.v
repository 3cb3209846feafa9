(** Property C15: Base64. *)
From Verif Require Import Common Bits Vec_Model Vec_Props String_Model String_Spec String_Proofs
  String_Props Base64_Model Base64_Spec Base64_Proofs.

(** C15.  For every sequence of octets, encode returns the RFC 4648 text, without
    reading outside its argument or the table. *)
Theorem C15_base64 :
  forall data, is_bytes data ->
  exists v, b64_encode data = Ok v /\ text v (rfc4648 data).
Proof.
  intros data HB. destruct (b64_encode_ok data HB) as (v & E & R).
  exists v. split; auto. now apply text_shold.
Qed.
Print Assumptions C15_base64.

(** The text has the right length and alphabet, and an independent decoder recovers
    the octets from what encode returned. *)
Theorem C15_base64_decodes :
  forall data, is_bytes data ->
  exists v t, b64_encode data = Ok v /\ text v t /\
    length t = 4 * ((length data + 2) / 3) /\
    Forall (fun c => In c alphabet \/ c = ch "=") t /\
    b64_decode t = Some data.
Proof.
  intros data HB. destruct (b64_encode_ok data HB) as (v & E & R).
  exists v, (rfc4648 data). splits; auto.
  - now apply text_shold.
  - now apply rfc_length.
  - now apply rfc_chars.
  - now apply decode_rfc.
Qed.
Print Assumptions C15_base64_decodes.

(** RFC 4648 section 10 test vectors, for the specification. *)
Example C15_example :
  is_bytes (bs "foobar") /\
  map (fun s => rfc4648 s) [bs ""; bs "f"; bs "fo"; bs "foo"; bs "foob"; bs "fooba"; bs "foobar"]
  = [bs ""; bs "Zg=="; bs "Zm8="; bs "Zm9v"; bs "Zm9vYg=="; bs "Zm9vYmE="; bs "Zm9vYmFy"] /\
  exists v, b64_encode [255; 0; 129; 7]%N = Ok v /\ cread (data v) = Ok (bs "/wCBBw==").
Proof.
  splits.
  - repeat constructor.
  - vm_compute. reflexivity.
  - eexists. split; vm_compute; reflexivity.
Qed.
