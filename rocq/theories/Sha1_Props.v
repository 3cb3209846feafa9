(** Property C16: SHA-1. *)
From Verif Require Import Common Bits Sha1_Model Sha1_Spec Sha1_Proofs.

(** C16.  However a message shorter than 2^61 bytes is split into update calls, final
    returns the FIPS 180-4 digest of the concatenation; no access leaves a buffer. *)
Theorem C16_sha1 :
  forall chunks, Forall is_bytes chunks ->
  (N.of_nat (length (concat chunks)) < 2 ^ 61)%N ->
  sha_chunks chunks = Ok (fips_sha1 (concat chunks)).
Proof.
  intros cs HC HL. unfold sha_chunks.
  destruct (updates_ok cs sha_new [] absorbed_new (Forall_nil _) HC) as (h & -> & A).
  cbn [bind app] in *. apply final_ok; auto.
  - unfold is_bytes. apply Forall_concat. exact HC.
  - change (2 ^ 64)%N with (8 * 2 ^ 61)%N. lia.
Qed.
Print Assumptions C16_sha1.

(** The one-call interface is the special case of one chunk. *)
Theorem C16_sha1_hash :
  forall data, is_bytes data -> (N.of_nat (length data) < 2 ^ 61)%N ->
  sha_hash data = Ok (fips_sha1 data) /\ length (fips_sha1 data) = 20 /\ is_bytes (fips_sha1 data).
Proof.
  intros data HB HL. splits.
  - destruct (update_ok sha_new [] data absorbed_new (Forall_nil _) HB) as (h & E & A).
    unfold sha_hash. rewrite E. cbn [bind app] in *. apply final_ok; auto.
    change (2 ^ 64)%N with (8 * 2 ^ 61)%N. lia.
  - unfold fips_sha1. destruct (blocks _ _ _) as [[[[a b] c] d] e].
    rewrite !app_length, !length_be_bytes. reflexivity.
  - unfold fips_sha1. destruct (blocks _ _ _) as [[[[a b] c] d] e].
    repeat (apply Forall_app; split); apply be_bytes_bytes.
Qed.
Print Assumptions C16_sha1_hash.

(** The padding of the specification is the one of FIPS 180-4, 5.1.1: the fewest zero
    bytes that bring the length to 56 modulo 64. *)
Theorem C16_padding :
  forall n, (n + 1 + zeros n) mod 64 = 56 /\ forall k, (n + 1 + k) mod 64 = 56 -> zeros n <= k.
Proof. intros n. unfold zeros. split; [lia|]. intros k. lia. Qed.
Print Assumptions C16_padding.

(** FIPS 180 test vectors, for the specification and the model. *)
Example C16_example :
  let m := bs "abcdbcdecdefdefgefghfghighijhijkijkljklmklmnlmnomnopnopq" in
  let d := [0x84; 0x98; 0x3e; 0x44; 0x1c; 0x3b; 0xd2; 0x6e; 0xba; 0xae; 0x4a; 0xa1; 0xf9; 0x51;
            0x29; 0xe5; 0xe5; 0x46; 0x70; 0xf1]%N in
  let chunks := [firstn 3 m; []; skipn 3 m] in
  Forall is_bytes chunks /\ (N.of_nat (length (concat chunks)) < 2 ^ 61)%N /\
  fips_sha1 m = d /\ sha_chunks chunks = Ok d.
Proof.
  cbv zeta. splits.
  - repeat constructor.
  - vm_compute. reflexivity.
  - vm_compute. reflexivity.
  - vm_compute. reflexivity.
Qed.
