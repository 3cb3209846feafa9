(** SHA-1 as in FIPS 180-4 (sections 2.2.2, 4.1.1, 4.2.1, 5.1.1, 5.3.1, 6.1.2), on
    messages that are whole numbers of bytes. *)
From Verif Require Import Common.
Local Open Scope N_scope.

Definition M32 : N := 2 ^ 32.
(** rotate left by n (0 < n < 32) *)
Definition ROTL (n x : N) : N := (x * 2 ^ n) mod M32 + x / 2 ^ (32 - n).
Definition NOT (x : N) : N := M32 - 1 - x.

Definition Ch x y z := N.lxor (N.land x y) (N.land (NOT x) z).
Definition Parity x y z := N.lxor (N.lxor x y) z.
Definition Maj x y z := N.lxor (N.lxor (N.land x y) (N.land x z)) (N.land y z).
Definition ft (t : nat) (x y z : N) : N :=
  if (t <=? 19)%nat then Ch x y z
  else if (t <=? 39)%nat then Parity x y z
  else if (t <=? 59)%nat then Maj x y z
  else Parity x y z.
Definition Kt (t : nat) : N :=
  if (t <=? 19)%nat then 0x5a827999
  else if (t <=? 39)%nat then 0x6ed9eba1
  else if (t <=? 59)%nat then 0x8f1bbcdc
  else 0xca62c1d6.

(** big-endian bytes of a number *)
Fixpoint be_bytes (w : nat) (x : N) : bytes :=
  match w with
  | O => []
  | S w => (x / 256 ^ N.of_nat w) mod 256 :: be_bytes w x
  end.
Fixpoint be_val (l : bytes) : N :=
  match l with
  | [] => 0
  | b :: l => b * 256 ^ N.of_nat (length l) + be_val l
  end.

(** the sixteen words of a 64-byte block *)
Definition block_words (b : bytes) : list N :=
  map (fun t => be_val (firstn 4 (skipn (4 * t) b))) (seq 0 16).

(** W_t for t < 80 *)
Definition next_W (W : list N) : list N :=
  let t := length W in
  let w k := nth (t - k) W 0 in
  W ++ [ROTL 1 (N.lxor (N.lxor (N.lxor (w 3%nat) (w 8%nat)) (w 14%nat)) (w 16%nat))].
Definition schedule (M : list N) : list N := Nat.iter 64 next_W M.

Definition hstate := (N * N * N * N * N)%type.
Definition round (W : list N) (s : hstate) (t : nat) : hstate :=
  let '(a, b, c, d, e) := s in
  ((ROTL 5 a + ft t b c d + e + Kt t + nth t W 0) mod M32, a, ROTL 30 b, c, d).
Definition compress (H : hstate) (block : bytes) : hstate :=
  let W := schedule (block_words block) in
  let '(a, b, c, d, e) := fold_left (round W) (seq 0 80) H in
  let '(h0, h1, h2, h3, h4) := H in
  ((h0 + a) mod M32, (h1 + b) mod M32, (h2 + c) mod M32, (h3 + d) mod M32, (h4 + e) mod M32).

(** the first q blocks of a message *)
Fixpoint blocks (q : nat) (H : hstate) (m : bytes) : hstate :=
  match q with
  | O => H
  | S q => blocks q (compress H (firstn 64 m)) (skipn 64 m)
  end.

Definition H0 : hstate := (0x67452301, 0xefcdab89, 0x98badcfe, 0x10325476, 0xc3d2e1f0).

(** zero bytes between the 0x80 byte and the length *)
Definition zeros (len : nat) : nat := ((119 - len mod 64) mod 64)%nat.
Definition pad (m : bytes) : bytes :=
  m ++ [0x80] ++ repeat 0 (zeros (length m)) ++ be_bytes 8 (8 * N.of_nat (length m)).

Definition fips_sha1 (m : bytes) : bytes :=
  let p := pad m in
  let '(h0, h1, h2, h3, h4) := blocks (length p / 64) H0 p in
  be_bytes 4 h0 ++ be_bytes 4 h1 ++ be_bytes 4 h2 ++ be_bytes 4 h3 ++ be_bytes 4 h4.
