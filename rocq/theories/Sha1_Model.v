(** Model of std/crypto/sha1.zc.  u32 values are [N] below 2^32. *)
From Verif Require Import Common.

Definition w32 (x : N) : N := (x mod 2 ^ 32)%N.
(** (x << n) | (x >> m), as written at lines 52, 78, 82 *)
Definition rot (x n m : N) : N := N.lor (w32 (N.shiftl x n)) (N.shiftr x m).

(** data[i] *)
Definition rd (data : bytes) (i : nat) : res N :=
  match nth_error data i with Some x => Ok x | None => UB end.

(** std/crypto/sha1.zc:10-14; buffer is zeroed by new *)
Definition words5 := (N * N * N * N * N)%type.
Record sha := mksha { st : words5; count : N; buffer : bytes }.

(** std/crypto/sha1.zc:17-30 *)
Definition sha_new : sha :=
  mksha (0x67452301, 0xEFCDAB89, 0x98BADCFE, 0x10325476, 0xC3D2E1F0)%N 0%N (repeat 0%N 64).

(** std/crypto/sha1.zc:42-45.  The array w is modelled by the list of the entries
    written so far (they are written in order); [k] iterations left. *)
Fixpoint load_words (data : bytes) (w : list N) (i k : nat) : res (list N) :=
  match k with
  | 0 => Ok w
  | S k =>
    do a <- rd data (i * 4); do b <- rd data (i * 4 + 1);
    do c <- rd data (i * 4 + 2); do d <- rd data (i * 4 + 3);
    load_words data
      (w ++ [N.lor (N.lor (N.lor (N.shiftl a 24) (N.shiftl b 16)) (N.shiftl c 8)) d]) (i + 1) k
  end.

(** std/crypto/sha1.zc:47-51 *)
Fixpoint extend_words (w : list N) (i k : nat) : res (list N) :=
  match k with
  | 0 => Ok w
  | S k =>
    do x <- rd w (i - 3); do y <- rd w (i - 8); do z <- rd w (i - 14); do t <- rd w (i - 16);
    extend_words (w ++ [rot (N.lxor (N.lxor (N.lxor x y) z) t) 1 31]) (i + 1) k
  end.

(** ~b on u32 *)
Definition not32 (b : N) : N := N.lxor b 0xFFFFFFFF%N.

(** std/crypto/sha1.zc:57-70 *)
Definition sha_f (i : nat) (b c d : N) : N :=
  if i <? 20 then N.lor (N.land b c) (N.land (not32 b) d)
  else if i <? 40 then N.lxor (N.lxor b c) d
  else if i <? 60 then N.lor (N.lor (N.land b c) (N.land b d)) (N.land c d)
  else N.lxor (N.lxor b c) d.
Definition sha_k (i : nat) : N :=
  if i <? 20 then 0x5A827999%N else if i <? 40 then 0x6ED9EBA1%N
  else if i <? 60 then 0x8F1BBCDC%N else 0xCA62C1D6%N.

(** std/crypto/sha1.zc:53-81, [k] iterations left *)
Fixpoint sha_rounds (w : list N) (i k : nat) (s : words5) : res words5 :=
  match k with
  | 0 => Ok s
  | S k =>
    let '(a, b, c, d, e) := s in
    do wi <- rd w i;
    let temp := w32 (rot a 5 27 + sha_f i b c d + e + sha_k i + wi)%N in
    sha_rounds w (i + 1) k (temp, a, rot b 30 2, c, d)
  end.

(** std/crypto/sha1.zc:32-88; [data] is the memory from the pointer on *)
Definition transform (s : words5) (data : bytes) : res words5 :=
  do w <- load_words data [] 0 16;
  do w <- extend_words w 16 64;
  do '(a, b, c, d, e) <- sha_rounds w 0 80 s;
  let '(h0, h1, h2, h3, h4) := s in
  Ok (w32 (h0 + a), w32 (h1 + b), w32 (h2 + c), w32 (h3 + d), w32 (h4 + e))%N.

(** memcpy(dst + d, src + s, n) *)
Definition memcpy (dst : bytes) (d : nat) (src : bytes) (s n : nat) : res bytes :=
  if (d + n <=? length dst) && (s + n <=? length src)
  then Ok (firstn d dst ++ firstn n (skipn s src) ++ skipn (d + n) dst)
  else UB.

(** std/crypto/sha1.zc:104-107 *)
Fixpoint update_blocks (fuel : nat) (s : words5) (data : bytes) (i : nat) : res (words5 * nat) :=
  match fuel with
  | 0 => Fuel
  | S f =>
    if i + 63 <? length data then
      do s <- transform s (skipn i data);
      update_blocks f s data (i + 64)
    else Ok (s, i)
  end.

(** std/crypto/sha1.zc:90-117; [len] is the length of [data] *)
Definition sha_update (h : sha) (data : bytes) : res sha :=
  let j := N.to_nat (N.land (N.shiftr (count h) 3) 0x3F) in
  let cnt := ((count h + (N.shiftl (N.of_nat (length data)) 3) mod 2 ^ 64) mod 2 ^ 64)%N in
  if 63 <? j + length data then
    do buf <- memcpy (buffer h) j data 0 (64 - j);
    do s <- transform (st h) buf;
    do '(s, i) <- update_blocks (S (length data)) s data (64 - j);
    do buf <- memcpy buf 0 data i (length data - i);
    Ok (mksha s cnt buf)
  else
    do buf <- memcpy (buffer h) j data 0 (length data);
    Ok (mksha (st h) cnt buf).

(** std/crypto/sha1.zc:132-140 (and again, without effect, at 177-179) *)
Fixpoint pad_loop (fuel : nat) (h : sha) : res sha :=
  match fuel with
  | 0 => Fuel
  | S f =>
    if (N.land (count h) 504 =? 448)%N then Ok h
    else do h <- sha_update h [0%N]; pad_loop f h
  end.

(** std/crypto/sha1.zc:124-126, 190-194: byte [k] of a big-endian value *)
Definition be_byte (x shift : N) : N := N.land (N.shiftr x shift) 0xFF.

(** std/crypto/sha1.zc:119-196 *)
Definition sha_final (h : sha) : res bytes :=
  let final_count := map (fun k => be_byte (count h) ((7 - N.of_nat k) * 8)) (seq 0 8) in
  do h <- sha_update h [0x80%N];
  do h <- pad_loop 65 h;
  do h <- pad_loop 65 h;
  do h <- sha_update h final_count;
  let '(h0, h1, h2, h3, h4) := st h in
  Ok (map (fun k => be_byte (nth (k / 4) [h0; h1; h2; h3; h4] 0%N)
                            ((3 - N.land (N.of_nat k) 3) * 8)) (seq 0 20)).

(** std/crypto/sha1.zc:199-203 *)
Definition sha_hash (data : bytes) : res bytes :=
  do h <- sha_update sha_new data; sha_final h.

(** A user's sequence of update calls, then final. *)
Fixpoint sha_updates (h : sha) (chunks : list bytes) : res sha :=
  match chunks with
  | [] => Ok h
  | c :: cs => do h <- sha_update h c; sha_updates h cs
  end.
Definition sha_chunks (chunks : list bytes) : res bytes :=
  do h <- sha_updates sha_new chunks; sha_final h.
