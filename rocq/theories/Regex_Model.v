(** Model of std/regex.zc around the TRE library.  A compiled pattern is its answer to
    tre_regexec on a text: the bounds of the match found, or [None].  Not modelled: TRE
    itself and freeing. *)
From Verif Require Import Common Vec_Model String_Model.

Definition engine := bytes -> option (nat * nat).
(** regex.zc:47-51, 54-66: [None] when tre_regcomp failed (preg is 0) *)
Definition regex := option engine.

(** regex.zc:19-23: the text is a pointer, given by the bytes from it to the NUL *)
Record rmatch := mkmatch { m_text : bytes; m_start : Z; m_len : Z }.

(** regex.zc:35-40 (memcpy within the text, which no match reaches beyond) *)
Definition as_string (m : rmatch) : res bytes :=
  if ((0 <=? m_start m) && (0 <=? m_len m) && (m_start m + m_len m <=? Z.of_nat (length (m_text m))))%Z
  then Ok (firstn (Z.to_nat (m_len m)) (skipn (Z.to_nat (m_start m)) (m_text m)))
  else UB.
(** regex.zc:42-44 *)
Definition m_end (m : rmatch) : Z := (m_start m + m_len m)%Z.

(** regex.zc:68-70 *)
Definition is_valid (r : regex) : bool := match r with Some _ => true | None => false end.

(** tre_regexec(preg, t, ...) == 0 *)
Definition matches (e : engine) (t : bytes) : bool := match e t with Some _ => true | None => false end.

(** regex.zc:72-75 *)
Definition rmatches (r : regex) (t : bytes) : bool :=
  match r with None => false | Some e => matches e t end.
(** regex.zc:77-79 *)
Definition match_full (r : regex) (t : bytes) : bool := rmatches r t.
(** regex.zc:81-86 *)
Definition match_at (r : regex) (t : bytes) (offset : Z) : bool :=
  match r with
  | None => false
  | Some e =>
    if ((offset <? 0) || (Z.of_nat (length t) <? offset))%Z then false
    else matches e (skipn (Z.to_nat offset) t)
  end.

(** regex.zc:92-104; the pair's bounds are never -1 here *)
Definition find (r : regex) (t : bytes) : option rmatch :=
  match r with
  | None => None
  | Some e =>
    match e t with
    | Some (s, en) => Some (mkmatch t (Z.of_nat s) (Z.of_nat en - Z.of_nat s))
    | None => None
    end
  end.
(** regex.zc:106-112 *)
Definition find_at (r : regex) (t : bytes) (start : Z) : option rmatch :=
  if ((start <? 0) || (Z.of_nat (length t) <=? start))%Z then None
  else find r (skipn (Z.to_nat start) t).

(** regex.zc:119-127; [s] is text + pos *)
Fixpoint count_loop (e : engine) (s : bytes) (count : Z) : Z :=
  match s with
  | [] => count
  | _ :: s' => if matches e s then count_loop e s' (count + 1)%Z else count
  end.
(** regex.zc:114-129 *)
Definition count (r : regex) (t : bytes) : Z :=
  match r with None => 0 | Some e => count_loop e t 0 end.

(** regex.zc:140-163; [k] is t_len - pos *)
Fixpoint split_loop (e : engine) (t : bytes) (k last_pos pos : nat) : res (list str) :=
  match k with
  | 0 =>
    if last_pos <? length t then do s <- snew (skipn last_pos t); Ok [s] else Ok []
  | S k =>
    if matches e (skipn pos t) then
      if last_pos <? pos then
        do s <- snew (firstn (pos - last_pos) (skipn last_pos t));
        do ps <- split_loop e t k (pos + 1) (pos + 1);
        Ok (s :: ps)
      else split_loop e t k (pos + 1) (pos + 1)
    else split_loop e t k last_pos (pos + 1)
  end.
(** regex.zc:131-163 *)
Definition split (r : regex) (t : bytes) : res (list str) :=
  match r with
  | None => do s <- snew t; Ok [s]
  | Some e => split_loop e t (length t) 0 0
  end.
