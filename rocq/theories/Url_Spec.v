(** The URL syntax scheme://host[:port][path][?query]. *)
From Verif Require Import Common.

Definition is_digit (c : N) : Prop := (48 <= c <= 57)%N.
(** the number written by decimal digits, most significant first *)
Definition decimal (ds : bytes) : Z := fold_left (fun a d => 10 * a + (Z.of_N d - 48))%Z ds 0%Z.

Record parts := mkparts {
  p_scheme : bytes; p_host : bytes; p_port : option bytes; p_path : option bytes; p_query : option bytes }.

Definition opt (o : option bytes) (pre : bytes) : bytes :=
  match o with None => [] | Some x => pre ++ x end.
Definition url_text (p : parts) : bytes :=
  p_scheme p ++ bs "://" ++ p_host p ++ opt (p_port p) (bs ":") ++
  opt (p_path p) (bs "/") ++ opt (p_query p) (bs "?").

(** scheme without ":"; host without ":", "/", "?" and blanks; port a decimal number
    that fits an int; path (after its first "/") without "?"; no NUL anywhere. *)
Definition wf_parts (p : parts) : Prop :=
  ~ In 0%N (url_text p) /\
  ~ In (ch ":") (p_scheme p) /\
  (forall c, In c (p_host p) -> ~ In c [ch ":"; ch "/"; ch "?"; 32%N; 9%N; 10%N; 13%N]) /\
  (forall ds, p_port p = Some ds -> ds <> [] /\ Forall is_digit ds /\ (decimal ds < 2 ^ 31)%Z) /\
  (forall x, p_path p = Some x -> ~ In (ch "?") x).

(** The port that results *)
Definition url_port (p : parts) : Z :=
  match p_port p with
  | Some ds => decimal ds
  | None => if beq_bytes (p_scheme p) (bs "https") then 443 else 80
  end.
Definition url_path (p : parts) : bytes := bs "/" ++ match p_path p with Some x => x | None => [] end.
Definition url_query (p : parts) : bytes := match p_query p with Some x => x | None => [] end.
