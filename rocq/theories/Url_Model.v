(** Model of std/net/url.zc on top of the String model.  Freeing of intermediate
    strings is not modelled. *)
From Verif Require Import Common Vec_Model String_Model.

(** C strchr on a NUL-free byte string: offset of the first occurrence *)
Fixpoint strchr (c : N) (b : bytes) : option nat :=
  match b with
  | [] => None
  | x :: b => if (x =? c)%N then Some 0 else option_map S (strchr c b)
  end.
(** C strstr *)
Fixpoint strstr (p b : bytes) : option nat :=
  if is_prefix p b then Some 0
  else match b with
       | [] => None
       | _ :: b => option_map S (strstr p b)
       end.

(** C atoi: blanks, an optional sign, digits.  A value outside [int] is undefined. *)
Definition c_space (c : N) : bool := (c =? 32)%N || ((9 <=? c)%N && (c <=? 13)%N).
Fixpoint skip_space (b : bytes) : bytes :=
  match b with
  | c :: t => if c_space c then skip_space t else b
  | [] => []
  end.
Fixpoint digits_value (acc : Z) (b : bytes) : Z :=
  match b with
  | c :: t => if (48 <=? c)%N && (c <=? 57)%N
              then digits_value (10 * acc + Z.of_N (c - 48))%Z t else acc
  | [] => acc
  end.
Definition atoi (b : bytes) : res Z :=
  let b := skip_space b in
  let v := match b with
           | c :: t => if (c =? ch "-")%N then (- digits_value 0 t)%Z
                       else if (c =? ch "+")%N then digits_value 0 t
                       else digits_value 0 b
           | [] => 0%Z
           end in
  if (- 2 ^ 31 <=? v)%Z && (v <? 2 ^ 31)%Z then Ok v else UB.

(** url.zc:5-11 *)
Record url := mkurl { scheme : str; host : str; port : Z; path : str; query : str }.

(** url.zc:33-41: where the host part ends, as an offset into rest *)
Definition host_end (rest : bytes) : option nat :=
  match strchr (ch "/") rest, strchr (ch "?") rest with
  | None, q => q
  | Some s, Some q => if q <? s then Some q else Some s
  | Some s, None => Some s
  end.

(** url.zc:58-72: host and port *)
Definition host_port (host_str : str) (default_port : Z) : res (str * Z) :=
  do parts <- ssplit host_str (ch ":");
  match parts with
  | [a; b] =>
    do h <- strim a;
    do p <- cread (data b);
    do n <- atoi p;
    Ok (h, n)
  | _ => do h <- cread (data host_str); do h <- snew h; Ok (h, default_port)
  end.

(** url.zc:80-106: path and query; [tail] is the text at host_end *)
Definition path_query (tail : option bytes) : res (str * str) :=
  do slash <- snew (bs "/");
  do empty <- snew [];
  match tail with
  | None => Ok (slash, empty)
  | Some [] => Ok (slash, empty)
  | Some ((c :: t) as tail) =>
    if (c =? ch "/")%N then
      do remaining <- snew tail;
      do q_pos <- sfind remaining (ch "?");
      match q_pos with
      | Some q =>
        do p <- ssubstring remaining 0 (N.of_nat q);
        do qs <- ssubstring remaining (N.of_nat (q + 1)) (N.of_nat (slength remaining - q - 1));
        Ok (p, qs)
      | None =>
        do p <- ssubstring remaining 0 (N.of_nat (slength remaining));
        Ok (p, empty)
      end
    else if (c =? ch "?")%N then do qs <- snew t; Ok (slash, qs)
    else Ok (slash, empty)
  end.

(** url.zc:16-115; [None]: Result::Err("Missing scheme") *)
Definition url_parse (raw : str) : res (option url) :=
  do u <- cread (data raw);
  match strstr (bs "://") u with
  | None => Ok None
  | Some scheme_len =>
    do scheme <- ssubstring raw 0 (N.of_nat scheme_len);
    let rest := skipn (scheme_len + 3) u in
    do https <- seq_str scheme (bs "https");
    let default_port := if https then 443%Z else 80%Z in
    let e := host_end rest in
    let host_len := match e with None => length rest | Some e => e end in
    do host_str <- snew (firstn host_len rest ++ [0%N]);
    do '(h, p) <- host_port host_str default_port;
    do '(pa, qs) <- path_query (option_map (fun e => skipn e rest) e);
    Ok (Some (mkurl scheme h p pa qs))
  end.
