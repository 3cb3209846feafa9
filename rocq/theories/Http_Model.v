(** Model of std/net/http.zc (the server loop body and fetch) on top of the String, Url
    and TCP stream models.  Not modelled: freeing of strings and sockets, the listening
    socket, printed messages, and _parse_headers (http.zc:15-35), which nothing calls. *)
From Verif Require Import Common Vec_Model String_Model WebSocket_Model Url_Model.
From Verif Require IntLit_Model.

(** http.zc:37-42, 9-12: headers is a Vec<Header> *)
Record request := mkreq { r_method : str; r_path : str; r_headers : list (str * str); r_body : str }.
(** http.zc:55-59 *)
Record response := mkresp { status : Z; headers : list (str * str); body : str }.

(** http.zc:44-53 *)
Definition request_new (m p : str) : res request :=
  do e <- snew []; Ok (mkreq m p [] e).
(** http.zc:62-68 *)
Definition response_new (st : Z) : res response :=
  do e <- snew []; Ok (mkresp st [] e).
(** http.zc:70-73 *)
Definition set_header (r : response) (k v : str) : response :=
  mkresp (status r) (headers r ++ [(k, v)]) (body r).
(** http.zc:75-80 *)
Definition set_header_str (r : response) (k v : bytes) : res response :=
  do k <- snew k; do v <- snew v; Ok (mkresp (status r) (headers r ++ [(k, v)]) (body r)).
(** http.zc:82-85 *)
Definition set_body (r : response) (b : str) : response := mkresp (status r) (headers r) b.
(** http.zc:88-91 *)
Definition set_body_str (r : response) (b : bytes) : res response :=
  do b <- snew b; Ok (mkresp (status r) (headers r) b).

(** http.zc:123-129 and 252-267: the buffer up to the NUL stored behind the bytes read,
    or over the last of them when the buffer is full *)
Definition received (chunk : bytes) : bytes :=
  if (N.of_nat (length chunk) <? 4096)%N then chunk else firstn (N.to_nat 4095) chunk.

(** http.zc:157-163 *)
Fixpoint put_headers (o : str) (hs : list (str * str)) : res str :=
  match hs with
  | [] => Ok o
  | (k, v) :: hs =>
    do o <- sappend o k;
    do o <- sappend_c o (bs ": ");
    do o <- sappend o v;
    do o <- sappend_c o [13; 10]%N;
    put_headers o hs
  end.

(** http.zc:152-154 *)
Definition status_line (st : Z) : bytes :=
  if (st =? 200)%Z then bs "200 OK" ++ [13; 10]%N
  else if (st =? 404)%Z then bs "404 Not Found" ++ [13; 10]%N
  else bs "500 Internal Server Error" ++ [13; 10]%N.

(** http.zc:150-174 *)
Definition respond (a : response) : res str :=
  do o <- snew (bs "HTTP/1.1 ");
  do o <- sappend_c o (status_line (status a));
  do o <- put_headers o (headers a);
  do o <- sappend_c o (bs "Content-Length: ");
  do o <- sappend_c o (IntLit_Model.print_llu (N.of_nat (slength (body a))));
  do o <- sappend_c o [13; 10]%N;
  do o <- sappend_c o [13; 10]%N;
  sappend o (body a).

(** What happens with one connection: the request the handler was called with, if it
    was, and the bytes written. *)
Record served := mkserved { handled : option request; written : bytes }.

(** http.zc:122-183.  [handler] is the user's function: the response it leaves in the
    one it is given (http.zc:143-147).  [accept]: see [tcp_write]. *)
Definition serve (handler : request -> response -> response) (accept : nat -> nat -> nat)
    (s : stream) : res served :=
  match fst (tcp_read s (N.to_nat 4096)) with
  | None | Some [] => Ok (mkserved None [])
  | Some chunk =>
    do req_str <- snew (received chunk);
    do lines <- ssplit req_str 10;
    match lines with
    | [] => Ok (mkserved None [])
    | first_line :: _ =>
      do parts <- ssplit first_line (ch " ");
      match parts with
      | m :: p :: _ =>
        do m <- strim m;
        do p <- strim p;
        do req <- request_new m p;
        do r0 <- response_new 200;
        do out <- respond (handler req r0);
        do b <- peek (data out) (slength out);
        Ok (mkserved (Some req) (tcp_write accept 0 b))
      | _ => Ok (mkserved None [])
      end
    end
  end.

(** http.zc:234-245 *)
Definition request_text (u : url) : res str :=
  do o <- snew (bs "GET ");
  do o <- sappend o (path u);
  do o <- (if sis_empty (query u) then Ok o
           else do o <- sappend_c o (bs "?"); sappend o (query u));
  do o <- sappend_c o (bs " HTTP/1.1" ++ [13; 10]%N ++ bs "Host: ");
  do o <- sappend o (host u);
  sappend_c o ([13; 10]%N ++ bs "Connection: close" ++ [13; 10; 13; 10]%N).

(** http.zc:271-286 *)
Definition response_status (raw : str) : res Z :=
  do first_space <- sfind raw (ch " ");
  match first_space with
  | None => Ok 0%Z
  | Some fs =>
    do rest_line <- ssubstring raw (N.of_nat fs + 1) (N.of_nat (slength raw) - N.of_nat fs - 1);
    do second_space <- sfind rest_line (ch " ");
    match second_space with
    | Some ss => do code <- ssubstring rest_line 0 (N.of_nat ss); do c <- cread (data code); atoi c
    | None => do c <- cread (data rest_line); atoi c
    end
  end.

(** http.zc:290-298 *)
Definition response_body (raw : str) (r : response) : res response :=
  do c <- cread (data raw);
  match strstr [13; 10; 13; 10]%N c with
  | None => Ok r
  | Some off =>
    do b <- ssubstring raw (N.of_nat off + 4) (N.of_nat (slength raw) - (N.of_nat off + 4));
    Ok (set_body r b)
  end.

(** http.zc:195-303.  [connect host port]: the connection, if name resolution and
    connect succeed (209-229).  Result: the bytes written and the response. *)
Definition fetch (connect : str -> Z -> option stream) (accept : nat -> nat -> nat) (raw_url : str) :
    res (option bytes * response) :=
  do u <- url_parse raw_url;
  match u with
  | None => do r <- response_new 0; Ok (None, r)
  | Some u =>
    do http <- seq_str (scheme u) (bs "http");
    if negb http then do r <- response_new 0; Ok (None, r)
    else
      match connect (host u) (port u) with
      | None => do r <- response_new 0; Ok (None, r)
      | Some s =>
        do req <- request_text u;
        do b <- peek (data req) (slength req);
        let sent := tcp_write accept 0 b in
        match fst (tcp_read s (N.to_nat 4096)) with
        | None | Some [] => do r <- response_new 0; Ok (Some sent, r)
        | Some chunk =>
          do raw <- snew (received chunk);
          do st <- response_status raw;
          do r <- response_new st;
          do r <- response_body raw r;
          Ok (Some sent, r)
        end
      end
  end.
