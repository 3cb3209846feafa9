(** Model of std/net/websocket.zc and of the stream calls it uses (std/net/tcp.zc:14-36). *)
From Verif Require Import Common Vec_Model String_Model Base64_Model Sha1_Model.

(** The first [n] bytes at a string's c_str(); reading past the buffer or an
    uninitialised byte is undefined. *)
Fixpoint peek (d : buf N) (n : nat) {struct n} : res bytes :=
  match n with
  | 0 => Ok []
  | S n => match d with
           | Some c :: d => do r <- peek d n; Ok (c :: r)
           | _ => UB
           end
  end.

(** The receiving end of a connection.  [input]: bytes the peer has sent before closing.
    [plan i]: what the operating system does at the i-th read call: [None] an error,
    [Some k] deliver k + 1 bytes, or fewer if fewer are left or asked for. *)
Record stream := mkstream { input : bytes; reads : nat; plan : nat -> option nat }.

(** std/net/tcp.zc:14-18.  [inl] is Result::Ok with the bytes stored at buf. *)
Definition tcp_read (s : stream) (len : nat) : (option bytes) * stream :=
  match plan s (reads s) with
  | None => (None, mkstream (input s) (reads s + 1) (plan s))
  | Some k =>
    let n := Nat.min (k + 1) (Nat.min len (length (input s))) in
    (Some (firstn n (input s)), mkstream (skipn n (input s)) (reads s + 1) (plan s))
  end.

(** std/net/tcp.zc:20-30: [got] are the bytes already stored; a read of 0 bytes is
    "Unexpected EOF".  [None]: Result::Err. *)
Fixpoint read_exact_loop (fuel : nat) (s : stream) (got : bytes) (len : nat) : res (option bytes * stream) :=
  match fuel with
  | 0 => Fuel
  | S f =>
    if length got <? len then
      match tcp_read s (len - length got) with
      | (None, s) => Ok (None, s)
      | (Some [], s) => Ok (None, s)
      | (Some b, s) => read_exact_loop f s (got ++ b) len
      end
    else Ok (Some got, s)
  end.
Definition read_exact (s : stream) (len : nat) : res (option bytes * stream) :=
  read_exact_loop (S len) s [] len.

(** The sending end: [accept i n] bytes of the i-th write, of [n] bytes, are taken by
    the operating system (tcp.zc:32-36; the result is ignored by send and handshake). *)
Definition tcp_write (accept : nat -> nat -> nat) (i : nat) (b : bytes) : bytes :=
  firstn (accept i (length b)) b.

(** websocket.zc:80-82, byte [i] of the 64-bit length *)
Definition len_byte (len : N) (i : N) : N := N.land (N.shiftr len ((7 - i) * 8)) 0xFF.

(** websocket.zc:60-85 *)
Definition ws_header (len : N) : bytes :=
  if (len <=? 125)%N then [0x81; len mod 256]%N
  else if (len <=? 65535)%N then [0x81; 126; N.land (N.shiftr len 8) 0xFF; N.land len 0xFF]%N
  else [0x81; 127]%N ++ map (len_byte len) [0; 1; 2; 3; 4; 5; 6; 7]%N.

(** websocket.zc:55-91: the bytes that reach the peer *)
Definition ws_send (accept : nat -> nat -> nat) (msg : str) : res bytes :=
  let len := slength msg in
  do payload <- peek (data msg) len;
  Ok (tcp_write accept 0 (ws_header (N.of_nat len)) ++ tcp_write accept 1 payload).

(** The Err texts of recv, websocket.zc:99-137 *)
Inductive ws_err := ReadError | Closed | NotText | ReadLen | Huge | ReadMask | ReadFailed.
Inductive ws_result := Received (s : str) | Failed (e : ws_err).

(** websocket.zc:140-144: buf[i] = buf[i] ^ mask_key[i % 4], [b] from index i on *)
Fixpoint unmask (key b : bytes) (i : nat) : res bytes :=
  match b with
  | [] => Ok []
  | c :: b =>
    match nth_error key (i mod 4) with
    | None => UB
    | Some k => do r <- unmask key b (i + 1); Ok (N.lxor c k :: r)
    end
  end.

(** websocket.zc:93-154.  The returned stream is what is left to read. *)
Definition ws_recv (s : stream) : res (ws_result * stream) :=
  do '(r, s) <- read_exact s 2;
  match r with
  | None => Ok (Failed ReadError, s)
  | Some head =>
    do b1 <- match nth_error head 0 with Some x => Ok x | None => UB end;
    do b2 <- match nth_error head 1 with Some x => Ok x | None => UB end;
    let opcode := N.land b1 0x0F in
    if (opcode =? 8)%N then Ok (Failed Closed, s)
    else if negb (opcode =? 1)%N then Ok (Failed NotText, s)
    else
      let masked := negb (N.land b2 0x80 =? 0)%N in
      let len_code := N.land b2 0x7F in
      do '(l, s) <-
        (if (len_code <=? 125)%N then Ok (inl (N.to_nat len_code), s)
         else if (len_code =? 126)%N then
           do '(r, s) <- read_exact s 2;
           match r with
           | None => Ok (inr ReadLen, s)
           | Some lb =>
             do x <- match nth_error lb 0 with Some x => Ok x | None => UB end;
             do y <- match nth_error lb 1 with Some x => Ok x | None => UB end;
             Ok (inl (N.to_nat (N.lor (N.shiftl x 8) y)), s)
           end
         else Ok (inr Huge, s));
      match l with
      | inr e => Ok (Failed e, s)
      | inl len =>
        do '(k, s) <-
          (if masked then
             do '(r, s) <- read_exact s 4;
             match r with None => Ok (inr ReadMask, s) | Some k => Ok (inl k, s) end
           else Ok (inl [], s));
        match k with
        | inr e => Ok (Failed e, s)
        | inl key =>
          do '(r, s) <- read_exact s len;
          match r with
          | None => Ok (Failed ReadFailed, s)
          | Some buf =>
            do buf <- (if masked then unmask key buf 0 else Ok buf);
            do v <- snew (buf ++ [0%N]);
            Ok (Received v, s)
          end
        end
      end
  end.

(** websocket.zc:30 *)
Definition ws_guid : bytes := bs "258EAFA5-E914-47DA-95CA-C5AB0DC85B11".
Definition crlf : bytes := [13; 10]%N.

(** websocket.zc:25-53: the bytes written *)
Definition ws_handshake (accept : nat -> nat -> nat) (key : str) : res bytes :=
  do k <- cread (data key);
  do b <- snew k;
  do b <- sappend_c b ws_guid;
  do m <- peek (data b) (slength b);
  do sha <- sha_hash m;
  do accept_key <- b64_encode sha;
  do r <- snew (bs "HTTP/1.1 101 Switching Protocols" ++ crlf);
  do r <- sappend_c r (bs "Upgrade: websocket" ++ crlf);
  do r <- sappend_c r (bs "Connection: Upgrade" ++ crlf);
  do r <- sappend_c r (bs "Sec-WebSocket-Accept: ");
  do r <- sappend r accept_key;
  do r <- sappend_c r (crlf ++ crlf);
  do out <- peek (data r) (slength r);
  Ok (tcp_write accept 0 out).
