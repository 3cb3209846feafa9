(** Model of the sockets of the library: std/net/tcp.zc, std/net/udp.zc, std/net/socket.zc and the
    wrappers in std/sys/net.zc (POSIX side).

    Simplifications: a socket is its descriptor; addresses that parse are a flag; the kernel's choices
    (the number of a new descriptor, failures, how many bytes one read or write moves) are inputs.
    No DNS, no signals: a write to a closed connection is an error here. *)
From Verif Require Import Common.
Local Open Scope Z_scope.

(** * Descriptors *)

(** The process: its open descriptors, those that belong to other code, and the socket
    objects of the program with their [handle] fields *)
Inductive kind := Stream | Listener | Udp.
Record sock := { knd : kind; handle : Z }.
Record proc := { opened : list Z; foreign : list Z; objs : list sock }.

Definition mem_z (x : Z) (l : list Z) : bool := existsb (Z.eqb x) l.
(** close(2); sys/net.zc:43-49 *)
Definition sys_close (fd : Z) (opened : list Z) : list Z := remove Z.eq_dec fd opened.
(** What the kernel answers to socket(2) or accept(2): a descriptor that is not open, or -1 *)
Definition fresh (fd : Z) (opened : list Z) : bool := (0 <=? fd) && negb (mem_z fd opened).

(** What happens.  [fd] is the kernel's choice, negative for failure; [ok_addr]: inet_pton;
    [ok_sys], [ok_listen]: connect or bind, and listen succeed.  [i] is the position of an object. *)
Inductive event :=
| Connect (fd : Z) (ok_addr ok_sys : bool)
| Bind (fd : Z) (ok_addr ok_sys ok_listen : bool)
| BindUdp (fd : Z) (ok_addr ok_sys : bool)
| Accept (i : nat) (fd : Z)
| Close (i : nat)
| Drop (i : nat)                           (* the object goes out of scope: impl Drop *)
| OtherOpen (fd : Z) | OtherClose (fd : Z).

(** _z_net_connect, _z_net_bind, _z_net_bind_udp: sys/net.zc:59-110 *)
Definition net_connect (ok_addr ok_sys : bool) : Z := if negb ok_addr then -1 else if negb ok_sys then -2 else 0.
Definition net_bind (ok_addr ok_sys ok_listen : bool) : Z :=
  if negb ok_addr then -1 else if negb ok_sys then -2 else if negb ok_listen then -3 else 0.

Definition with_opened (p : proc) (o : list Z) : proc := {| opened := o; foreign := foreign p; objs := objs p |}.
Definition add_obj (p : proc) (s : sock) : proc := {| opened := opened p; foreign := foreign p; objs := objs p ++ [s] |}.
Definition set_objs (p : proc) (l : list sock) : proc := {| opened := opened p; foreign := foreign p; objs := l |}.

(** TcpStream::connect (tcp.zc:47-56), TcpListener::bind (tcp.zc:70-81), UdpSocket::bind (udp.zc:18-33):
    the codes for which the descriptor is closed again; any other code makes an object. *)
Definition make (k : kind) (fd res : Z) (p : proc) : proc :=
  if fd <? 0 then p else
  let p := with_opened p (fd :: opened p) in
  if match k with
     | Stream => (res =? -1) || (res =? -2)
     | Listener => (res =? -1) || (res =? -2) || (res =? -3)
     | Udp => (res =? -1) || (res =? -2)
     end
  then with_opened p (sys_close fd (opened p))
  else add_obj p {| knd := k; handle := fd + 1 |}.
(** close: tcp.zc:40-45, 89-94, udp.zc:61-68 *)
Definition close_at (i : nat) (p : proc) : proc :=
  match nth_error (objs p) i with
  | Some s =>
    if 0 <? handle s
    then {| opened := sys_close (handle s - 1) (opened p); foreign := foreign p;
            objs := upd (objs p) i {| knd := knd s; handle := 0 |} |}
    else p
  | None => p
  end.
(** TcpListener::accept: tcp.zc:83-87; the descriptor is handle - 1 *)
Definition accept (i : nat) (fd : Z) (p : proc) : proc :=
  match nth_error (objs p) i with
  | Some s =>
    if negb (mem_z (handle s - 1) (opened p)) then p              (* EBADF *)
    else if fd <? 0 then p
    else add_obj (with_opened p (fd :: opened p)) {| knd := Stream; handle := fd + 1 |}
  | None => p
  end.
Definition step (p : proc) (e : event) : proc :=
  match e with
  | Connect fd a s => make Stream fd (net_connect a s) p
  | Bind fd a s l => make Listener fd (net_bind a s l) p
  | BindUdp fd a s => make Udp fd (net_connect a s) p
  | Accept i fd => accept i fd p
  | Close i => close_at i p
  | Drop i => let p := close_at i p in set_objs p (firstn i (objs p) ++ skipn (S i) (objs p))
  | OtherOpen fd => {| opened := fd :: opened p; foreign := fd :: foreign p; objs := objs p |}
  | OtherClose fd => {| opened := sys_close fd (opened p); foreign := sys_close fd (foreign p); objs := objs p |}
  end.
Definition history (p : proc) (l : list event) : proc := fold_left step l p.

(** The port in the address: htons takes 16 bits (sys/net.zc:62, 113) *)
Definition port_used (port : Z) : Z := port mod 2 ^ 16.

(** * Reading and writing *)

(** One answer of the kernel: up to [n] bytes are moved, or an error *)
Inductive answer := Some_ (n : nat) | Error.
(** A read of at most [want] bytes of the bytes still to come: at least one byte if there are any and [want] is
    not 0; none means the end *)
Definition sys_read (a : answer) (want : nat) (input : bytes) : option (bytes * bytes) :=
  match a with
  | Error => None
  | Some_ n => let k := Nat.min want (Nat.min (S n) (length input)) in Some (firstn k input, skipn k input)
  end.

(** TcpStream.read at an offset of the buffer: tcp.zc:15-19.  The kernel stores into the caller's buffer. *)
Definition read (a : answer) (b : buf N) (at_ len : nat) (input : bytes) : res (option nat * buf N * bytes) :=
  match sys_read a len input with
  | None => Ok (None, b, input)
  | Some (got, rest) =>
    do b <- bcopy (map Some got) 0 b at_ (length got); Ok (Some (length got), b, rest)
  end.
(** TcpStream.read_exact: tcp.zc:21-31; [None] is an error *)
Fixpoint read_exact_loop (sched : list answer) (b : buf N) (len total : nat) (input : bytes)
  : res (option nat * buf N * bytes) :=
  if (total <? len)%nat then
    match sched with
    | [] => Fuel
    | a :: sched =>
      do '(r, b, input) <- read a b total (len - total) input;
      match r with
      | None => Ok (None, b, input)
      | Some 0%nat => Ok (None, b, input)
      | Some n => read_exact_loop sched b len (total + n) input
      end
    end
  else Ok (Some total, b, input).
Definition read_exact (sched : list answer) (b : buf N) (len : nat) (input : bytes) :=
  read_exact_loop sched b len 0 input.

(** TcpStream.write: tcp.zc:33-37; what the peer receives is appended to [out] *)
Definition write (a : answer) (data out : bytes) : option nat * bytes :=
  match a with
  | Error => (None, out)
  | Some_ n => let k := Nat.min (S n) (length data) in (Some k, out ++ firstn k data)
  end.
