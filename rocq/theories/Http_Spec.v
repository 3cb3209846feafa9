(** HTTP/1.1 messages as defined by RFC 7230, section 3, and the text of a request target. *)
From Verif Require Import Common String_Spec.

Definition crlf : bytes := [13; 10]%N.

(** A header field name and value, as far as the message format constrains them: the
    name is not empty and has no colon, no blank and no line end; the value has no line
    end and no blank at either end. *)
Definition field_name (k : bytes) : Prop :=
  k <> [] /\ forall c, In c k -> ~ In c [ch ":"; 32; 9; 13; 10]%N.
Definition field_value (v : bytes) : Prop :=
  (forall c, In c v -> ~ In c [13; 10]%N) /\ Trimmed v v.

(** The header section of a message, with its terminating empty line, and what follows. *)
Inductive Fields : list (bytes * bytes) -> bytes -> bytes -> Prop :=
| fields_end body : Fields [] body (crlf ++ body)
| fields_more k v fs body rest : field_name k -> field_value v -> Fields fs body rest ->
    Fields ((k, v) :: fs) body (k ++ bs ": " ++ v ++ crlf ++ rest).

Definition Message (start : bytes) (fs : list (bytes * bytes)) (body msg : bytes) : Prop :=
  (forall c, In c start -> ~ In c [13; 10]%N) /\
  exists rest, msg = start ++ crlf ++ rest /\ Fields fs body rest.

(** A status line: version, three-digit code, reason *)
Definition status_text (code reason : bytes) : bytes := bs "HTTP/1.1 " ++ code ++ bs " " ++ reason.

(** A word of the request line *)
Definition word (w : bytes) : Prop := w <> [] /\ forall c, In c w -> ~ In c [32; 9; 13; 10; 0]%N.

(** Decimal numbers *)
Definition is_digit (c : N) : Prop := (48 <= c <= 57)%N.
Definition decimal (ds : bytes) : Z := fold_left (fun a d => 10 * a + (Z.of_N d - 48))%Z ds 0%Z.
