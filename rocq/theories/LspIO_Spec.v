(** Messages as the Language Server Protocol frames them. *)
From Verif Require Import Common.
Local Open Scope nat_scope.

Definition CRLF : bytes := [13; 10]%N.
(** A message: other header lines before and after the length, the digits of the length,
    and the body *)
Record msg := Msg { m_pre : list bytes; m_digits : bytes; m_post : list bytes; m_body : bytes }.
Definition wire (m : msg) : bytes :=
  concat (map (fun h => h ++ CRLF) (m_pre m)) ++
  bs "Content-Length: " ++ m_digits m ++ CRLF ++
  concat (map (fun h => h ++ CRLF) (m_post m)) ++
  CRLF ++ m_body m.
(** the number a list of decimal digits denotes *)
Definition number (ds : bytes) : Z := fold_left (fun a d => (a * 10 + (Z.of_N d - 48))%Z) ds 0%Z.
(** another header: not empty, one line, not the length again *)
Definition header_ok (h : bytes) : Prop :=
  h <> [] /\ ~ In 10%N h /\ ~ (exists r, h = bs "Content-Length: " ++ r).
Definition short (line : bytes) : Prop := length line <= 509.
(** A well-formed message: the length is the length of the body, which is not empty, at most
    10 MB and contains no NUL *)
Definition msg_ok (m : msg) : Prop :=
  Forall header_ok (m_pre m) /\ Forall header_ok (m_post m) /\
  m_digits m <> [] /\ Forall (fun d => (48 <= d <= 57)%N) (m_digits m) /\
  number (m_digits m) = Z.of_nat (length (m_body m)) /\
  (1 <= Z.of_nat (length (m_body m)) <= 10485760)%Z /\
  ~ In 0%N (m_body m).
(** no header line is longer than the server's buffer *)
Definition msg_short (m : msg) : Prop :=
  Forall short (m_pre m) /\ Forall short (m_post m) /\ short (bs "Content-Length: " ++ m_digits m).

(** [bodies] are, up to their first NUL, disjoint parts of [s], in order *)
Inductive parts : bytes -> list bytes -> Prop :=
| parts_nil s : parts s []
| parts_cons gap b s l : parts s l -> 1 <= length b -> parts (gap ++ b ++ s) (cstr b :: l).
