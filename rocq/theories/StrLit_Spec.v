(** What string literals denote (ISO C 6.4.4.4 and 6.4.5), independent of the compiler. *)
From Verif Require Import Common.
Local Open Scope N_scope.

Definition octal (c : N) : Prop := 48 <= c <= 55.
Definition hexdigit (c d : N) : Prop :=
  (48 <= c <= 57 /\ d = c - 48) \/ (65 <= c <= 70 /\ d = c - 55) \/ (97 <= c <= 102 /\ d = c - 87).
Definition is_hex (c : N) : Prop := exists d, hexdigit c d.
(** [r] does not begin with a character of class [P] *)
Definition stops (P : N -> Prop) (r : bytes) : Prop := match r with [] => True | c :: _ => ~ P c end.

(** The letters n t r a b f v, backslash, apostrophe, quote and question mark after a
    backslash *)
Definition simple_escapes : list (N * N) :=
  [(110, 10); (116, 9); (114, 13); (97, 7); (98, 8); (102, 12); (118, 11); (92, 92); (39, 39); (34, 34); (63, 63)].

Definition oct_value (ds : list N) : N := fold_left (fun a d => 8 * a + (d - 48)) ds 0.
Inductive hex_value : list N -> N -> N -> Prop :=
| hv_nil a : hex_value [] a a
| hv_cons c d r a v : hexdigit c d -> hex_value r (16 * a + d) v -> hex_value (c :: r) a v.

(** [Denotes plain body v]: the characters [body] between the quotes of a literal denote the
    bytes [v], where [plain] are the characters that may stand for themselves. *)
Inductive Denotes (plain : N -> Prop) : bytes -> bytes -> Prop :=
| D_nil : Denotes plain [] []
| D_char c r v : plain c -> c <> 92 -> Denotes plain r v -> Denotes plain (c :: r) (c :: v)
| D_simple e x r v : In (e, x) simple_escapes -> Denotes plain r v -> Denotes plain (92 :: e :: r) (x :: v)
| D_octal ds r v : ds <> [] -> (length ds <= 3)%nat -> Forall octal ds ->
    (length ds = 3%nat \/ stops octal r) -> oct_value ds < 256 ->
    Denotes plain r v -> Denotes plain (92 :: ds ++ r) (oct_value ds :: v)
| D_hex hs x r v : hs <> [] -> hex_value hs 0 x -> stops is_hex r -> x < 256 ->
    Denotes plain r v -> Denotes plain (92 :: 120 :: hs ++ r) (x :: v).

(** In C, a quote, a backslash and a newline cannot stand for themselves. *)
Definition c_plain (c : N) : Prop := c <> 34 /\ c <> 10.
(** In a Zen-C literal between quotes only the quote cannot; in a literal between triple quotes any
    character but the backslash stands for itself. *)
Definition z_plain (c : N) : Prop := c <> 34.
Definition z_multi_plain (c : N) : Prop := True.

(** [CLiteral text v]: [text] is one complete C string literal denoting [v]. *)
Definition CLiteral (text v : bytes) : Prop := exists body, text = 34 :: body ++ [34] /\ Denotes c_plain body v.

Definition occurs (p s : bytes) : Prop := exists a b, s = a ++ p ++ b.
(** The three kinds of Zen-C literal and what they denote: between quotes, between triple
    quotes, and raw (the letter r and quotes or apostrophes); the characters of a raw string
    all stand for themselves. *)
Definition PlainLiteral (text v : bytes) : Prop := exists body, text = 34 :: body ++ [34] /\ Denotes z_plain body v.
Definition TripleLiteral (text v : bytes) : Prop :=
  exists body, text = [34; 34; 34] ++ body ++ [34; 34; 34] /\ ~ occurs [34; 34; 34] (body ++ [34; 34]) /\
    Denotes z_multi_plain body v.
Definition RawLiteral (text v : bytes) : Prop :=
  exists q, (q = 34 \/ q = 39) /\ text = 114 :: q :: v ++ [q] /\ ~ In q v.
