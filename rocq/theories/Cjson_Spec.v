(** JSON texts and what they mean (RFC 8259). *)
From Verif Require Import Common Cjson_Model.

(** ** Strings *)
(** UTF-8 (RFC 3629) *)
Definition utf8 (c : N) : bytes :=
  (if c <? 128 then [c]
   else if c <? 2048 then [192 + c / 64; 128 + c mod 64]
   else if c <? 65536 then [224 + c / 4096; 128 + c / 64 mod 64; 128 + c mod 64]
   else [240 + c / 262144; 128 + c / 4096 mod 64; 128 + c / 64 mod 64; 128 + c mod 64])%N.
(** a digit and its value *)
Inductive hex : N -> N -> Prop :=
| Hex_09 n : (n < 10)%N -> hex (48 + n) n
| Hex_af n : (n < 6)%N -> hex (97 + n) (10 + n)
| Hex_AF n : (n < 6)%N -> hex (65 + n) (10 + n).
(** four digits and their value *)
Definition hex4 (t : bytes) (n : N) : Prop :=
  exists a b c d va vb vc vd, t = [a; b; c; d] /\ hex a va /\ hex b vb /\ hex c vc /\ hex d vd /\ n = (va * 4096 + vb * 256 + vc * 16 + vd)%N.
Definition surrogate (n : N) : Prop := (55296 <= n <= 57343)%N.
(** the letter of a short escape and its byte *)
Definition short : list (N * N) := ([(98, 8); (102, 12); (110, 10); (114, 13); (116, 9); (34, 34); (92, 92); (47, 47)])%N.
(** the bytes between the quotes, and the string they mean *)
Inductive means : bytes -> bytes -> Prop :=
| M_end : means [] []
| M_char c t s : (32 <= c)%N -> c <> 34%N -> c <> 92%N -> means t s -> means (c :: t) (c :: s)
| M_short e c t s : In (e, c) short -> means t s -> means (92 :: e :: t)%N (c :: s)
| M_unicode h n t s : hex4 h n -> ~ surrogate n -> means t s -> means (92 :: 117 :: h ++ t)%N (utf8 n ++ s)
| M_pair h1 h2 n1 n2 t s : hex4 h1 (55296 + n1)%N -> (n1 < 1024)%N -> hex4 h2 (56320 + n2)%N -> (n2 < 1024)%N -> means t s ->
    means (92 :: 117 :: h1 ++ 92 :: 117 :: h2 ++ t)%N (utf8 (65536 + n1 * 1024 + n2) ++ s).

(** ** Values *)
Definition ws (w : bytes) : Prop := Forall (fun c => c = 32 \/ c = 9 \/ c = 10 \/ c = 13)%N w.
Section Values.
Context {D : Type} (strtod : bytes -> option (D * nat)).
(** what the texts of numbers are made of *)
Definition number_text (t : bytes) : Prop :=
  Forall (fun c => (48 <= c <= 57)%N \/ In c (bs "+-eE.")) t /\ exists c r, t = c :: r /\ (c = 45%N \/ (48 <= c <= 57)%N).
Inductive denotes : bytes -> json D -> Prop :=
| D_null : denotes (bs "null") JNull
| D_true : denotes (bs "true") (JBool true)
| D_false : denotes (bs "false") (JBool false)
| D_num t d : number_text t -> strtod t = Some (d, length t) -> denotes t (JNum d)
| D_str t s : means t s -> ~ In 0%N s -> denotes (34%N :: t ++ [34%N]) (JStr s)
| D_arr0 w : ws w -> denotes (91%N :: w ++ [93%N]) (JArr [])
| D_arr t l : elements t l -> denotes (91%N :: t ++ [93%N]) (JArr l)
| D_obj0 w : ws w -> denotes (123%N :: w ++ [125%N]) (JObj [])
| D_obj t l : members t l -> denotes (123%N :: t ++ [125%N]) (JObj l)
with elements : bytes -> list (json D) -> Prop :=
| E_one w1 t w2 v : ws w1 -> denotes t v -> ws w2 -> elements (w1 ++ t ++ w2) [v]
| E_more w1 t w2 v u l : ws w1 -> denotes t v -> ws w2 -> elements u l -> elements (w1 ++ t ++ w2 ++ 44%N :: u) (v :: l)
with members : bytes -> list (bytes * json D) -> Prop :=
| O_one w1 k w2 w3 t w4 s v : ws w1 -> means k s -> ~ In 0%N s -> ws w2 -> ws w3 -> denotes t v -> ws w4 ->
    members (w1 ++ 34%N :: k ++ 34%N :: w2 ++ 58%N :: w3 ++ t ++ w4) [(s, v)]
| O_more w1 k w2 w3 t w4 s v u l : ws w1 -> means k s -> ~ In 0%N s -> ws w2 -> ws w3 -> denotes t v -> ws w4 -> members u l ->
    members (w1 ++ 34%N :: k ++ 34%N :: w2 ++ 58%N :: w3 ++ t ++ w4 ++ 44%N :: u) ((s, v) :: l).
(** how deep arrays and objects are nested *)
Fixpoint nesting (v : json D) : nat :=
  match v with
  | JArr l => S (fold_right (fun v n => Nat.max (nesting v) n) 0 l)
  | JObj l => S (fold_right (fun '(_, v) n => Nat.max (nesting v) n) 0 l)
  | _ => 0
  end.
(** values that can be written: strings without NUL whose units are bytes, numbers whose text is a
    number text that strtod reads back *)
Context (show : D -> bytes).
Inductive writable : json D -> Prop :=
| W_null : writable JNull
| W_bool b : writable (JBool b)
| W_num d : number_text (show d) -> strtod (show d) = Some (d, length (show d)) -> writable (JNum d)
| W_str s : ~ In 0%N s -> writable (JStr s)
| W_arr l : Forall writable l -> writable (JArr l)
| W_obj l : Forall (fun kv => ~ In 0%N (fst kv) /\ writable (snd kv)) l -> writable (JObj l).
End Values.
