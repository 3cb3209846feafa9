(** Regular expressions: literals, any character, sets with ranges, repetition of sets, and
    anchors. *)
From Verif Require Import Common.

Inductive elem := Ch (c : N) | Rg (a b : N).
Record set := Set' { excluded : bool; elems : list elem }.
Inductive item := Lit (c : N) | Any | One (s : set) | Many (s : set) | Some' (s : set).
Record pattern := Pat { from_start : bool; items : list item; to_end : bool }.

Definition in_elem (c : N) (e : elem) : Prop := match e with Ch x => c = x | Rg a b => (a <= c <= b)%N end.
Definition in_set (s : set) (c : N) : Prop :=
  if excluded s then ~ Exists (in_elem c) (elems s) else Exists (in_elem c) (elems s).

(** The texts a list of items stands for *)
Inductive Word : list item -> bytes -> Prop :=
| W_nil : Word [] []
| W_lit c l w : Word l w -> Word (Lit c :: l) (c :: w)
| W_any c l w : Word l w -> Word (Any :: l) (c :: w)
| W_one s c l w : in_set s c -> Word l w -> Word (One s :: l) (c :: w)
| W_stop s l w : Word l w -> Word (Many s :: l) w
| W_more s c l w : in_set s c -> Word (Many s :: l) w -> Word (Many s :: l) (c :: w)
| W_some s c l w : in_set s c -> Word (Many s :: l) w -> Word (Some' s :: l) (c :: w).

(** A text matches a pattern if some part of it is such a text: a part at its start, or at its
    end, where the pattern is anchored. *)
Definition Matches (p : pattern) (t : bytes) : Prop :=
  exists a w b, t = a ++ w ++ b /\ Word (items p) w /\
    (from_start p = true -> a = []) /\ (to_end p = true -> b = []).

(** How patterns are written *)
Definition show_elem (e : elem) : bytes := match e with Ch c => [c] | Rg a b => [a; 45%N; b] end.
Definition show_set (s : set) : bytes :=
  bs "[" ++ (if excluded s then bs "^" else []) ++ flat_map show_elem (elems s) ++ bs "]".
Definition show_item (i : item) : bytes :=
  match i with
  | Lit c => [c] | Any => bs "." | One s => show_set s | Many s => show_set s ++ bs "*" | Some' s => show_set s ++ bs "+"
  end.
Definition show (p : pattern) : bytes :=
  (if from_start p then bs "^" else []) ++ flat_map show_item (items p) ++ (if to_end p then bs "$" else []).

(** Characters without a special meaning, in a pattern and in a set *)
Definition blank (c : N) : Prop := (9 <= c <= 13 \/ c = 32)%N.
Definition plain (c : N) : Prop := (0 < c < 128)%N /\ ~ blank c /\ ~ In c (bs "^$[.*+'\").
Definition plain_in_set (c : N) : Prop := (0 < c < 128)%N /\ ~ blank c /\ ~ In c (bs "^]-'\").
Definition ok_elem (e : elem) : Prop := match e with Ch c => plain_in_set c | Rg a b => plain_in_set a /\ plain_in_set b end.
Definition ok_item (i : item) : Prop :=
  match i with Lit c => plain c | Any => True | One s | Many s | Some' s => Forall ok_elem (elems s) end.

(** A repetition can take all it can get: if a character of the set may begin what follows the
    repetition, the text without this character will do as well. *)
Definition rest_of (l : list item) (e : bool) : pattern := Pat true l e.
Definition greedy (p : pattern) : Prop :=
  forall a s l, (items p = a ++ Many s :: l \/ items p = a ++ Some' s :: l) ->
  forall c t, in_set s c -> Matches (rest_of l (to_end p)) (c :: t) -> Matches (rest_of l (to_end p)) t.
(** Patterns may be laid out with blanks. *)
Definition laid_out (src p : bytes) : Prop :=
  filter (fun c => negb (((9 <=? c) && (c <=? 13)) || (c =? 32))%N) src = p.
(** C strings *)
Definition c_text (t : bytes) : Prop := ~ In 0%N t /\ Forall (fun c => (c < 256)%N) t.
