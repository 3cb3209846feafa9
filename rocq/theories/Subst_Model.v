(** Model of the substitution of a type parameter in raw text:
    src/parser/parser_utils.c:1209-1212 (is_ident_char), 1227-1365 (replace_in_string).

    Strings are lists of bytes without NUL.  Both passes are modelled: the first counts the
    replacements and sizes the buffer, the second writes into it; a write beyond the buffer
    is [UB].  An empty word makes both passes loop (the index goes back by one): [Fuel].
    Simplifications: ints do not overflow; isalnum is that of the C locale. *)
From Verif Require Import Common.
Local Open Scope nat_scope.

(** parser_utils.c:1209-1212 *)
Definition is_ident (c : N) : bool :=
  ((97 <=? c) && (c <=? 122))%N || ((65 <=? c) && (c <=? 90))%N || ((48 <=? c) && (c <=? 57))%N || (c =? 95)%N.
Definition is_ident_opt (c : option N) : bool := match c with Some c => is_ident c | None => false end.
Definition quote : N := 34.
Definition backslash : N := 92.
(** 1293-1296, 1327-1330: a quote that is not preceded by a backslash *)
Definition toggles (prev : option N) (c : N) : bool :=
  (c =? quote)%N && negb (match prev with Some p => (p =? backslash)%N | None => false end).
(** 1298-1312, 1333-1348: the word occurs here as a whole identifier *)
Definition matches (old : bytes) (prev : option N) (s : bytes) : bool :=
  is_prefix old s && negb (is_ident_opt prev) && negb (is_ident_opt (nth_error s (length old))).

(** Pass 1, 1290-1320.  [skip] is the number of characters the last replacement still covers *)
Fixpoint count (old : bytes) (skip : nat) (prev : option N) (in_string : bool) (s : bytes) : nat :=
  match s with
  | [] => 0
  | c :: s' =>
      match skip with
      | S k => count old k (Some c) in_string s'
      | O =>
          let ins := if toggles prev c then negb in_string else in_string in
          if negb ins && matches old prev s then S (count old (length old - 1) (Some c) ins s')
          else count old 0 (Some c) ins s'
      end
  end.
(** Pass 2, 1325-1361: what is written *)
Fixpoint write (old new : bytes) (skip : nat) (prev : option N) (in_string : bool) (s : bytes) : bytes :=
  match s with
  | [] => []
  | c :: s' =>
      match skip with
      | S k => write old new k (Some c) in_string s'
      | O =>
          let ins := if toggles prev c then negb in_string else in_string in
          if negb ins && matches old prev s then new ++ write old new (length old - 1) (Some c) ins s'
          else c :: write old new 0 (Some c) ins s'
      end
  end.
(** 1284-1365, one word *)
Definition replace_one (src old new : bytes) : res bytes :=
  match old with
  | [] => Fuel
  | _ =>
      let capacity := (Z.of_nat (length src) + Z.of_nat (count old 0 None false src) * (Z.of_nat (length new) - Z.of_nat (length old)) + 1)%Z in
      let out := write old new 0 None false src in
      if (Z.of_nat (length out) + 1 <=? capacity)%Z then Ok out else UB
  end.

(** strchr(s, ','): what is before the comma, and what is after it if there is one *)
Fixpoint cut (s : bytes) : bytes * option bytes :=
  match s with
  | [] => ([], None)
  | c :: s' => if (c =? 44)%N then ([], Some s') else let '(a, b) := cut s' in (c :: a, b)
  end.
(** 1235-1282: several words *)
Fixpoint replace_many (fuel : nat) (src olds news : bytes) : res bytes :=
  match fuel with
  | O => Fuel
  | S k =>
    match olds, news with
    | [], _ | _, [] => Ok src
    | _, _ =>
        let '(p, p_rest) := cut olds in
        let '(c, c_rest) := cut news in
        do src' <- replace_one src p c;
        match p_rest, c_rest with
        | Some olds', Some news' => replace_many k src' olds' news'
        | _, _ => Ok src'
        end
    end
  end.
(** 1227-1365 *)
Definition replace_in_string (src old new : bytes) : res bytes :=
  if existsb (N.eqb 44) old then replace_many (length old + 1) src old new
  else replace_one src old new.
