(** Model of the spelling suggestions: levenshtein (src/utils/utils.c:496-537) and
    find_similar_symbol (src/parser/parser_utils.c:4241-4272).

    A C string is the list of its bytes before the terminating zero.  Simplifications:
    the lengths fit an int and the array on the stack fits the stack. *)
From Verif Require Import Common.
Local Open Scope nat_scope.

(** utils.c:507: the uninitialised array matrix[len1 + 1][len2 + 1] *)
Definition matrix := nat -> nat -> option nat.
Definition mget (len1 len2 : nat) (m : matrix) (i j : nat) : res nat :=
  if (i <=? len1) && (j <=? len2) then match m i j with Some v => Ok v | None => UB end else UB.
Definition mset (len1 len2 : nat) (m : matrix) (i j v : nat) : res matrix :=
  if (i <=? len1) && (j <=? len2) then Ok (fun a b => if (a =? i) && (b =? j) then Some v else m a b) else UB.

(** A C for loop over the given indices *)
Fixpoint for_each {A} (l : list nat) (body : nat -> A -> res A) (s : A) : res A :=
  match l with
  | [] => Ok s
  | i :: r => do s' <- body i s; for_each r body s'
  end.

(** utils.c:518-532: one cell *)
Definition cell (s1 s2 : bytes) (i j : nat) (m : matrix) : res matrix :=
  let len1 := length s1 in let len2 := length s2 in
  match nth_error s1 (i - 1), nth_error s2 (j - 1) with
  | Some a, Some b =>
    let cost := if (a =? b)%N then 0 else 1 in
    do d <- mget len1 len2 m (i - 1) j;
    let del := d + 1 in
    do n <- mget len1 len2 m i (j - 1);
    let ins := n + 1 in
    do u <- mget len1 len2 m (i - 1) (j - 1);
    let sub := u + cost in
    do m1 <- mset len1 len2 m i j (if del <? ins then del else ins);
    do c <- mget len1 len2 m1 i j;
    if sub <? c then mset len1 len2 m1 i j sub else Ok m1
  | _, _ => UB
  end.

(** utils.c:496-537 *)
Definition levenshtein (s1 s2 : bytes) : res nat :=
  let len1 := length s1 in let len2 := length s2 in
  if (len1 - len2) + (len2 - len1) <=? 3 then
    do m1 <- for_each (seq 0 (S len1)) (fun i m => mset len1 len2 m i 0 i) (fun _ _ => None);
    do m2 <- for_each (seq 0 (S len2)) (fun j m => mset len1 len2 m 0 j j) m1;
    do m3 <- for_each (seq 1 len1) (fun i m => for_each (seq 1 len2) (fun j m => cell s1 s2 i j m) m) m2;
    mget len1 len2 m3 len1 len2
  else Ok 999.

(** parser_utils.c:4253-4266: the symbols of one scope, then those of its parents; the
    state is the best match and its distance *)
Fixpoint scan_symbols (name : bytes) (syms : list bytes) (best : option bytes * nat) : res (option bytes * nat) :=
  match syms with
  | [] => Ok best
  | s :: r =>
    do dist <- levenshtein name s;
    scan_symbols name r (if (dist <? snd best) && (dist <=? 3) then (Some s, dist) else best)
  end.
Fixpoint scan_scopes (name : bytes) (scopes : list (list bytes)) (best : option bytes * nat) : res (option bytes * nat) :=
  match scopes with
  | [] => Ok best
  | s :: r => do b <- scan_symbols name s best; scan_scopes name r b
  end.
(** parser_utils.c:4241-4272 *)
Definition find_similar_symbol (scopes : list (list bytes)) (name : bytes) : res (option bytes) :=
  do b <- scan_scopes name scopes (None, 999); Ok (fst b).
