(** Model of the lisp plugin, plugins/lisp.c: the expressions of a block are turned into C, with a
    small runtime.
    The C code written is a tree (each function of the plugin writes the text of one node).
    Simplified: bytes above 127 are not white space; the functions called are those of the runtime
    and others, given by the number of their arguments and their results, without effects;
    allocation succeeds; names are not words of C.  Left out: defun, and what print writes. *)
From Verif Require Import Common.
Local Open Scope nat_scope.

Inductive ce :=
| CNum (t : bytes)                   (* l_num(t) *)
| CSym (x : bytes)
| CNil                               (* l_nil() *)
| CNone                              (* nothing at all *)
| CCall (f : bytes) (l : ces)
| CIf (c a b : ce)                   (* (l_truthy(c) ? a : b) *)
| CLet (b : cbl)                     (* ({ LVal x = e; ... e1; ... }) *)
| CPrintf (t : bytes) (nl : bool)
| CPrint (e : ce) (nl : bool)
with ces := ENil | ECons (e : ce) (l : ces)
with cbl := BBody (l : ces) | BDecl (x : bytes) (e : ce) (b : cbl).
Fixpoint block (vs : list (bytes * ce)) (l : ces) : cbl :=
  match vs with [] => BBody l | (x, e) :: vs => BDecl x e (block vs l) end.

Definition is_space (c : N) : bool := ((c =? 32) || (9 <=? c) && (c <=? 13))%N.
Definition is_digit (c : N) : bool := ((48 <=? c) && (c <=? 57))%N.
Definition open : N := 40%N.
Definition close : N := 41%N.
(** lisp.c 8-14 *)
Fixpoint skip (p : bytes) : bytes := match p with c :: p' => if is_space c then skip p' else p | [] => [] end.
(** the text up to a character that [stop]s *)
Fixpoint upto (stop : N -> bool) (p : bytes) : bytes * bytes :=
  match p with c :: p' => if stop c then ([], p) else let '(a, r) := upto stop p' in (c :: a, r) | [] => ([], []) end.
Definition stop_sym (c : N) : bool := is_space c || (c =? close)%N || (c =? open)%N.
Definition stop_arg (c : N) : bool := is_space c || (c =? close)%N.

(** lisp.c 45-60: behind the first quote *)
Fixpoint string_end (p : bytes) : bytes :=
  match p with
  | [] => []
  | c :: p => if (c =? 34)%N then p else if (c =? 92)%N then match p with [] => [] | _ :: p => string_end p end else string_end p
  end.
(** lisp.c 18-68 *)
Definition atom (p : bytes) : res (ce * bytes) :=
  match p with
  | [] => Ok (CNone, [])
  | c :: r =>
    if (c =? close)%N then Panic
    else if is_digit c || (c =? 45)%N && match r with d :: _ => is_digit d | [] => false end then
      let '(ds, r') := upto (fun d => negb (is_digit d)) (if (c =? 45)%N then r else p) in
      Ok (CNum ((if (c =? 45)%N then [45%N] else []) ++ ds), r')
    else if (c =? 34)%N then Ok (CNil, string_end r)
    else let '(s, r) := upto stop_sym p in Ok (CSym s, r)
  end.
(** lisp.c 118-135: behind an open parenthesis, to the end of the text at depth [d] *)
Fixpoint to_depth (p : bytes) (d : nat) : bytes :=
  match d with
  | 0 => p
  | S d' =>
    match p with
    | [] => []
    | c :: p => to_depth p (if (c =? open)%N then S d else if (c =? close)%N then d' else d)
    end
  end.
(** lisp.c 116-145: arguments behind the second one *)
Fixpoint skip_args (fuel : nat) (p : bytes) : res bytes :=
  match fuel with 0 => Fuel | S fuel =>
    match p with
    | [] => Ok []
    | c :: r =>
      if (c =? close)%N then Ok p
      else if (c =? open)%N then skip_args fuel (skip (to_depth r 1))
      else skip_args fuel (skip (snd (upto stop_arg p)))
    end
  end.
(** lisp.c 382-400: to the end of the list *)
Definition finish (e : ce) (p : bytes) : res (ce * bytes) :=
  match snd (upto (fun c => (c =? close)%N) p) with [] => Panic | _ :: p => Ok (e, p) end.
(** lisp.c 203-226: the string of print, behind the quote *)
Fixpoint quoted (p : bytes) : bytes * bytes :=
  match p with
  | [] => ([], [])
  | c :: p =>
    if (c =? 34)%N then ([], p)
    else if (c =? 92)%N then match p with [] => ([c], []) | d :: p => let '(t, r) := quoted p in (c :: d :: t, r) end
    else let '(t, r) := quoted p in (c :: t, r)
  end.

Definition arith_name (op : bytes) : option bytes :=
  if beq_bytes op (bs "+") then Some (bs "l_add") else if beq_bytes op (bs "-") then Some (bs "l_sub")
  else if beq_bytes op (bs "*") then Some (bs "l_mul") else if beq_bytes op (bs "/") then Some (bs "l_div") else None.
(** lisp.c 147-160 *)
Definition compare_name (op : bytes) : option bytes :=
  if beq_bytes op (bs "<") then Some (bs "l_lt") else if beq_bytes op (bs ">") then Some (bs "l_gt")
  else match op with [c; _] => if ((c =? 61) || (c =? 33))%N then Some (bs "l_eq") else None | _ => None end.
Definition two (f : bytes) (a b : ce) : ce := CCall f (ECons a (ECons b ENil)).

(** parse_lisp_expr, lisp.c 402-417; parse_lisp_list, 70-400, behind the parenthesis; the arguments of a
    call, 367-380, or the expressions of let, 325-332; the bindings of let, 281-324 *)
Fixpoint expr (fuel : nat) (p : bytes) : res (ce * bytes) :=
  match fuel with 0 => Fuel | S fuel =>
    match skip p with
    | [] => Ok (CNone, [])
    | c :: r => if (c =? open)%N then lst fuel r else atom (c :: r)
    end
  end
with lst (fuel : nat) (p : bytes) : res (ce * bytes) :=
  match fuel with 0 => Fuel | S fuel =>
    match skip p with
    | [] => Panic
    | p =>
      let '(op, p) := upto stop_sym p in
      match arith_name op, compare_name op with
      | Some f, _ =>
        do '(a, p) <- expr fuel (skip p); do '(b, p) <- expr fuel (skip p);
        do p <- skip_args (S (length p)) (skip p); finish (two f a b) p
      | None, Some f => do '(a, p) <- expr fuel (skip p); do '(b, p) <- expr fuel (skip p); finish (two f a b) p
      | None, None =>
        if beq_bytes op (bs "cons") then
          do '(a, p) <- expr fuel (skip p); do '(b, p) <- expr fuel (skip p); finish (two (bs "l_cons") a b) p
        else if beq_bytes op (bs "car") then do '(a, p) <- expr fuel (skip p); finish (CCall (bs "l_car") (ECons a ENil)) p
        else if beq_bytes op (bs "cdr") then do '(a, p) <- expr fuel (skip p); finish (CCall (bs "l_cdr") (ECons a ENil)) p
        else if beq_bytes op (bs "list") then finish CNil p
        else if is_prefix (bs "print") op then
          let nl := match skipn 5 op with c :: _ => (c =? 108)%N | [] => false end in
          match skip p with
          | c :: r => if (c =? 34)%N then let '(t, r) := quoted r in finish (CPrintf t nl) r
                      else do '(a, r) <- expr fuel (c :: r); finish (CPrint a nl) r
          | [] => do '(a, r) <- expr fuel []; finish (CPrint a nl) r
          end
        else if beq_bytes op (bs "if") then
          do '(c, p) <- expr fuel (skip p); do '(a, p) <- expr fuel (skip p);
          match skip p with
          | d :: r => if (d =? close)%N then finish (CIf c a CNil) (d :: r) else do '(b, r) <- expr fuel (d :: r); finish (CIf c a b) r
          | [] => do '(b, r) <- expr fuel []; finish (CIf c a b) r
          end
        else if beq_bytes op (bs "let") then
          do '(vs, p) <- match skip p with
                         | c :: r =>
                           if (c =? open)%N then
                             do '(vs, r) <- binds fuel (skip r);
                             match r with [] => Panic | _ :: r => Ok (vs, r) end
                           else Ok ([], c :: r)
                         | [] => Ok ([], [])
                         end;
          do '(l, p) <- exprs fuel (skip p); finish (CLet (block vs l)) p
        else do '(l, p) <- exprs fuel (skip p); finish (CCall op l) p
      end
    end
  end
with exprs (fuel : nat) (p : bytes) : res (ces * bytes) :=
  match fuel with 0 => Fuel | S fuel =>
    match p with
    | [] => Ok (ENil, [])
    | c :: _ => if (c =? close)%N then Ok (ENil, p)
                else do '(e, p) <- expr fuel p; do '(l, p) <- exprs fuel (skip p); Ok (ECons e l, p)
    end
  end
with binds (fuel : nat) (p : bytes) : res (list (bytes * ce) * bytes) :=
  match fuel with 0 => Fuel | S fuel =>
    match p with
    | [] => Ok ([], [])
    | c :: r =>
      if (c =? close)%N then Ok ([], p)
      else if (c =? open)%N then
        let '(x, p) := upto stop_arg (skip r) in
        do '(e, p) <- expr fuel (skip p);
        let p := match skip p with c :: r => if (c =? close)%N then r else c :: r | [] => [] end in
        do '(vs, p) <- binds fuel (skip p); Ok ((x, e) :: vs, p)
      else binds fuel (skip p)                    (* no step forward: lisp.c 287-314 *)
    end
  end.
(** lisp.c 464-485: the block ({ e1; e2; ... }) *)
Fixpoint top (fuel : nat) (p : bytes) : res ces :=
  match fuel with 0 => Fuel | S f =>
    match skip p with
    | [] => Ok ENil
    | c :: r => if (c =? close)%N then Panic else do '(e, p) <- expr fuel (c :: r); do l <- top f p; Ok (ECons e l)
    end
  end.
Definition transpile (p : bytes) : res ce := do l <- top (2 * length p + 4) p; Ok (CLet (BBody l)).

(** The values of the runtime, lisp.c 426-430 *)
Inductive val := VNum (z : Z) | VNil | VPair (a b : val).
(** a C integer constant with a sign: decimal, or octal behind a 0 *)
Definition digit_value (c : N) : Z := (Z.of_N c - 48)%Z.
Definition number (base : Z) (ds : bytes) : Z := fold_left (fun a c => a * base + digit_value c)%Z ds 0%Z.
Definition signed (t : bytes) : bool * bytes :=
  match t with c :: r => if (c =? 45)%N then (true, r) else (false, t) | [] => (false, []) end.
Definition magnitude (ds : bytes) : option Z :=
  match ds with
  | c :: (_ :: _) as o =>
    if (c =? 48)%N then if forallb (fun c => (c <? 56)%N) o then Some (number 8 o) else None else Some (number 10 ds)
  | _ => Some (number 10 ds)
  end.
Definition constant (t : bytes) : option Z :=
  let '(neg, ds) := signed t in
  match magnitude ds with
  | Some v => if (v <? 9223372036854775808)%Z then Some (if neg then - v else v)%Z else None
  | None => None
  end.

Section Run.
(** other functions: the number of their arguments, what they give *)
Variable arity : bytes -> option nat.
Variable fn : bytes -> list val -> res val.

Definition long (z : Z) : res val := if ((-9223372036854775808 <=? z) && (z <=? 9223372036854775807))%Z then Ok (VNum z) else UB.
Definition num_of (v : val) : Z := match v with VNum z => z | _ => 0%Z end.
(** lisp.c 431-456 *)
Definition runtime (f : bytes) (vs : list val) : option (res val) :=
  match vs with
  | [a; b] =>
    let x := num_of a in let y := num_of b in
    if beq_bytes f (bs "l_add") then Some (long (x + y))
    else if beq_bytes f (bs "l_sub") then Some (long (x - y))
    else if beq_bytes f (bs "l_mul") then Some (long (x * y))
    else if beq_bytes f (bs "l_div") then Some (long (if (y =? 0)%Z then 0 else Z.quot x y))
    else if beq_bytes f (bs "l_lt") then Some (Ok (if (x <? y)%Z then VNum 1 else VNil))
    else if beq_bytes f (bs "l_cons") then Some (Ok (VPair a b))
    else None
  | [a] =>
    if beq_bytes f (bs "l_car") then Some (Ok (match a with VPair x _ => x | _ => VNil end))
    else if beq_bytes f (bs "l_cdr") then Some (Ok (match a with VPair _ y => y | _ => VNil end))
    else None
  | _ => None
  end.
Definition runtime_arity (f : bytes) : option nat :=
  if existsb (beq_bytes f) [bs "l_add"; bs "l_sub"; bs "l_mul"; bs "l_div"; bs "l_lt"; bs "l_cons"] then Some 2
  else if existsb (beq_bytes f) [bs "l_car"; bs "l_cdr"] then Some 1 else None.
Definition all_arity (f : bytes) : option nat := match runtime_arity f with Some n => Some n | None => arity f end.

Fixpoint count (l : ces) : nat := match l with ENil => 0 | ECons _ l => S (count l) end.
Definition has (x : bytes) (l : list bytes) : bool := existsb (beq_bytes x) l.
(** What the C compiler checks, with the variables known *)
Fixpoint checked (vars : list bytes) (e : ce) : bool :=
  match e with
  | CNum t => match constant t with Some _ => negb (has (bs "l_num") vars) | None => false end
  | CSym x => has x vars || beq_bytes x (bs "nil")
  | CNil => negb (has (bs "l_nil") vars)
  | CNone | CPrintf _ _ | CPrint _ _ => false                       (* not an LVal *)
  | CCall [] l => checked_all vars l && (0 <? count l)              (* (a, b) *)
  | CCall f l => match all_arity f with Some n => negb (has f vars) && (n =? count l) && checked_all vars l | None => false end
  | CIf c a b => negb (has (bs "l_truthy") vars) && checked vars c && checked vars a && checked vars b
  | CLet b => checked_block vars [] b
  end
with checked_all (vars : list bytes) (l : ces) : bool :=
  match l with ENil => true | ECons e l => checked vars e && checked_all vars l end
(** [mine]: declared in this block *)
with checked_block (vars mine : list bytes) (b : cbl) : bool :=
  match b with
  | BBody l => checked_all vars l && (0 <? count l)
  | BDecl x e b => negb (has x mine) && checked (x :: vars) e && checked_block (x :: vars) (x :: mine) b
  end.

(** Variables: [None] before they are initialised *)
Definition env := list (bytes * option val).
Fixpoint lookup (x : bytes) (r : env) : option (option val) :=
  match r with [] => None | (y, v) :: r => if beq_bytes x y then Some v else lookup x r end.
Definition call (f : bytes) (vs : list val) : res val := match runtime f vs with Some r => r | None => fn f vs end.
Definition truthy (v : val) : bool := match v with VNil => false | _ => true end.
Fixpoint ceval (r : env) (e : ce) : res val :=
  match e with
  | CNum t => match constant t with Some z => Ok (VNum z) | None => Panic end
  | CSym x => match lookup x r with Some (Some v) => Ok v | Some None => UB | None => Ok VNil end
  | CNil => Ok VNil
  | CNone | CPrintf _ _ | CPrint _ _ => Panic
  | CCall [] l => do vs <- ceval_all r l; match rev vs with v :: _ => Ok v | [] => Panic end
  | CCall f l => do vs <- ceval_all r l; call f vs
  | CIf c a b => do v <- ceval r c; if truthy v then ceval r a else ceval r b
  | CLet b => ceval_block r b
  end
with ceval_all (r : env) (l : ces) : res (list val) :=
  match l with ENil => Ok [] | ECons e l => do v <- ceval r e; do vs <- ceval_all r l; Ok (v :: vs) end
with ceval_block (r : env) (b : cbl) : res val :=
  match b with
  | BBody l => do xs <- ceval_all r l; match rev xs with v :: _ => Ok v | [] => Panic end
  | BDecl x e b => do v <- ceval ((x, None) :: r) e; ceval_block ((x, Some v) :: r) b
  end.

(** A block in a place where the variables of [r] are known *)
Definition run (r : env) (p : bytes) : res val :=
  do e <- transpile p; if checked (map fst r) e then ceval r e else Panic.
End Run.
