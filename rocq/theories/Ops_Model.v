(** Model of the code generated for expressions with assignments, compound assignments, ??
    and ??=: parser_expr.c:6508-6590 (compound operators are rewritten), codegen.c:232-258 and
    407-430.

    Simplifications: values are integers; an array access stands for a C index and for the
    get and set calls of an overloaded index (parser_expr.c:6593-6665), which evaluate the
    index alike; a call stands for any function the program calls and may change every
    variable that is not a temporary of the generated code.  C leaves the order of the
    operands of an operator and of an assignment open: it is a parameter. *)
From Verif Require Import Common.
Local Open Scope Z_scope.

(** A place in memory: a variable, or an element of an array *)
Inductive loc := AtVar (x : bytes) | AtElem (a : bytes) (i : Z).
Definition loc_eqb (a b : loc) : bool :=
  match a, b with
  | AtVar x, AtVar y => beq_bytes x y
  | AtElem x i, AtElem y j => beq_bytes x y && (i =? j)
  | _, _ => false
  end.
(** The contents of memory; storing what is there already changes nothing *)
Definition mem := list (loc * Z).
Fixpoint load (m : mem) (l : loc) : Z :=
  match m with [] => 0 | (k, v) :: r => if loc_eqb k l then v else load r l end.
Definition store (m : mem) (l : loc) (v : Z) : mem := if load m l =? v then m else (l, v) :: m.

(** * The source *)
Inductive expr :=
| EConst (z : Z) | ERead (t : target) | ECall (f : N) (e : expr)
| EBin (op : N) (a b : expr)            (* an operator that evaluates both operands *)
| EAnd (a b : expr) | EOr (a b : expr)
| ECoal (a b : expr)                    (* a ?? b *)
| EAssign (t : target) (e : expr)
| ECompound (op : N) (t : target) (e : expr)   (* t op= e *)
| ECoalAssign (t : target) (e : expr)   (* t ??= e *)
with target := TVar (x : bytes) | TElem (a : bytes) (i : expr).

(** * The generated C *)
Inductive cexpr :=
| CConst (z : Z) | CRead (t : ctarget) | CCall (f : N) (e : cexpr)
| CBin (op : N) (a b : cexpr) | CAnd (a b : cexpr) | COr (a b : cexpr)
| CCoal (a b : cexpr)                   (* ({ __auto_type _l = (a); _l ? _l : (b); }) *)
| CAssign (t : ctarget) (e : cexpr)
with ctarget := CTVar (x : bytes) | CTElem (a : bytes) (i : cexpr).

(** codegen.c:232-242: the temporary of ?? *)
Definition tmp : bytes := bs "_l".

(** parser_expr.c:6508-6590: [t op= e] becomes [t = t op e], with the nodes of [t] used
    twice; this includes ??= (it ends in '=' and starts with neither of = ! < >), so
    codegen.c:245-256 is never reached.  codegen.c:232-242, 418-430 print the rest. *)
Fixpoint gen (e : expr) : cexpr :=
  match e with
  | EConst z => CConst z
  | ERead t => CRead (gen_target t)
  | ECall f e => CCall f (gen e)
  | EBin op a b => CBin op (gen a) (gen b)
  | EAnd a b => CAnd (gen a) (gen b)
  | EOr a b => COr (gen a) (gen b)
  | ECoal a b => CCoal (gen a) (gen b)
  | EAssign t e => CAssign (gen_target t) (gen e)
  | ECompound op t e => CAssign (gen_target t) (CBin op (CRead (gen_target t)) (gen e))
  | ECoalAssign t e => CAssign (gen_target t) (CCoal (CRead (gen_target t)) (gen e))
  end
with gen_target (t : target) : ctarget :=
  match t with TVar x => CTVar x | TElem a i => CTElem a (gen i) end.

(** * What the generated C does *)
(** [None]: left operand first; [Some]: right operand first *)
Inductive order := LeftFirst | RightFirst.
(** Memory and the calls made so far *)
Definition world := (mem * list (N * Z))%type.

Section Run.
  Variable ord : order.
  (** An operator, and a function of the program: what it returns and what it does to memory *)
  Variable op_val : N -> Z -> Z -> Z.
  Variable fun_val : N -> Z -> mem -> Z * mem.

  Definition call (f : N) (v : Z) (w : world) : Z * world :=
    let '(r, m) := fun_val f v (fst w) in (r, (m, snd w ++ [(f, v)])).

  (** C scoping: the innermost temporary of that name hides the variable *)
  Definition temps := list (bytes * Z).
  Fixpoint in_temps (ts : temps) (x : bytes) : option Z :=
    match ts with [] => None | (y, v) :: r => if beq_bytes y x then Some v else in_temps r x end.
  Fixpoint set_temp (ts : temps) (x : bytes) (v : Z) : temps :=
    match ts with [] => [] | (y, u) :: r => if beq_bytes y x then (y, v) :: r else (y, u) :: set_temp r x v end.
  Definition c_load (ts : temps) (w : world) (l : loc) : Z :=
    match l with
    | AtVar x => match in_temps ts x with Some v => v | None => load (fst w) l end
    | AtElem _ _ => load (fst w) l
    end.
  Definition c_store (ts : temps) (w : world) (l : loc) (v : Z) : temps * world :=
    match l with
    | AtVar x => match in_temps ts x with
                 | Some _ => (set_temp ts x v, w)
                 | None => (ts, (store (fst w) l v, snd w))
                 end
    | AtElem _ _ => (ts, (store (fst w) l v, snd w))
    end.

  Fixpoint c_eval (ts : temps) (w : world) (e : cexpr) : Z * temps * world :=
    match e with
    | CConst z => (z, ts, w)
    | CRead t => let '(l, ts1, w1) := c_loc ts w t in (c_load ts1 w1 l, ts1, w1)
    | CCall f e => let '(v, ts1, w1) := c_eval ts w e in let '(r, w2) := call f v w1 in (r, ts1, w2)
    | CBin op a b =>
      match ord with
      | LeftFirst =>
        let '(x, ts1, w1) := c_eval ts w a in
        let '(y, ts2, w2) := c_eval ts1 w1 b in (op_val op x y, ts2, w2)
      | RightFirst =>
        let '(y, ts1, w1) := c_eval ts w b in
        let '(x, ts2, w2) := c_eval ts1 w1 a in (op_val op x y, ts2, w2)
      end
    | CAnd a b =>
      let '(x, ts1, w1) := c_eval ts w a in
      if x =? 0 then (0, ts1, w1)
      else let '(y, ts2, w2) := c_eval ts1 w1 b in (if y =? 0 then 0 else 1, ts2, w2)
    | COr a b =>
      let '(x, ts1, w1) := c_eval ts w a in
      if x =? 0 then let '(y, ts2, w2) := c_eval ts1 w1 b in (if y =? 0 then 0 else 1, ts2, w2)
      else (1, ts1, w1)
    | CCoal a b =>
      let '(x, ts1, w1) := c_eval ts w a in
      let ts2 := (tmp, x) :: ts1 in
      if x =? 0 then let '(y, ts3, w3) := c_eval ts2 w1 b in (y, tl ts3, w3)
      else (x, ts1, w1)
    | CAssign t e =>
      match ord with
      | LeftFirst =>
        let '(l, ts1, w1) := c_loc ts w t in
        let '(v, ts2, w2) := c_eval ts1 w1 e in
        let '(ts3, w3) := c_store ts2 w2 l v in (v, ts3, w3)
      | RightFirst =>
        let '(v, ts1, w1) := c_eval ts w e in
        let '(l, ts2, w2) := c_loc ts1 w1 t in
        let '(ts3, w3) := c_store ts2 w2 l v in (v, ts3, w3)
      end
    end
  with c_loc (ts : temps) (w : world) (t : ctarget) : loc * temps * world :=
    match t with
    | CTVar x => (AtVar x, ts, w)
    | CTElem a i => let '(v, ts1, w1) := c_eval ts w i in (AtElem a v, ts1, w1)
    end.
End Run.
