(** Closures as the README describes them: which variables the body refers to, and what
    capturing by value and by reference means. *)
From Verif Require Import Common Closure_Model.
Local Open Scope nat_scope.

(** ** Names *)

(** The name a statement declares for those after it *)
Definition declares (n : node) (x : name) : Prop :=
  match n with Decl y _ | Const y _ => x = y | _ => False end.
(** [free x n]: a variable in [n] refers to an [x] declared outside of it *)
Inductive free (x : name) : node -> Prop :=
| f_var : free x (Var x)
| f_plain l n : In n l -> free x n -> free x (Plain l)
| f_block l : frees x l -> free x (Block l)
| f_decl y i : free x i -> free x (Decl y i)
| f_const y i : free x i -> free x (Const y i)
| f_cond c t e : free x c -> free x (If c t e)
| f_then c t e : free x t -> free x (If c t e)
| f_else c t e : free x e -> free x (If c t e)
| f_while c b : free x c -> free x (While c b)
| f_do c b : free x b -> free x (While c b)
| f_init i c s b : free x i -> free x (For i c s b)
| f_for i c s b n : ~ declares i x -> In n [c; s; b] -> free x n -> free x (For i c s b)
| f_match e cs : free x e -> free x (Match e cs)
| f_case e cs bs g b : In (Case bs g b) cs -> ~ In x bs -> (free x g \/ free x b) -> free x (Match e cs)
| f_other l n : In n l -> free x n -> free x (Other l)
with frees (x : name) : list node -> Prop :=
| fs_here n r : free x n -> frees x (n :: r)
| fs_later n r : ~ declares n x -> frees x r -> frees x (n :: r).
(** Parts of a node *)
Inductive child : node -> node -> Prop :=
| c_plain l n : In n l -> child n (Plain l)
| c_block l n : In n l -> child n (Block l)
| c_decl y i : child i (Decl y i)
| c_const y i : child i (Const y i)
| c_if c t e n : In n [c; t; e] -> child n (If c t e)
| c_while c b n : In n [c; b] -> child n (While c b)
| c_for i c s b n : In n [i; c; s; b] -> child n (For i c s b)
| c_match e cs : child e (Match e cs)
| c_case e cs bs g b n : In (Case bs g b) cs -> In n [g; b] -> child n (Match e cs)
| c_other l n : In n l -> child n (Other l).

(** [local x n]: somewhere in [n] an [x] is declared *)
Inductive local (x : name) : node -> Prop :=
| l_here n : declares n x -> local x n
| l_bind e cs bs g b : In (Case bs g b) cs -> In x bs -> local x (Match e cs)
| l_in n m : child m n -> local x m -> local x n.

(** The constructs the analysis looks into; expressions do not declare anything *)
Inductive expression : node -> Prop :=
| e_leaf : expression Leaf
| e_var x : expression (Var x)
| e_plain l : Forall expression l -> expression (Plain l).
Inductive seen : node -> Prop :=
| s_expr n : expression n -> seen n
| s_block l : Forall seen l -> seen (Block l)
| s_decl x i : expression i -> seen (Decl x i)
| s_if c t e : expression c -> seen t -> seen e -> seen (If c t e)
| s_while c b : expression c -> seen b -> seen (While c b)
| s_for i c s b : seen i -> expression c -> expression s -> seen b -> seen (For i c s b)
| s_match e cs : expression e -> Forall seen_case cs -> seen (Match e cs)
with seen_case : mcase -> Prop :=
| s_case bs b : seen b -> seen_case (Case bs Leaf b).

(** Variables of the enclosing function, and global ones, that no function is called like *)
Definition variable (ctx : context) (x : name) : Prop :=
  find_place x (scopes ctx) = AtLocal /\ ~ In x (funcs ctx) /\ ~ In x builtins.
Definition global (ctx : context) (x : name) : Prop := find_place x (scopes ctx) = AtGlobal.

(** The type a variable was declared with: the first declaration of its name in the innermost
    scope that has one *)
Definition declared (x : name) (t : bytes) (l : list scope) : Prop :=
  exists inner s outer a b, l = inner ++ s :: outer /\ s = a ++ (x, Some t) :: b /\
    ~ In x (map fst a) /\ forall s', In s' inner -> ~ In x (map fst s').

(** What the capture list says about a variable *)
Fixpoint mode_in (x : name) (l : list (name * bool)) : option bool :=
  match l with (y, r) :: l => if beq_bytes x y then Some r else mode_in x l | [] => None end.
Definition refers (lam : lambda) (x : name) : bool :=
  match mode_in x (explicit lam) with Some r => r | None => default_ref lam end.

(** ** Closures *)
Section Spec.
Variable value : Type.
Definition vars := name -> option value.
Definition set (e : vars) (x : name) (v : value) : vars := fun y => if beq_bytes y x then Some v else e y.

(** The state of the enclosing function: global variables, its own ones, whether it runs *)
Record world := mkworld { sglobals : vars; svars : vars; alive : bool }.
(** A closure has a copy of the variables as they were when it was created. *)
Record sclosure := mksclo { slam : lambda; sbody : prog value; copy : vars }.

(** The body of a closure.  A name is a local variable or parameter, else one of the enclosing
    function, referred to or copied, else a global one.  [None]: no such variable, or a
    reference to a variable that is gone. *)
Fixpoint run_spec (lam : lambda) (own : vars) (w : world) (locals : list (name * value)) (p : prog value) : option (value * vars * world) :=
  match p with
  | Done v => Some (v, own, w)
  | New x v k => run_spec lam own w ((x, v) :: locals) k
  | Get x k =>
    match get x locals with
    | Some v => run_spec lam own w locals (k v)
    | None =>
      match svars w x with
      | Some v =>
        if refers lam x then if alive w then run_spec lam own w locals (k v) else None
        else match own x with Some v => run_spec lam own w locals (k v) | None => None end
      | None => match sglobals w x with Some v => run_spec lam own w locals (k v) | None => None end
      end
    end
  | Put x v k =>
    match get x locals with
    | Some _ => run_spec lam own w (put x v locals) k
    | None =>
      match svars w x with
      | Some _ =>
        if refers lam x then if alive w then run_spec lam own (mkworld (sglobals w) (set (svars w) x v) (alive w)) locals k else None
        else run_spec lam (set own x v) w locals k
      | None => match sglobals w x with
                | Some _ => run_spec lam own (mkworld (set (sglobals w) x v) (svars w) (alive w)) locals k
                | None => None
                end
      end
    end
  end.

Fixpoint replace {A} (n : nat) (a : A) (l : list A) : list A :=
  match l, n with _ :: r, O => a :: r | b :: r, S n => b :: replace n a r | [], _ => [] end.
Definition step_spec (s : world * list sclosure * list value) (o : op value) : option (world * list sclosure * list value) :=
  let '(w, cs, out) := s in
  match o with
  | Assign x v => match svars w x with
                  | Some _ => if alive w then Some (mkworld (sglobals w) (set (svars w) x v) (alive w), cs, out) else None
                  | None => None
                  end
  | AssignGlobal x v => match sglobals w x with
                        | Some _ => Some (mkworld (set (sglobals w) x v) (svars w) (alive w), cs, out)
                        | None => None
                        end
  | Create lam p => if alive w then Some (w, cs ++ [mksclo lam p (svars w)], out) else None
  | Call k args =>
    match nth_error cs k with
    | Some c =>
      if length args =? length (params (slam c)) then
        match run_spec (slam c) (copy c) w (combine (params (slam c)) args) (sbody c) with
        | Some (v, own, w') => Some (w', replace k (mksclo (slam c) (sbody c) own) cs, out ++ [v])
        | None => None
        end
      else None
    | None => None
    end
  | Leave => Some (mkworld (sglobals w) (svars w) false, cs, out)
  end.
Fixpoint steps_spec (s : world * list sclosure * list value) (l : list (op value)) : option (world * list sclosure * list value) :=
  match l with
  | [] => Some s
  | o :: l => match step_spec s o with Some s => steps_spec s l | None => None end
  end.

(** ** Well-formed closures *)

(** What the body does with variables is what its syntax tree says. *)
Fixpoint follows (ctx : context) (n : node) (bound : list name) (p : prog value) : Prop :=
  match p with
  | Done _ => True
  | Get x k => (In x bound \/ (free x n /\ (variable ctx x \/ global ctx x))) /\ forall v, follows ctx n bound (k v)
  | Put x _ k => (In x bound \/ (free x n /\ (variable ctx x \/ global ctx x))) /\ follows ctx n bound k
  | New x _ k => local x n /\ follows ctx n (x :: bound) k
  end.
(** No name has two meanings in the body, explicit captures are variables of the enclosing
    function, at most 32 variables are captured, and no variable is called ctx. *)
Definition lambda_ok (ctx : context) (lam : lambda) (p : prog value) : Prop :=
  seen (body lam) /\
  (forall x, local x (body lam) -> ~ free x (body lam)) /\
  (forall x, In x (map fst (explicit lam)) -> variable ctx x /\ ~ In x (params lam) /\ ~ local x (body lam)) /\
  (exists l, length l <= 32 /\
     forall x, In x (map fst (explicit lam)) \/ (free x (body lam) /\ ~ In x (params lam) /\ variable ctx x) -> In x l) /\
  (forall x, free x (body lam) -> In x (params lam) \/ variable ctx x \/ global ctx x \/ In x (funcs ctx) \/ In x builtins) /\
  (forall x, free x (body lam) \/ In x (params lam) \/ local x (body lam) \/ In x (map fst (explicit lam)) -> x <> bs "ctx") /\
  follows ctx (body lam) (params lam) p.
Definition op_ok (ctx : context) (o : op value) : Prop :=
  match o with Create lam p => lambda_ok ctx lam p | _ => True end.
(** The parser's context describes the variables. *)
Definition describes (ctx : context) (w : world) : Prop :=
  (forall x, svars w x <> None <-> find_place x (scopes ctx) = AtLocal) /\
  (forall x, sglobals w x <> None -> svars w x = None -> find_place x (scopes ctx) = AtGlobal).
(** The memory of the generated program holds the same variables, and no closures yet. *)
Definition holds (m : mem value) (w : world) : Prop :=
  (forall x, get x (globals m) = sglobals w x) /\ heap m = [] /\
  alive w = true /\ exists f, frame m = Some f /\ forall x, get x f = svars w x.
End Spec.
Arguments mkworld {value}. Arguments sglobals {value}. Arguments svars {value}. Arguments alive {value}.
Arguments mksclo {value}. Arguments slam {value}. Arguments sbody {value}. Arguments copy {value}. Arguments set {value}.
Arguments run_spec {value}. Arguments step_spec {value}. Arguments steps_spec {value}. Arguments follows {value}.
Arguments lambda_ok {value}. Arguments op_ok {value}. Arguments describes {value}. Arguments holds {value}. Arguments replace {A}.

(** ** The capture list in the source *)
Inductive citem := ByRef (x : name) | ByValue (x : name) | AllRef | AllValue.
Definition item_toks (i : citem) : list ctok :=
  match i with ByRef x => [CAmp; CId x] | ByValue x => [CId x] | AllRef => [CAmp] | AllValue => [CEq] end.
Fixpoint list_toks (l : list citem) : list ctok :=
  match l with [] => [CClose] | [i] => item_toks i ++ [CClose] | i :: r => item_toks i ++ CComma :: list_toks r end.
Definition named (i : citem) : list (name * bool) :=
  match i with ByRef x => [(x, true)] | ByValue x => [(x, false)] | _ => [] end.
(** The default: by value, unless the last word about it says otherwise *)
Definition default_of (l : list citem) : bool :=
  fold_left (fun d i => match i with AllRef => true | AllValue => false | _ => d end) l false.
