(** What C110 speaks of, independently of the way declarations are written out. *)
From Verif Require Import Common Vars_Model.
Local Open Scope Z_scope.

(** types with an initial value of their own *)
Definition zeroed (t : ty) : bool :=
  match t with TNum | TFloat | TBool | TStruct _ | TArr _ _ | TSlice => true | _ => false end.

(** every name a function declares, its variables and the flags of those with drop, is its own *)
Definition names (l : list decl) : list bytes :=
  concat (map (fun d => if ddrop d then [flag_name (dname d); dname d] else [dname d]) l).
Definition well_named (l : list decl) : Prop := NoDup (names l).

(** a body does not take variables away *)
Definition keeps (b : body) : Prop := forall g h x, get x g <> None -> get x (fst (fst (b g h))) <> None.

(** the blocks that the autofree variables hold, in their order; [None]: one holds something
    that is not a pointer *)
Fixpoint held (l : list decl) (g : env) : option (list nat) :=
  match l with
  | [] => Some []
  | d :: l =>
    if dauto d then
      match get (dname d) g, held l g with
      | Some VNull, Some r => Some r
      | Some (VPtr b), Some r => Some (b :: r)
      | _, _ => None
      end
    else held l g
  end.

(** what the parser can make: static and autofree are not combined (parser_stmt.c:2343, 2498) *)
Definition parsed (l : list decl) : Prop := forall d, In d l -> dauto d = true -> dstatic d = false.

(** a value of the type that is zero in every part *)
Inductive all_zero : ty -> val -> Prop :=
  | z_num t : In t [TNum; TFloat; TBool] -> all_zero t (VNum 0)
  | z_ptr t : In t [TPtr; TVoidPtr; TString; TFun] -> all_zero t VNull
  | z_struct fs vs : Forall2 all_zero fs vs -> all_zero (TStruct fs) (VAgg vs)
  | z_arr t n vs : length vs = n -> Forall (all_zero t) vs -> all_zero (TArr t n) (VAgg vs)
  | z_slice : all_zero TSlice (VAgg [VNull; VNum 0; VNum 0])
  | z_vector n vs : length vs = n -> Forall (fun v => v = VNum 0) vs -> all_zero (TVector n) (VAgg vs)
  | z_opaque t v : all_zero t v -> all_zero (TOpaque t) v.
