(** A value survives the trip through JSON. *)
From Verif Require Import Common Json_Model Djson_Model.

Section Spec.
  Context {D : Type}.
  (** Values of a type *)
  Inductive of_type : ty -> val D -> Prop :=
  | of_int b (s : bool) z :
      ((if s then - 2 ^ (b - 1) else 0) <= z < (if s then 2 ^ (b - 1) else 2 ^ b))%Z -> of_type (TInt b s) (VInt z)
  | of_double d : of_type TDouble (VDouble d)
  | of_bool b : of_type TBool (VBool b)
  | of_str s : of_type TStr (VStr s)
  | of_vec l : of_type TVec (VVec l)
  | of_struct fs l : of_types fs l -> of_type (TStruct fs) (VStruct l)
  with of_types : fields -> vals D -> Prop :=
  | of_nil : of_types FNil VNil
  | of_cons n t fs v l : of_type t v -> of_types fs l -> of_types (FCons n t fs) (VCons v l).

  (** Every integer in the value is an int *)
  Fixpoint int_sized (v : val D) : Prop :=
    match v with
    | VInt z => (- 2 ^ 31 <= z < 2 ^ 31)%Z
    | VStruct l => ints_sized l
    | _ => True
    end
  with ints_sized (l : vals D) : Prop := match l with VNil => True | VCons v l => int_sized v /\ ints_sized l end.
End Spec.

(** Types: integers of 32 bits or more, and no two fields of a struct with one name *)
Fixpoint names (fs : fields) : list bytes := match fs with FNil => [] | FCons n _ fs => n :: names fs end.
Fixpoint well_formed (t : ty) : Prop :=
  match t with
  | TInt b s => b = 32%Z \/ b = 64%Z
  | TStruct fs => NoDup (names fs) /\ well_formed_all fs
  | _ => True
  end
with well_formed_all (fs : fields) : Prop :=
  match fs with FNil => True | FCons _ t fs => well_formed t /\ well_formed_all fs end.

(** What the JSON text can carry (C19): no control characters \b and \f, strings below 4096
    bytes, numbers that print and read back *)
Section Carried.
  Context {D : Type} (of_int : Z -> D) (number : D -> Prop).
  Definition plain_string (s : bytes) : Prop := ~ In 0%N s /\ ~ In 8%N s /\ ~ In 12%N s /\ length s <= 4095.
  Definition plain_name (k : bytes) : Prop := ~ In 0%N k /\ ~ In 34%N k /\ ~ In 92%N k /\ length k <= 4095.
  Fixpoint carried (v : val D) : Prop :=
    match v with
    | VInt z => number (of_int z)
    | VDouble d => number d
    | VBool _ => True
    | VStr s => plain_string s
    | VVec l => Forall plain_string l
    | VStruct l => all_carried l
    | VIndet => False
    end
  with all_carried (l : vals D) : Prop := match l with VNil => True | VCons v l => carried v /\ all_carried l end.
End Carried.
Fixpoint plain_names (t : ty) : Prop := match t with TStruct fs => plain_names_all fs | _ => True end
with plain_names_all (fs : fields) : Prop :=
  match fs with FNil => True | FCons n t fs => plain_name n /\ plain_names t /\ plain_names_all fs end.

(** The method's text: an assignment for every field, then the struct with every field *)
Fixpoint join (sep : bytes) (l : list bytes) : bytes :=
  match l with [] => [] | [x] => x | x :: l => x ++ sep ++ join sep l end.
Definition method_text (name : bytes) (fs : list (bytes * kind)) : bytes :=
  concat (map (fun f => assign_text (fst f) (snd f)) fs)
  ++ (bs "return Result<" ++ name ++ bs ">::Ok(" ++ name ++ bs " { ")
  ++ join (bs ", ") (map (fun f => init_text (fst f) (snd f)) fs) ++ bs " }); ".
