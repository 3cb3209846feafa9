(** Async functions and await: the struct of arguments that is built from the text of the
    parameter list, the runner thread, the wrapper that starts it, and the code of an await
    expression (src/codegen/codegen_stmt.c, src/codegen/codegen.c, src/parser/parser_expr.c).
    The generated C is given a meaning by a small machine with a heap and threads. *)
From Verif Require Import Common.
Local Open Scope nat_scope.

(** ** Types and their names *)

(** src/ast/ast.h:29-81, without C types, vectors, arrays and functions *)
Inductive ty :=
| TVoid | TBool | TString | TChar
| TI8 | TU8 | TI16 | TU16 | TI32 | TU32 | TI64 | TU64 | TUsize | TIsize | TByte | TRune | TInt
| TI128 | TU128 | TUint | TF32 | TF64
| TPtr (inner : ty) | TStruct (name : bytes) | TAlias (name : bytes) (inner : ty).
(** src/ast/ast.c:241-475 type_to_string *)
Fixpoint type_to_string (t : ty) : bytes :=
  match t with
  | TVoid => bs "void" | TBool => bs "bool" | TString => bs "string" | TChar => bs "char"
  | TI8 => bs "int8_t" | TU8 => bs "uint8_t" | TI16 => bs "int16_t" | TU16 => bs "uint16_t"
  | TI32 => bs "int32_t" | TU32 => bs "uint32_t" | TI64 => bs "int64_t" | TU64 => bs "uint64_t"
  | TUsize => bs "size_t" | TIsize => bs "ptrdiff_t" | TByte => bs "uint8_t" | TRune => bs "int32_t" | TInt => bs "int"
  | TI128 => bs "__int128" | TU128 => bs "unsigned __int128" | TUint => bs "unsigned int" | TF32 => bs "float" | TF64 => bs "double"
  | TPtr t => type_to_string t ++ bs "*" | TStruct n => n | TAlias n _ => n
  end.
(** src/ast/ast.c:480-735 type_to_c_string: int is int32_t, and an alias is what it stands for *)
Fixpoint type_to_c_string (t : ty) : bytes :=
  match t with
  | TInt => bs "int32_t"
  | TPtr t => type_to_c_string t ++ bs "*"
  | TAlias _ t => type_to_c_string t
  | t => type_to_string t
  end.
(** src/codegen/codegen_utils.c:984-1004 *)
Definition scalar_names : list bytes :=
  [bs "int"; bs "bool"; bs "char"; bs "float"; bs "double"; bs "long"; bs "usize"; bs "isize"; bs "byte"; bs "rune"; bs "size_t"; bs "ptrdiff_t"; bs "ssize_t"].
Definition scalar_prefixes : list bytes :=
  [bs "uint"; bs "int"; bs "i8"; bs "u8"; bs "i16"; bs "u16"; bs "i32"; bs "u32"; bs "i64"; bs "u64"; bs "f32"; bs "f64"; bs "i128"; bs "u128"].
Definition is_struct_return_type (n : bytes) : bool :=
  negb (existsb (beq_bytes n) scalar_names) && negb (existsb (fun p => is_prefix p n) scalar_prefixes).

(** src/parser/parser_utils.c:168-188 is_primitive_type_name *)
Definition primitive_names : list bytes :=
  [bs "int"; bs "i32"; bs "u8"; bs "i8"; bs "i16"; bs "u16"; bs "u32"; bs "i64"; bs "u64"; bs "f32"; bs "float"; bs "f64"; bs "double"; bs "void"; bs "bool";
   bs "char"; bs "usize"; bs "isize"; bs "uint"; bs "byte"; bs "int8_t"; bs "uint8_t"; bs "int16_t"; bs "uint16_t"; bs "int32_t"; bs "uint32_t"; bs "int64_t"; bs "uint64_t";
   bs "size_t"; bs "ptrdiff_t"].
(** src/parser/parser_expr.c:4862-4917: the type of an await of a variable, from the name
    between the angle brackets of its type *)
Definition variable_type (n : bytes) : ty :=
  if existsb (beq_bytes n) primitive_names then
    if beq_bytes n (bs "string") then TString
    else if beq_bytes n (bs "int") || beq_bytes n (bs "i32") then TInt
    else if beq_bytes n (bs "bool") then TBool
    else if beq_bytes n (bs "float") || beq_bytes n (bs "f32") then TF32
    else if beq_bytes n (bs "double") || beq_bytes n (bs "f64") then TF64
    else if beq_bytes n (bs "char") then TChar
    else if beq_bytes n (bs "void") then TVoid
    else if beq_bytes n (bs "usize") then TUsize
    else if beq_bytes n (bs "isize") then TIsize
    else TInt
  else TStruct n.
(** The C type of an await: of a call (src/parser/parser_expr.c:4817-4823), or of a variable
    that holds the result of one (3288-3315, 4841-4917).  Names are taken to be shorter than
    500 bytes and to contain no angle brackets. *)
Definition await_type (variable : bool) (ret : ty) : bytes :=
  type_to_c_string (if variable then variable_type (type_to_string ret) else ret).

(** What runner and await do with the result *)
Inductive mode := Nothing | Boxed | AsLong | AsPointer.
(** src/codegen/codegen_stmt.c:592-636 *)
Definition runner_mode (rt : bytes) : mode :=
  if beq_bytes rt (bs "void") then Nothing else if is_struct_return_type rt then Boxed else AsLong.
(** src/codegen/codegen.c:1829-1874 *)
Definition await_mode (rt : bytes) : mode :=
  if beq_bytes rt (bs "void") then Nothing
  else if existsb (N.eqb (ch "*")) rt || beq_bytes rt (bs "string") then AsPointer
  else if is_struct_return_type rt || is_prefix (bs "struct") rt then Boxed
  else AsLong.

(** ** Parameters *)

(** src/parser/parser_utils.c:3942-4215 parse_and_convert_args, as far as the text of the
    parameters goes (types other than functions, no self): 16 entries, 1024 bytes, unchecked *)
Fixpoint convert_loop (buf : bytes) (count : nat) (ps : list (bytes * bytes)) : res bytes :=
  match ps with
  | [] => Ok buf
  | (t, n) :: ps =>
    if 16 <=? count then UB
    else let buf := buf ++ (match buf with [] => [] | _ => bs ", " end) ++ t ++ bs " " ++ n in
         if 1024 <=? length buf then UB else convert_loop buf (S count) ps
  end.
Definition convert_args (ps : list (bytes * bytes)) : res bytes := convert_loop [] 0 ps.
(** strtok with the delimiter "," over the whole text: its non-empty pieces *)
Fixpoint pieces (cur : bytes) (s : bytes) : list bytes :=
  match s with
  | [] => match cur with [] => [] | _ => [cur] end
  | c :: s => if N.eqb c (ch ",") then match cur with [] => pieces [] s | _ => cur :: pieces [] s end else pieces (cur ++ [c]) s
  end.
Fixpoint trim (s : bytes) : bytes := match s with c :: r => if N.eqb c (ch " ") then trim r else s | [] => [] end.
(** strrchr(token, ' ') *)
Fixpoint last_space (s : bytes) : option (bytes * bytes) :=
  match s with
  | [] => None
  | c :: r => match last_space r with
              | Some (a, b) => Some (c :: a, b)
              | None => if N.eqb c (ch " ") then Some ([], r) else None
              end
  end.
(** src/codegen/codegen_stmt.c:560-584: type and name of each field; room for 32 *)
Fixpoint fields_loop (n : nat) (ts : list bytes) : res (list (bytes * bytes)) :=
  match ts with
  | [] => Ok []
  | t :: ts => match last_space (trim t) with
               | None => fields_loop n ts
               | Some f => if 32 <=? n then UB else do r <- fields_loop (S n) ts; Ok (f :: r)
               end
  end.
Definition fields (args : bytes) : res (list (bytes * bytes)) := fields_loop 0 (pieces [] args).

(** ** The meaning of the generated C *)

(** A float is [n / 2^k] *)
Inductive value := VNone | VInt (z : Z) | VFloat (n : Z) (k : nat) | VPtr (a : Z) | VStruct (tag : bytes) (fields : list Z).
Inductive ckind := KVoid | KBool | KInt (bits : Z) (signed : bool) | KFloat | KPtr | KStruct (tag : bytes).
Definition builtin (n : bytes) : option ckind :=
  let table := [(bs "void", KVoid); (bs "bool", KBool); (bs "string", KPtr); (bs "char", KInt 8 true); (bs "int8_t", KInt 8 true); (bs "uint8_t", KInt 8 false);
    (bs "int16_t", KInt 16 true); (bs "uint16_t", KInt 16 false); (bs "int32_t", KInt 32 true); (bs "uint32_t", KInt 32 false); (bs "int64_t", KInt 64 true);
    (bs "uint64_t", KInt 64 false); (bs "size_t", KInt 64 false); (bs "ptrdiff_t", KInt 64 true); (bs "int", KInt 32 true); (bs "__int128", KInt 128 true);
    (bs "unsigned __int128", KInt 128 false); (bs "unsigned int", KInt 32 false); (bs "float", KFloat); (bs "double", KFloat)] in
  match find (fun x => beq_bytes n (fst x)) table with Some (_, k) => Some k | None => None end.

Section Async.
(** The names that the program declares; the addresses of blocks; long to float *)
Variable decl : bytes -> ckind.
Variable addr : nat -> Z.
Variable round : Z -> Z.

Definition kind_of (n : bytes) : ckind :=
  match builtin n with Some k => k | None => if existsb (N.eqb (ch "*")) n then KPtr else decl n end.
Definition wrap (bits : Z) (signed : bool) (z : Z) : Z :=
  let m := (z mod 2 ^ bits)%Z in if (signed && (2 ^ (bits - 1) <=? m))%Z then (m - 2 ^ bits)%Z else m.
(** A void pointer: a number, or the address of a block *)
Inductive word := WNum (z : Z) | WBlock (p : nat).
Definition number (w : word) : Z := match w with WNum z => z | WBlock p => addr p end.
(** The cast of the result to long and on to a void pointer; a struct cannot be converted *)
Definition to_long (v : value) : res word :=
  match v with
  | VInt z | VPtr z => Ok (WNum (wrap 64 true z))
  | VFloat n k => let z := Z.quot n (2 ^ Z.of_nat k) in
                  if ((- 2 ^ 63 <=? z) && (z <? 2 ^ 63))%Z then Ok (WNum z) else UB
  | VStruct _ _ | VNone => Panic
  end.
(** The cast of a void pointer to long and on to a type *)
Definition from_long (k : ckind) (w : word) : res value :=
  match k with
  | KBool => Ok (VInt (if (number w =? 0)%Z then 0 else 1))
  | KInt b s => Ok (VInt (wrap b s (number w)))
  | KFloat => Ok (VFloat (round (number w)) 0)
  | KPtr => Ok (VPtr (wrap 64 false (number w)))
  | KVoid | KStruct _ => Panic
  end.

Inductive block := Gone | Args (l : list value) | Box (n : bytes) (v : value).
(** A call of an async function.  [thread]: it was started; [args]: its struct *)
Record task := mktask { ret : ty; thread : bool; args : option nat; passed : option (list value); result : option word; joined : bool }.
Record state := mkst { heap : list block; tasks : list task; outs : list value }.
Definition init : state := mkst [] [] [].

Fixpoint replace {A} (n : nat) (a : A) (l : list A) : list A :=
  match l, n with _ :: r, O => a :: r | b :: r, S n => b :: replace n a r | [], _ => [] end.
(** free *)
Definition release (p : option nat) (h : list block) : res (list block) :=
  match p with
  | None => Ok h
  | Some p => match nth_error h p with Some Gone | None => UB | Some _ => Ok (replace p Gone h) end
  end.

(** What happens: a call (malloc and pthread_create may fail), the thread calls the function,
    the function returns [v], an await of a call or of a variable *)
Inductive event :=
| Call (r : ty) (vs : list value) (memory created : bool)
| Begin (i : nat)
| Return (i : nat) (v : value) (memory : bool)
| Await (variable : bool) (i : nat).

(** src/codegen/codegen_stmt.c:651-666: the wrapper *)
Definition call (r : ty) (vs : list value) (memory created : bool) (s : state) : res state :=
  if memory then
    Ok (mkst (heap s ++ [Args vs]) (tasks s ++ [mktask r created (Some (length (heap s))) None None false]) (outs s))
  else match vs with
       | [] => Ok (mkst (heap s) (tasks s ++ [mktask r created None None None false]) (outs s))
       | _ => UB
       end.
(** 605-622: the runner reads the arguments and calls the function *)
Definition begin (i : nat) (s : state) : res state :=
  match nth_error (tasks s) i with
  | Some (mktask r true a None w j) =>
    do vs <- match a with
             | None => Ok []
             | Some p => match nth_error (heap s) p with Some (Args vs) => Ok vs | _ => UB end
             end;
    Ok (mkst (heap s) (replace i (mktask r true a (Some vs) w j) (tasks s)) (outs s))
  | _ => Ok s
  end.
(** 605-640: the rest of the runner (the box is allocated before the call there) *)
Definition finish (i : nat) (v : value) (memory : bool) (s : state) : res state :=
  match nth_error (tasks s) i with
  | Some (mktask r true a (Some vs) None j) =>
    let rt := type_to_string r in
    let ends h w := do h <- release a h; Ok (mkst h (replace i (mktask r true a (Some vs) (Some w) j) (tasks s)) (outs s)) in
    match runner_mode rt with
    | Nothing => ends (heap s) (WNum 0)
    | Boxed => if memory then ends (heap s ++ [Box rt v]) (WBlock (length (heap s))) else UB
    | AsLong | AsPointer => do w <- to_long v; ends (heap s) w
    end
  | _ => Ok s
  end.
Definition same_kind (a b : ckind) : bool :=
  match a, b with
  | KVoid, KVoid | KBool, KBool | KFloat, KFloat | KPtr, KPtr => true
  | KInt n s, KInt m t => (n =? m)%Z && Bool.eqb s t
  | KStruct x, KStruct y => beq_bytes x y
  | _, _ => false
  end.
(** src/codegen/codegen.c:1848-1874.  Waits while the thread is not done *)
Definition await (variable : bool) (i : nat) (s : state) : res state :=
  match nth_error (tasks s) i with
  | None => UB
  | Some (mktask r th a p w j) =>
    if negb th || j then UB
    else match w with
    | None => Ok s
    | Some w =>
      let rt := await_type variable r in
      let gives h v := Ok (mkst h (replace i (mktask r th a p (Some w) true) (tasks s)) (outs s ++ [v])) in
      match await_mode rt with
      | Nothing => gives (heap s) VNone
      | AsPointer => gives (heap s) (VPtr (wrap 64 false (number w)))
      | AsLong => do v <- from_long (kind_of rt) w; gives (heap s) v
      | Boxed => match w with
                 | WBlock b => match nth_error (heap s) b with
                               | Some (Box n v) => if same_kind (kind_of n) (kind_of rt) then do h <- release (Some b) (heap s); gives h v else UB
                               | _ => UB
                               end
                 | WNum _ => UB
                 end
      end
    end
  end.
Definition step (e : event) (s : state) : res state :=
  match e with
  | Call r vs m c => call r vs m c s
  | Begin i => begin i s
  | Return i v m => finish i v m s
  | Await b i => await b i s
  end.
Fixpoint run (es : list event) (s : state) : res state :=
  match es with [] => Ok s | e :: es => do s <- step e s; run es s end.
End Async.
