(** Model of how types are written in the generated C: type_to_c_string in src/ast/ast.c,
    emit_c_decl and emit_func_signature in src/codegen/codegen_utils.c, the typedefs of
    src/codegen/codegen_decl.c, and the suffixes of a type in src/parser/parser_type.c.

    Text is a list of bytes.  The Zen name of a type (type_to_string, used in the name of a
    slice struct) and the test that a struct is defined are parameters.  An array of negative
    size makes type_to_c_string call itself for ever: that is [UB] (the stack overflows).
    Simplifications: [is_const] is the constructor [TConst]; CUDA qualifiers, [@ctype] and
    vectors are left out. *)
From Verif Require Import Common.
Local Open Scope nat_scope.

(** ast.h TypeKind, the kinds with a fixed C name, and named types *)
Inductive base :=
  | BVoid | BBool | BString | BChar | BI8 | BU8 | BI16 | BU16 | BI32 | BU32 | BI64 | BU64
  | BF32 | BF64 | BUsize | BIsize | BByte | BI128 | BU128 | BRune | BUint
  | BCInt | BCUint | BCLong | BCUlong | BCLongLong | BCUlongLong | BCShort | BCUshort | BCChar | BCUchar
  | BInt | BFloat | BStruct (explicit : bool) (name : bytes) | BEnum (name : bytes).

(** ast.c:507-586, 747-748 *)
Definition base_name (b : base) : bytes :=
  match b with
  | BVoid => bs "void" | BBool => bs "bool" | BString => bs "string" | BChar => bs "char"
  | BI8 => bs "int8_t" | BU8 => bs "uint8_t" | BI16 => bs "int16_t" | BU16 => bs "uint16_t"
  | BI32 => bs "int32_t" | BU32 => bs "uint32_t" | BI64 => bs "int64_t" | BU64 => bs "uint64_t"
  | BF32 => bs "float" | BF64 => bs "double" | BUsize => bs "size_t" | BIsize => bs "ptrdiff_t"
  | BByte => bs "uint8_t" | BI128 => bs "__int128" | BU128 => bs "unsigned __int128"
  | BRune => bs "int32_t" | BUint => bs "unsigned int"
  | BCInt => bs "int" | BCUint => bs "unsigned int" | BCLong => bs "long" | BCUlong => bs "unsigned long"
  | BCLongLong => bs "long long" | BCUlongLong => bs "unsigned long long"
  | BCShort => bs "short" | BCUshort => bs "unsigned short" | BCChar => bs "char" | BCUchar => bs "unsigned char"
  | BInt => bs "int32_t" | BFloat => bs "float"
  | BStruct e n => if e then bs "struct " ++ n else n
  | BEnum n => n
  end.

Inductive ty :=
  | TBase (b : base)
  | TPtr (restrict : bool) (t : ty)
  | TArr (t : ty) (n : Z)                       (* size 0: a slice *)
  | TFun (raw : bool) (args : list ty) (ret : ty)
  | TConst (t : ty)
  | TAlias (t : ty).

(** strstr and strchr: the text before the first occurrence, and from it on *)
Fixpoint split_sub (pat s : bytes) : option (bytes * bytes) :=
  if is_prefix pat s then Some ([], s)
  else match s with
       | [] => None
       | c :: s => match split_sub pat s with Some (a, b) => Some (c :: a, b) | None => None end
       end.

(** printf %d *)
Fixpoint digits (fuel : nat) (n : N) : bytes :=
  match fuel with
  | 0 => []
  | S fuel => if (n <? 10)%N then [48 + n]%N else digits fuel (n / 10) ++ [48 + n mod 10]%N
  end.
Definition dec (n : Z) : bytes := digits (S (N.to_nat (N.log2 (Z.to_N n)))) (Z.to_N n).

(** ast.c:599-627 *)
Definition ptr_to (restrict : bool) (inner : bytes) : bytes :=
  match split_sub (bs "(*") inner with
  | Some (pre, rest) => pre ++ bs "(*" ++ bs "*" ++ skipn 2 rest
  | None => inner ++ (if restrict then bs "* __restrict" else bs "*")
  end.

(** ast.c:698-712: the arguments with commas *)
Fixpoint join (l : list bytes) : bytes :=
  match l with
  | [] => []
  | [a] => a
  | a :: l => a ++ bs ", " ++ join l
  end.

Fixpoint all_ok {A} (l : list (res A)) : res (list A) :=
  match l with
  | [] => Ok []
  | r :: l => do a <- r; do l <- all_ok l; Ok (a :: l)
  end.

Section Names.
  Variable zen_name : ty -> bytes.         (* type_to_string *)
  Variable is_struct : bytes -> bool.      (* find_struct_def_codegen *)

  (** ast.c:482-753; the array case (629-689) collects the sizes of nested fixed arrays and
      writes the type below them first: [parts] gives that type and the sizes. *)
  Fixpoint parts (t : ty) : res (bytes * bytes) :=
    match t with
    | TBase b => Ok (base_name b, [])
    | TPtr r t => do '(a, d) <- parts t; Ok (ptr_to r (a ++ d), [])
    | TArr t n =>
      if (n =? 0)%Z then Ok (bs "Slice_" ++ zen_name t, [])
      else if (n <? 0)%Z then UB
      else do '(a, d) <- parts t; Ok (a, bs "[" ++ dec n ++ bs "]" ++ d)
    | TFun raw args ret =>
      if raw then
        do '(a, d) <- parts ret;
        do l <- all_ok (map parts args);
        Ok (a ++ d ++ bs " (*)(" ++ join (map (fun p => fst p ++ snd p) l) ++ bs ")", [])
      else Ok (bs "z_closure_T", [])
    | TConst t =>
      do '(a, d) <- parts t;
      match d with
      | [] => Ok (bs "const " ++ a, [])
      | _ => Ok (a, d)          (* inside the loop over array sizes the flag is not looked at *)
      end
    | TAlias t => do '(a, d) <- parts t; Ok (a ++ d, [])
    end.
  (** the whole text; a const array at the top keeps its flag *)
  Definition c_string (t : ty) : res bytes :=
    match t with
    | TConst t => do '(a, d) <- parts t; Ok (bs "const " ++ a ++ d)
    | _ => do '(a, d) <- parts t; Ok (a ++ d)
    end.

  (** codegen_utils.c:44-110 *)
  Definition emit_c_decl (type_str name : bytes) : bytes :=
    let bracket := split_sub (bs "[") type_str in
    let generic := split_sub (bs "<") type_str in
    match split_sub (bs "(*") type_str with
    | Some (pre, rest) =>
      match split_sub (bs ")") rest with
      | Some (a, b) => pre ++ a ++ name ++ b
      | None => pre ++ bs "(*" ++ name ++ skipn 2 rest
      end
    | None =>
      let brk := match bracket with Some (_, b) => b | None => [] end in
      match generic with
      | Some (g, g') =>
        if match bracket with Some (b, _) => length g <? length b | None => true end then
          (match split_sub (bs ">") g' with
           | Some (ga, _) =>
             let arg := tl ga in
             let cand := g ++ bs "_" ++ arg in
             if (length g + length arg + 2 <? 256) && is_struct cand then cand ++ bs " " ++ name
             else g ++ bs " " ++ name
           | None => g ++ bs " " ++ name
           end) ++ brk
        else match bracket with
             | Some (b, r) => b ++ bs " " ++ name ++ r
             | None => type_str ++ bs " " ++ name
             end
      | None =>
        match bracket with
        | Some (b, r) => b ++ bs " " ++ name ++ r
        | None => type_str ++ bs " " ++ name
        end
      end
    end.

  (** A variable, a field or a parameter of a type *)
  Definition var_decl (t : ty) (name : bytes) : res bytes :=
    do s <- c_string t; Ok (emit_c_decl s name).

  (** codegen_utils.c:790-900 *)
  Definition func_signature (ret : ty) (name : bytes) (params : list (ty * bytes)) (varargs : bool) : res bytes :=
    do r <- c_string ret;
    do ps <- all_ok (map (fun p => var_decl (fst p) (snd p)) params);
    let args :=
      match params with
      | [] => if varargs then bs "..." else bs "void"
      | _ => join ps ++ (if varargs then bs ", ..." else [])
      end in
    match split_sub (bs "(*)") r with
    | Some (pre, rest) => Ok (pre ++ bs "(*" ++ name ++ bs "(" ++ args ++ bs ")" ++ skipn 2 rest)
    | None => Ok (r ++ bs " " ++ name ++ bs "(" ++ args ++ bs ")")
    end.

  (** codegen_decl.c:257, 273 *)
  Definition typedef (type_str alias : bytes) : bytes := bs "typedef " ++ type_str ++ bs " " ++ alias ++ bs ";".
End Names.

(** parser_type.c:887-956: [stars] suffixes and then sizes in brackets *)
Definition suffixed (t : ty) (stars : nat) (dims : list Z) : ty :=
  fold_right (fun n t => TArr t n) (Nat.iter stars (TPtr false) t) dims.
