(** Model of reading input into variables: readln(x, y) and ? "prompt" (x, y); README.md 722-736,
    src/parser/parser_expr.c 2845-2945 and 4632-4742 (the format made from the types of the
    variables), src/codegen/codegen_decl.c 178-201 (the function that reads) and ISO C 7.21.6.2
    (sscanf, as far as the formats made need it).
    Simplified: the printing of the prompt is that of C69; variables are plain variables of a
    built-in type (an enumeration is left out); characters are bytes in the C locale; how the
    text of a floating-point number is read is a parameter; memory allocation succeeds. *)
From Verif Require Import Common String_Model Readln_Model.
Local Open Scope Z_scope.

(** ast.h 29-77: kinds of types a variable to be read can have *)
Inductive kind := KInt | KI32 | KBool | KF64 | KF32 | KFloat | KString | KChar | KI8 | KU8 | KByte
  | KU32 | KUint | KRune | KI16 | KU16 | KI64 | KU64 | KUsize | KIsize | KI128 | KU128.
(** the two places of the parser that make a format: readln(...) and ? "..." (...) *)
Inductive form := Readln | Prompt.

(** parser_expr.c 2893-2924 and 4667-4698; [None]: the type is not known *)
Definition spec_of (f : form) (k : option kind) : bytes :=
  match k with
  | None => bs "%d"
  | Some k =>
    match k with
    | KInt | KI32 | KBool => bs "%d"
    | KF64 => bs "%lf"
    | KF32 | KFloat => bs "%f"
    | KString => match f with Readln => bs "%s" | Prompt => bs "%ms" end
    | KChar | KI8 | KU8 | KByte => bs " %c"
    | _ => bs "%d"
    end
  end.
(** strcat to fmt[256] *)
Definition strcat256 (fmt s : bytes) : res bytes :=
  if (length fmt + length s <? 256)%nat then Ok (fmt ++ s) else UB.
(** parser_expr.c 2883-2929, 4657-4703 *)
Fixpoint make_format (f : form) (ks : list (option kind)) (fmt : bytes) : res bytes :=
  match ks with
  | [] => Ok fmt
  | k :: ks =>
    do fmt <- strcat256 fmt (spec_of f k);
    do fmt <- match ks with [] => Ok fmt | _ => strcat256 fmt (bs " ") end;
    make_format f ks fmt
  end.

Section Scan.
(** floating-point numbers, and the number at the start of a text with what follows it *)
Variable F : Type.
Variable strtod : bytes -> option (F * bytes).

Inductive value := VInt (z : Z) | VFloat (x : F) | VText (s : option bytes).
Record var := mkvar { v_kind : kind; v_known : bool; v_val : value }.
(** the type info the parser has *)
Definition info (v : var) : option kind := if v_known v then Some (v_kind v) else None.

(** isspace *)
Definition is_blank (c : N) : bool := ((c =? 32) || (9 <=? c) && (c <=? 13))%N.
Fixpoint skip (t : bytes) : bytes := match t with c :: t' => if is_blank c then skip t' else t | [] => [] end.
Definition is_dig (c : N) : bool := ((48 <=? c) && (c <=? 57))%N.
Fixpoint take_digits (t : bytes) (acc : Z) : Z * bytes :=
  match t with c :: t' => if is_dig c then take_digits t' (acc * 10 + (Z.of_N c - 48)) else (acc, t) | [] => (acc, []) end.
(** the integer at the start of a text *)
Definition take_int (t : bytes) : option (Z * bytes) :=
  let '(neg, t) := match t with c :: t' => if (c =? 45)%N then (true, t') else if (c =? 43)%N then (false, t') else (false, t) | [] => (false, []) end in
  match t with
  | c :: _ => if is_dig c then let '(v, r) := take_digits t 0 in Some ((if neg then - v else v), r) else None
  | [] => None
  end.
Fixpoint take_word (t : bytes) : bytes * bytes :=
  match t with c :: t' => if is_blank c then ([], t) else let '(w, r) := take_word t' in (c :: w, r) | [] => ([], []) end.

(** 7.21.6.2p10: the object pointed at must have the type of the conversion and hold the result.
    int32_t is int; uint32_t takes the same bits; types of ast.c 508-585. *)
Definition store_int (k : kind) (z : Z) : res value :=
  if (z <? -2147483648) || (2147483647 <? z) then UB
  else match k with
  | KInt | KI32 | KRune => Ok (VInt z)
  | KU32 | KUint => Ok (VInt (z mod 4294967296))
  | _ => UB
  end.
Definition store_char (k : kind) (c : N) : res value :=
  match k with
  | KChar | KI8 => Ok (VInt (if (c <? 128)%N then Z.of_N c else Z.of_N c - 256))
  | KU8 | KByte => Ok (VInt (Z.of_N c))
  | _ => UB
  end.
Definition store_float (double : bool) (k : kind) (x : F) : res value :=
  match k with
  | KF64 => if double then Ok (VFloat x) else UB
  | KF32 | KFloat => if double then UB else Ok (VFloat x)
  | _ => UB
  end.
(** %s needs a char array and is given the address of a pointer; %ms allocates *)
Definition store_text (alloc : bool) (k : kind) (w : bytes) : res value :=
  match k with KString => if alloc then Ok (VText (Some w)) else UB | _ => UB end.

(** What a conversion finds: the end of the text, no match, or a value to store and the rest. *)
Inductive found := End | NoMatch | Found (s : kind -> res value) (rest : bytes).
Definition conv_int (t : bytes) : found :=
  match skip t with [] => End | t => match take_int t with Some (z, r) => Found (fun k => store_int k z) r | None => NoMatch end end.
Definition conv_float (double : bool) (t : bytes) : found :=
  match skip t with [] => End | t => match strtod t with Some (x, r) => Found (fun k => store_float double k x) r | None => NoMatch end end.
Definition conv_text (alloc : bool) (t : bytes) : found :=
  match skip t with [] => End | t => let '(w, r) := take_word t in Found (fun k => store_text alloc k w) r end.
Definition conv_char (t : bytes) : found :=
  match t with [] => End | c :: r => Found (fun k => store_char k c) r end.

(** the conversion at the start of a format, behind its percent sign *)
Definition conversion (fmt : bytes) : option ((bytes -> found) * nat) :=
  if is_prefix (bs "d") fmt then Some (conv_int, 1%nat)
  else if is_prefix (bs "lf") fmt then Some (conv_float true, 2%nat)
  else if is_prefix (bs "f") fmt then Some (conv_float false, 1%nat)
  else if is_prefix (bs "s") fmt then Some (conv_text false, 1%nat)
  else if is_prefix (bs "ms") fmt then Some (conv_text true, 2%nat)
  else if is_prefix (bs "c") fmt then Some (conv_char, 1%nat)
  else None.

(** 7.21.6.2: sscanf; [n] conversions were stored already.  Result: the variables and the count.
    [drop] characters of the format belong to the conversion before. *)
Fixpoint sscanf (fmt : bytes) (drop : nat) (t : bytes) (vars : list var) (n : Z) : res (list var * Z) :=
  match fmt with
  | [] => Ok (vars, n)
  | c :: fmt' =>
    match drop with
    | S d => sscanf fmt' d t vars n
    | O =>
      if is_blank c then sscanf fmt' O (skip t) vars n
      else if (c =? 37)%N then
        match conversion fmt' with
        | None => UB
        | Some (conv, len) =>
          match conv t with
          | End => Ok (vars, if n =? 0 then -1 else n)
          | NoMatch => Ok (vars, n)
          | Found st rest =>
            match vars with
            | [] => UB
            | v :: vars =>
              do x <- st (v_kind v);
              do '(vs, m) <- sscanf fmt' len rest vars (n + 1);
              Ok (mkvar (v_kind v) (v_known v) x :: vs, m)
            end
          end
        end
      else UB
    end
  end.

(** The whole: args[16] of parser_expr.c 2848, 4634; the call made; _z_scan_helper, codegen_decl.c
    195-200; _z_readln_raw, 181-193, is the same text as readln of std/io.zc.
    Result: variables, the value of the call, the input left. *)
Definition scan (f : form) (vars : list var) (inp : bytes) : res (list var * Z * bytes) :=
  if (16 <? length vars)%nat then UB else
  do fmt <- make_format f (map info vars) [];
  do '(o, rest) <- readln inp;
  match o with
  | None => Ok (vars, 0, rest)
  | Some line => do t <- cread line; do '(vs, n) <- sscanf fmt O t vars 0; Ok (vs, n, rest)
  end.
End Scan.
Arguments VInt {F} z.
Arguments VFloat {F} x.
Arguments VText {F} s.
Arguments mkvar {F} v_kind v_known v_val.
Arguments v_kind {F} v.
Arguments v_known {F} v.
Arguments v_val {F} v.
Arguments info {F} v.
Arguments scan {F} strtod f vars inp.
Arguments sscanf {F} strtod fmt drop t vars n.
