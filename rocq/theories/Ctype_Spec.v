(** What a C declaration says. *)
From Verif Require Import Common Ctype_Model.
Local Open Scope nat_scope.

(** The tokens of a C declaration: words and symbols; blanks only separate. *)
Inductive ctok := W (w : bytes) | S_ (c : N).
Definition word_char (c : N) : bool :=
  ((48 <=? c) && (c <=? 57) || (65 <=? c) && (c <=? 90) || (97 <=? c) && (c <=? 122) || (c =? 95))%N.
Definition flush (w : bytes) : list ctok := match w with [] => [] | _ => [W w] end.
Fixpoint lex (w : bytes) (s : bytes) : list ctok :=
  match s with
  | [] => flush w
  | c :: s =>
    if word_char c then lex (w ++ [c]) s
    else flush w ++ (if (c =? 32)%N then lex [] s else S_ c :: lex [] s)
  end.
Definition toks (s : bytes) : list ctok := lex [] s.

(** An identifier: not empty, letters, digits and underscores. *)
Definition ident (s : bytes) : Prop := s <> [] /\ forallb word_char s = true.

Definition star : list ctok := [S_ 42%N].
Definition paren (l : list ctok) : list ctok := S_ 40%N :: l ++ [S_ 41%N].
Definition brackets (l : list ctok) : list ctok := S_ 91%N :: l ++ [S_ 93%N].
Fixpoint commas (l : list (list ctok)) : list ctok :=
  match l with
  | [] => []
  | [a] => a
  | a :: l => a ++ S_ 44%N :: commas l
  end.

(** A declarator that points to a fixed array needs parentheses. *)
Fixpoint fixed (t : ty) : bool :=
  match t with TArr _ n => negb (n =? 0)%Z | TConst t | TAlias t => fixed t | _ => false end.

Section Names.
  Variable zen_name : ty -> bytes.

  (** The declaration of [d] with a type, as C is read: [d] is built from the inside out, a
      pointer puts a star before it, an array its size behind it, a function pointer a
      star before it and the parameters behind. *)
  Fixpoint cdecl (t : ty) (d : list ctok) : list ctok :=
    match t with
    | TBase b => toks (base_name b) ++ d
    | TPtr r t =>
      let d := star ++ (if r then [W (bs "__restrict")] else []) ++ d in
      cdecl t (if fixed t then paren d else d)
    | TArr t n =>
      if (n =? 0)%Z then W (bs "Slice_" ++ zen_name t) :: d
      else cdecl t (d ++ brackets [W (dec n)])
    | TFun raw args ret =>
      if raw then cdecl ret (paren (star ++ d) ++ paren (commas (map (fun a => cdecl a []) args)))
      else W (bs "z_closure_T") :: d
    | TConst t => W (bs "const") :: cdecl t d
    | TAlias t => cdecl t d
    end.

  (** A declaration of a function. *)
  Definition cfun (ret : ty) (name : bytes) (params : list (ty * bytes)) (varargs : bool) : list ctok :=
    let ps := commas (map (fun p => cdecl (fst p) (flush (snd p))) params) in
    let dots := [S_ 46%N; S_ 46%N; S_ 46%N] in
    cdecl ret (W name :: paren (
      match params with
      | [] => if varargs then dots else [W (bs "void")]
      | _ => ps ++ (if varargs then S_ 44%N :: dots else [])
      end)).

  (** Types without fixed arrays and raw function pointers below pointers. *)
  Inductive plain : ty -> Prop :=
  | plain_base b : (match b with BStruct _ n | BEnum n => ident n | _ => True end) -> plain (TBase b)
  | plain_ptr r t : plain t -> plain (TPtr r t)
  | plain_slice t : ident (zen_name t) -> plain (TArr t 0)
  | plain_closure args ret : plain (TFun false args ret)
  | plain_alias t : plain t -> plain (TAlias t).

  (** Fixed arrays of them, in any number of dimensions. *)
  Inductive arrays : ty -> Prop :=
  | arrays_plain t : plain t -> arrays t
  | arrays_cons t n : (0 < n)%Z -> arrays t -> arrays (TArr t n).

  (** Function pointers that return a plain type, and pointers to function pointers. *)
  Inductive usual : ty -> Prop :=
  | usual_arrays t : arrays t -> usual t
  | usual_fn t : fnptr t -> usual t
  with fnptr : ty -> Prop :=
  | fnptr_fn args ret : plain ret -> all_usual args -> fnptr (TFun true args ret)
  | fnptr_ptr t : fnptr t -> fnptr (TPtr false t)
  with all_usual : list ty -> Prop :=
  | all_nil : all_usual []
  | all_cons t l : usual t -> all_usual l -> all_usual (t :: l).
End Names.
