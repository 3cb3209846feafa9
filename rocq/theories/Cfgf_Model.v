(** Model of src/utils/config.c and of the check of called functions in src/codegen/codegen.c.
    Simplified: a file is what cJSON makes of it (C97): None if it cannot be read or is no JSON, else the array under
    c_functions if there is one; the environment of the check is given by what its lookups find. *)
From Verif Require Import Common.
Local Open Scope nat_scope.

Inductive item := Str (s : bytes) | Other.
Definition config_file := option (option (list item)).
(** the list: a null pointer, or an array of strings (Some) and a null (None) *)
Definition white := option (buf (option bytes)).
(** the count, 23-32 *)
Fixpoint upto (fuel : nat) (b : buf (option bytes)) (i : nat) : res nat :=
  match fuel with 0 => Fuel | S fuel => do x <- bget b i; match x with None => Ok i | Some _ => upto fuel b (S i) end end.
Definition entries (w : white) : res nat := match w with None => Ok 0 | Some b => upto (S (length b)) b 0 end.
(** 37-46 *)
Fixpoint put (items : list item) (b : buf (option bytes)) (i : nat) : res (buf (option bytes)) :=
  match items with
  | [] => bset b i None
  | Str s :: items => do b <- bset b i (Some s); put items b (S i)
  | Other :: items => put items b i
  end.
(** append_whitelist, 8-46 *)
Definition append_whitelist (items : list item) (w : white) : res white :=
  if length items =? 0 then Ok w
  else do n <- entries w;
       let b := brealloc (match w with Some b => b | None => [] end) (n + length items + 1) in
       do b <- put items b n; Ok (Some b).
Section Files.
Variable fs : bytes -> config_file.
(** load_config_file, 48-86 *)
Definition load (path : bytes) (w : white) : res (white * bool) :=
  match fs path with
  | None => Ok (w, false)
  | Some None => Ok (w, true)
  | Some (Some items) => do w <- append_whitelist items w; Ok (w, true)
  end.
(** load_all_configs, 88-117; [root]: ZC_ROOT, [share]: ZEN_SHARE_DIR *)
Definition in_dir (d : bytes) : bytes := firstn 1023 (d ++ bs "/zenc.json").
Definition load_all (root : option bytes) (share : bytes) : res white :=
  do '(w, found) <- match root with Some r => load (in_dir r) None | None => Ok (None, false) end;
  do w <- (if found then Ok w else do '(w, _) <- load (in_dir share) w; Ok w);
  do '(w, _) <- load (bs ".zenc.json") w;
  do '(w, _) <- load (bs "zenc.json") w;
  Ok w.
End Files.

(** codegen.c 839-853 *)
Fixpoint among (fuel : nat) (b : buf (option bytes)) (i : nat) (name : bytes) : res bool :=
  match fuel with 0 => Fuel | S fuel =>
    do x <- bget b i;
    match x with None => Ok false | Some s => if beq_bytes s name then Ok true else among fuel b (S i) name end
  end.
Definition whitelisted (w : white) (name : bytes) : res bool := match w with None => Ok false | Some b => among (S (length b)) b 0 name end.
Fixpoint starts (p s : bytes) : bool := match p, s with [], _ => true | a :: p, b :: s => (a =? b)%N && starts p s | _ :: _, [] => false end.
(** strstr *)
Fixpoint contains (p s : bytes) : bool := starts p s || match s with [] => false | _ :: s => contains p s end.
Definition one_of (l : list bytes) (name : bytes) : bool := existsb (fun s => beq_bytes name s) l.
(** get_missing_function_hint, 13-32 *)
Definition hint (name : bytes) : option bytes :=
  if one_of [bs "malloc"; bs "free"; bs "calloc"; bs "realloc"] name then Some (bs "Include <stdlib.h> or use 'use std::mem'")
  else if one_of [bs "printf"; bs "scanf"; bs "fprintf"; bs "sprintf"; bs "snprintf"] name then Some (bs "Include <stdio.h> or use 'use std::io'")
  else if one_of [bs "memset"; bs "memcpy"; bs "strlen"; bs "strcpy"; bs "strcmp"; bs "strncmp"] name then Some (bs "Include <string.h>")
  else None.
(** the functions and structs declared, whether each module is a C header, the paths of the imported files, the extern symbols *)
Record ctx := Ctx { functions : list bytes; structs : list bytes; headers : list bool; imports : list bytes; externs : list bytes }.
(** the check, 780-875: the message and the hint of a warning; [named]: the call names its arguments *)
Definition check (c : ctx) (w : white) (named : bool) (name : bytes) : res (option (bytes * option bytes)) :=
  if named then Ok None
  else if one_of (functions c) name || one_of (structs c) name then Ok None
  else let interop := existsb (fun b => b) (headers c) || existsb (contains (bs "/std/")) (imports c) in
       let internal := starts (bs "_z_") name || starts (bs "_Z") name in
       do white <- whitelisted w name;
       if negb interop && negb internal && negb (one_of (externs c) name) && negb white
       then Ok (Some (firstn 255 (bs "Undefined function '" ++ name ++ bs "'"), hint name)) else Ok None.
