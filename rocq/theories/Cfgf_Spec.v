(** Which functions a program may call without a warning. *)
From Verif Require Import Common Cfgf_Model.
Local Open Scope nat_scope.

(** The names a file lists *)
Definition strings (items : list item) : list bytes := flat_map (fun i => match i with Str s => [s] | Other => [] end) items.
Definition names (f : config_file) : list bytes := match f with Some (Some items) => strings items | _ => [] end.
(** The file of the system: that of ZC_ROOT if it can be read, else the installed one *)
Definition system (fs : bytes -> config_file) (root : option bytes) (share : bytes) : config_file :=
  match root with
  | Some r => match fs (r ++ bs "/zenc.json") with Some f => Some f | None => fs (share ++ bs "/zenc.json") end
  | None => fs (share ++ bs "/zenc.json")
  end.
Definition listed (fs : bytes -> config_file) (root : option bytes) (share : bytes) : list bytes :=
  names (system fs root share) ++ names (fs (bs ".zenc.json")) ++ names (fs (bs "zenc.json")).
Definition short (d : bytes) : Prop := length d <= 1013.
(** Known to the program, to C, or to the compiler *)
Definition has_part (p s : bytes) : Prop := exists a b, s = a ++ p ++ b.
Definition known (c : ctx) (name : bytes) : Prop :=
  In name (functions c) \/ In name (structs c) \/ In name (externs c) \/ In true (headers c) \/ (exists f, In f (imports c) /\ has_part (bs "/std/") f) \/
  (exists s, name = bs "_z_" ++ s) \/ (exists s, name = bs "_Z" ++ s).
(** The headers of the functions of C it knows *)
Definition headers_of : list (list bytes * bytes) :=
  [([bs "malloc"; bs "free"; bs "calloc"; bs "realloc"], bs "Include <stdlib.h> or use 'use std::mem'");
   ([bs "printf"; bs "scanf"; bs "fprintf"; bs "sprintf"; bs "snprintf"], bs "Include <stdio.h> or use 'use std::io'");
   ([bs "memset"; bs "memcpy"; bs "strlen"; bs "strcpy"; bs "strcmp"; bs "strncmp"], bs "Include <string.h>")].
