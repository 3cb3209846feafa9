(** Model of the command line of the compiler: src/main.c:53-400 (reading the arguments) and
    449-541 (the further files), src/utils/cmd.c:82-160 (build_compile_arg_list) and 263-312 (the
    list of arguments).  The buffers of flags are [Flags_Model].

    POSIX only.  Texts are C strings.  A field of g_config that is 0 or 1 is modelled by a list of
    the switches that were set.  Warnings are left out.  Given: which paths exist and what they
    really are, and what importing a file imports. *)
From Verif Require Import Common Flags_Model.
Local Open Scope nat_scope.

(** zprep.h:203-220 *)
Inductive switch := Run | Check | Transpile | EmitC | Verbose | Quiet | NoZen | Freestanding | Cpp | Cuda | Objc | Json | Typecheck | Comments.
(** zprep.h:194-237, and g_link_flags *)
Record config := Cfg {
  input : option bytes; extra : list bytes; output : option bytes; on : list switch;
  gcc_flags : bytes; link : bytes; cc : bytes; defines : list bytes; includes : list bytes }.
(** 55-64 *)
Definition init : config := Cfg None [] None [] [] [] (bs "gcc") [] [].
Definition set_input f c := Cfg (Some f) (extra c) (output c) (on c) (gcc_flags c) (link c) (cc c) (defines c) (includes c).
Definition set_output o c := Cfg (input c) (extra c) (Some o) (on c) (gcc_flags c) (link c) (cc c) (defines c) (includes c).
Definition turn s c := Cfg (input c) (extra c) (output c) (s ++ on c) (gcc_flags c) (link c) (cc c) (defines c) (includes c).
(** strncpy and snprintf into cc[64] *)
Definition set_cc x c := Cfg (input c) (extra c) (output c) (on c) (gcc_flags c) (link c) (firstn 63 x) (defines c) (includes c).
Definition add_flag p v c : res config :=
  do f <- main_append_flag (gcc_flags c) 4096 p v;
  Ok (Cfg (input c) (extra c) (output c) (on c) f (link c) (cc c) (defines c) (includes c)).
Definition add_link p v c : res config :=
  do f <- main_append_flag (link c) 1024 p v;
  Ok (Cfg (input c) (extra c) (output c) (on c) (gcc_flags c) f (cc c) (defines c) (includes c)).
(** at most 64 of them *)
Definition push (l : list bytes) (x : bytes) : list bytes := if length l <? 64 then l ++ [x] else l.
Definition add_include i c := Cfg (input c) (extra c) (output c) (on c) (gcc_flags c) (link c) (cc c) (defines c) (push (includes c) i).
(** 320-333: the name is what precedes the first = *)
Fixpoint before_eq (s : bytes) : bytes :=
  match s with [] => [] | x :: r => if (x =? 61)%N then [] else x :: before_eq r end.
Definition add_define d c := Cfg (input c) (extra c) (output c) (on c) (gcc_flags c) (link c) (cc c) (push (defines c) (before_eq d)) (includes c).
(** 353-371 *)
Definition add_file f c : config :=
  match input c with
  | None => set_input f c
  | Some _ => Cfg (input c) (push (extra c) f) (output c) (on c) (gcc_flags c) (link c) (cc c) (defines c) (includes c)
  end.

(** 129-215: the words that are looked for, and what they set *)
Definition switches : list (bytes * list switch) := map (fun '(w, s) => (bs w, s))
  [("--emit-c", [EmitC]); ("--json", [Json]); ("--keep-comments", [Comments]); ("--version", []); ("-V", []); ("--paths", []);
   ("--verbose", [Verbose]); ("-v", [Verbose]); ("--quiet", [Quiet]); ("-q", [Quiet]); ("--no-zen", [NoZen]);
   ("--typecheck", [Typecheck]); ("--freestanding", [Freestanding]); ("--cpp", [Cpp]); ("--cuda", [Cuda; Cpp]);
   ("--objc", [Objc]); ("--objective-c", [Objc]); ("--check", [Check])]%string.
Fixpoint find_switch (arg : bytes) (l : list (bytes * list switch)) : option (list switch) :=
  match l with [] => None | (w, s) :: r => if beq_bytes arg w then Some s else find_switch arg r end.
(** 159-193: the C compiler some switches choose *)
Definition switch_cc (s : list switch) (c : config) : config :=
  match s with [Cpp] => set_cc (bs "g++") c | [Cuda; Cpp] => set_cc (bs "nvcc") c | _ => c end.
Definition dash (a : bytes) : bool := match a with x :: _ => (x =? 45)%N | [] => false end.

(** 125-372, the loop; [inl] is an early exit *)
Fixpoint parse (args : list bytes) (c : config) : res (Z + config) :=
  match args with
  | [] => Ok (inr c)
  | arg :: rest =>
    match find_switch arg switches with
    | Some s => parse rest (turn s (switch_cc s c))
    | None =>
    if beq_bytes arg (bs "--cc") then
      match rest with
      | [] => Ok (inr c)
      | a :: rest => parse rest (set_cc (if beq_bytes a (bs "zig") then bs "zig cc" else a) c)
      end
    else if is_prefix (bs "-o") arg then
      if 2 <? length arg then parse rest (set_output (skipn 2 arg) c)
      else match rest with [] => Ok (inl 1%Z) | a :: rest => parse rest (set_output a c) end
    else if is_prefix (bs "-I") arg then
      if 2 <? length arg then do c <- add_flag (bs "-I") (Some (skipn 2 arg)) c; parse rest (add_include (skipn 2 arg) c)
      else match rest with [] => Ok (inr c) | a :: rest => do c <- add_flag (bs "-I") (Some a) c; parse rest (add_include a c) end
    else if is_prefix (bs "-L") arg || is_prefix (bs "-l") arg then
      if 2 <? length arg then do c <- add_link (firstn 2 arg) (Some (skipn 2 arg)) c; parse rest c
      else match rest with [] => Ok (inr c) | a :: rest => do c <- add_link (firstn 2 arg) (Some a) c; parse rest c end
    else if is_prefix (bs "-O") arg then
      if 2 <? length arg then do c <- add_flag (bs "-O") (Some (skipn 2 arg)) c; parse rest c
      else match rest with [] => Ok (inr c) | a :: rest => do c <- add_flag (bs "-O") (Some a) c; parse rest c end
    else if beq_bytes arg (bs "-g") then do c <- add_flag (bs "-g") None c; parse rest c
    else if is_prefix (bs "-D") arg then
      if 2 <? length arg then do c <- add_flag (bs "-D") (Some (skipn 2 arg)) (add_define (skipn 2 arg) c); parse rest c
      else match rest with
           | [] => do c <- add_flag (bs "-D") None c; Ok (inr c)
           | a :: rest => do c <- add_flag (bs "-D") (Some a) (add_define a c); parse rest c
           end
    else if dash arg then do c <- add_flag arg None c; parse rest c
    else parse rest (add_file arg c)
    end
  end.

(** What becomes of a call *)
Inductive outcome := Usage (code : Z) | Lsp | Repl | Version | Paths | Exit (code : Z) | Start (c : config).
(** 374-387: the first of the words that ask for a message *)
Fixpoint message (args : list bytes) : option outcome :=
  match args with
  | [] => None
  | a :: r => if beq_bytes a (bs "--version") || beq_bytes a (bs "-V") then Some Version
              else if beq_bytes a (bs "--paths") then Some Paths else message r
  end.
Definition has_dot (a : bytes) : bool := existsb (N.eqb 46) a.
Definition go (args : list bytes) (c : config) : res outcome :=
  do r <- parse args c;
  match r with
  | inl code => Ok (Exit code)
  | inr c => match message args with
             | Some o => Ok o
             | None => match input c with None => Ok (Exit 1) | Some _ => Ok (Start c) end
             end
  end.
(** 66-123; [argv] without the name of the compiler *)
Definition main (argv : list bytes) : res outcome :=
  match argv with
  | [] => Ok (Usage 1)
  | w :: rest =>
    if beq_bytes w (bs "lsp") then Ok Lsp
    else if beq_bytes w (bs "repl") then Ok Repl
    else if beq_bytes w (bs "transpile") then go rest (turn [Transpile; EmitC] init)
    else if beq_bytes w (bs "run") then go rest (turn [Run] init)
    else if beq_bytes w (bs "check") then go rest (turn [Check] init)
    else if beq_bytes w (bs "build") then go rest init
    else if beq_bytes w (bs "--help") || beq_bytes w (bs "-h") then Ok (Usage 0)
    else if has_dot w then go rest (set_input w init)
    else if dash w then go argv init
    else go rest init
  end.

(** compat.h:6-20 ZC_IS_BACKEND_EXT of strrchr(path, '.') *)
Definition backend_exts : list bytes := map bs [".c"; ".cpp"; ".m"; ".mm"; ".o"; ".a"; ".dylib"; ".so"]%string.
Fixpoint last_dot (s : bytes) : option bytes :=
  match s with
  | [] => None
  | x :: r => match last_dot r with Some t => Some t | None => if (x =? 46)%N then Some s else None end
  end.
Definition backend (p : bytes) : bool :=
  match last_dot p with Some e => existsb (beq_bytes e) backend_exts | None => false end.

Section Files.
(** realpath; a file that cannot be found keeps its name (459-461) *)
Variable real : bytes -> bytes.
(** the real paths that are marked while a file is parsed *)
Variable imports : bytes -> list bytes.
(** 449-541: the further files: those for the C compiler, and those that are parsed *)
Fixpoint further (fs : list bytes) (marked cs ps : list bytes) : list bytes * list bytes :=
  match fs with
  | [] => (cs, ps)
  | f :: fs =>
    if backend (real f) then further fs marked (push cs (real f)) ps
    else if existsb (beq_bytes (real f)) marked then further fs marked cs ps
    else further fs (imports (real f) ++ real f :: marked) cs (ps ++ [real f])
  end.
(** 418-447: the primary file is parsed and then marked *)
Definition all_files (first : bytes) (fs : list bytes) : list bytes * list bytes :=
  match fs with [] => ([], []) | _ => further fs (real first :: imports first) [] [] end.
End Files.

(** cmd.c:256-276: the array of arguments and its capacity; the element after the last one is NULL *)
Record arglist := AL { args : list bytes; cap : nat }.
Definition arg_list_init : arglist := AL [] 32.
Definition arg_list_add (l : arglist) (a : bytes) : res arglist :=
  let n := length (args l) in
  let cap := if cap l <=? n + 1 then cap l * 2 else cap l in
  if n + 1 <? cap then Ok (AL (args l ++ [a]) cap) else UB.
Fixpoint add_all (l : arglist) (xs : list bytes) : res arglist :=
  match xs with [] => Ok l | x :: xs => do l <- arg_list_add l x; add_all l xs end.
Definition add_string (l : arglist) (s : bytes) : res arglist :=
  do xs <- arg_list_add_from_string s; add_all l xs.
Definition flag (s : switch) (c : config) : bool :=
  existsb (fun t => match s, t with
    | Run, Run | Check, Check | Transpile, Transpile | EmitC, EmitC | Verbose, Verbose | Quiet, Quiet | NoZen, NoZen
    | Freestanding, Freestanding | Cpp, Cpp | Cuda, Cuda | Objc, Objc | Json, Json | Typecheck, Typecheck | Comments, Comments => true
    | _, _ => false end) (on c).
(** cmd.c:131-159: the arguments for the standard library (nothing is cut: 8192 + 20 bytes are less than 9000).  [exe] is what z_get_executable_path gives,
    on Linux the name of the executable file (os.c:128-145), [there] says which paths exist *)
Definition std_args (exe : bytes) (there : bytes -> bool) : list bytes * list bytes :=
  let tre := bs "/std/third-party/tre/include" in
  if there (exe ++ bs "/std") then ([bs "-I" ++ exe], [bs "-I" ++ exe ++ tre])
  else if there (exe ++ bs "/../share/zenc/std") then
    ([bs "-I" ++ exe ++ bs "/../share/zenc"], [bs "-I" ++ exe ++ bs "/../share/zenc" ++ tre])
  else ([bs "-I."], [bs "-I." ++ tre]).
(** cmd.c:82-160 build_compile_arg_list: [cflags] and [links] are g_cflags and g_link_flags after the
    build directives *)
Definition compile_args (c : config) (cflags links : bytes) (async : bool) (exe : bytes) (there : bytes -> bool)
    (outfile temp : bytes) (cfiles : list bytes) : res arglist :=
  do l <- add_string arg_list_init (cc c);
  do l <- add_string l (gcc_flags c);
  do l <- add_string l cflags;
  do l <- add_all l (if flag Freestanding c then [bs "-ffreestanding"] else []);
  do l <- add_all l (if flag Quiet c then [bs "-w"] else []);
  do l <- add_all l [bs "-o"; outfile; temp];
  do l <- add_all l cfiles;
  do l <- add_all l (if flag Freestanding c then [] else bs "-lm" :: if async then [bs "-lpthread"] else []);
  do l <- add_string l links;
  do l <- add_all l (fst (std_args exe there));
  add_all l (if flag Freestanding c then [] else snd (std_args exe there)).
