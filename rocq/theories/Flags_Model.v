(** Flags for the C compiler: how they are collected, and split into arguments again
    (src/utils/utils.c, src/utils/cmd.c, src/main.c).  Texts are C strings without their
    terminator. *)
From Verif Require Import Common.
Local Open Scope nat_scope.

Definition has_space (s : bytes) : bool := existsb (N.eqb 32) s.

(** utils.c:140-174 append_flag: [dest] is the text in a buffer of [max] bytes *)
Definition append_flag (dest : bytes) (max : nat) (flag : bytes) : bytes :=
  let required := length flag + (if has_space flag then 2 else 0) + (if 0 <? length dest then 1 else 0) in
  if max <? length dest + required + 1 then dest
  else
    let quoted := if has_space flag then 34%N :: flag ++ [34%N] else flag in
    if 0 <? length dest then dest ++ 32%N :: quoted else quoted.

(** strncat(dest, src, max - cur_len - 1): the count is a size_t, so it wraps around when
    [cur_len] has reached [max].  Writing past the buffer is UB. *)
Definition size_max : N := (2 ^ 64)%N.
Definition strncat (dest : bytes) (max cur_len : nat) (src : bytes) : res bytes :=
  let n := ((N.of_nat max + size_max - N.of_nat cur_len - 1) mod size_max)%N in
  let r := dest ++ firstn (N.to_nat (N.min n (N.of_nat (length src)))) src in
  if length r <? max then Ok r else UB.

(** main.c:20-52 main_append_flag *)
Definition main_append_flag (dest : bytes) (max : nat) (prefix : bytes) (val : option bytes) : res bytes :=
  let cur_len := length dest in
  do st <- (if (0 <? cur_len) && negb (N.eqb (nth (cur_len - 1) dest 0%N) 32) then
              do d <- strncat dest max cur_len [32%N]; Ok (d, cur_len + 1)
            else Ok (dest, cur_len));
  let '(dest, cur_len) := st in
  do dest <- strncat dest max cur_len prefix;
  let cur_len := length dest in
  match val with
  | None => Ok dest
  | Some v =>
    do st <- (if has_space v then do d <- strncat dest max cur_len [34%N]; Ok (d, cur_len + 1) else Ok (dest, cur_len));
    let '(dest, cur_len) := st in
    do dest <- strncat dest max cur_len v;
    if has_space v then strncat dest max (length dest) [34%N] else Ok dest
  end.

(** main.c:195-351: the calls made for the flags of a command line *)
Fixpoint main_flags (dest : bytes) (max : nat) (l : list (bytes * option bytes)) : res bytes :=
  match l with
  | [] => Ok dest
  | (prefix, val) :: l => do d <- main_append_flag dest max prefix val; main_flags d max l
  end.

Definition isspace (c : N) : bool := ((9 <=? c) && (c <=? 13) || (c =? 32))%N.

(** cmd.c:333-356: one argument; it is cut at 4095 bytes.  Returns it and the rest. *)
Fixpoint read_arg (in_quote : bool) (room : nat) (p : bytes) : bytes * bytes :=
  match p with
  | [] => ([], [])
  | c :: r =>
    if in_quote || negb (isspace c) then
      if (c =? 34)%N then read_arg (negb in_quote) room r
      else match room with
           | S room => let '(a, q) := read_arg in_quote room r in (c :: a, q)
           | O => read_arg in_quote O r
           end
    else ([], p)
  end.
Fixpoint skip_space (p : bytes) : bytes :=
  match p with c :: r => if isspace c then skip_space r else p | [] => [] end.
(** cmd.c:314-359 arg_list_add_from_string *)
Fixpoint split_loop (fuel : nat) (p : bytes) : res (list bytes) :=
  match fuel with
  | O => Fuel
  | S fuel =>
    match skip_space p with
    | [] => Ok []
    | q => let '(a, r) := read_arg false 4095 q in
           do l <- split_loop fuel r; Ok (a :: l)
    end
  end.
Definition arg_list_add_from_string (s : bytes) : res (list bytes) := split_loop (S (length s)) s.

(** What a build directive does *)
Inductive event := EShell (cmd : bytes) | ELink (flag : bytes) | ECflag (flag : bytes) | EWarn.

Section Directives.
Variable getenv : bytes -> option bytes.
(** is_os_active (utils.c:222-246): which of the names of systems is the one compiled for *)
Variable os_active : bytes -> bool.
(** popen and fgets: the first line a command prints, if any, without its newline *)
Variable first_line : bytes -> option bytes.

Fixpoint index_of (c : N) (s : bytes) : option nat :=
  match s with [] => None | x :: r => if (x =? c)%N then Some 0 else option_map S (index_of c r) end.

(** utils.c:177-219 expand_env_vars *)
Fixpoint expand_env_vars (fuel remaining : nat) (s : bytes) : bytes :=
  match fuel, remaining, s with
  | S fuel, S rem, c :: r =>
    let plain := c :: expand_env_vars fuel rem r in
    if is_prefix [36; 123]%N s then
      match index_of 125 (skipn 2 s) with
      | Some len =>
        if len <? 255 then
          match getenv (firstn len (skipn 2 s)) with
          | Some val =>
            if length val <? remaining then val ++ expand_env_vars fuel (remaining - length val) (skipn (len + 3) s)
            else plain
          | None => plain
          end
        else plain
      | None => plain
      end
    else plain
  | _, _, _ => []
  end.

Fixpoint skip_sp (s : bytes) : bytes :=
  match s with c :: r => if (c =? 32)%N then skip_sp r else s | [] => [] end.
Definition os_name (s : bytes) : bool :=
  beq_bytes s (bs "linux") || beq_bytes s (bs "windows") || beq_bytes s (bs "macos") || beq_bytes s (bs "darwin").
(** utils.c:417-428: what pkg-config may be given *)
Definition isalnum (c : N) : bool := ((48 <=? c) && (c <=? 57) || (65 <=? c) && (c <=? 90) || (97 <=? c) && (c <=? 122))%N.
Definition safe_char (c : N) : bool := isalnum c || (c =? 45)%N || (c =? 95)%N || (c =? 32)%N || (c =? 46)%N.
(** snprintf into a buffer of [n] bytes *)
Definition snprintf (n : nat) (s : bytes) : bytes := firstn (n - 1) s.

(** utils.c:316-479: the directive itself *)
Definition run_directive (directive : bytes) : list event :=
  if is_prefix (bs "link:") directive then [ELink (skip_sp (skipn 5 directive))]
  else if is_prefix (bs "cflags:") directive then [ECflag (skip_sp (skipn 7 directive))]
  else if is_prefix (bs "include:") directive then [ECflag (snprintf 2048 (bs "-I" ++ skip_sp (skipn 8 directive)))]
  else if is_prefix (bs "lib:") directive then [ELink (snprintf 2048 (bs "-L" ++ skip_sp (skipn 4 directive)))]
  else if is_prefix (bs "framework:") directive then [ELink (snprintf 2048 (bs "-framework " ++ skip_sp (skipn 10 directive)))]
  else if is_prefix (bs "define:") directive then [ECflag (snprintf 2048 (bs "-D" ++ skip_sp (skipn 7 directive)))]
  else if is_prefix (bs "shell:") directive then [EWarn]
  else if is_prefix (bs "get:") directive then [EWarn]
  else if is_prefix (bs "pkg-config:") directive then
    let libs := skipn 11 directive in
    if forallb safe_char libs then
      let c1 := snprintf 4096 (bs "pkg-config --cflags " ++ libs) in
      let c2 := snprintf 4096 (bs "pkg-config --libs " ++ libs) in
      EShell c1 :: match first_line c1 with Some o => [ECflag o] | None => [] end ++
      EShell c2 :: match first_line c2 with Some o => [ELink o] | None => [] end
    else [EWarn]
  else [EWarn].

(** utils.c:262-314: the line after "//>" *)
Definition run_line (start : bytes) : list event :=
  let raw := firstn 2047 start in
  let raw := match rev raw with c :: t => if (c =? 13)%N then rev t else raw | [] => raw end in
  let line := expand_env_vars (S (length raw)) 2047 raw in
  match index_of 58 line with
  | Some k =>
    if os_name (firstn k line) then
      if os_active (firstn k line) then run_directive (skip_sp (skipn (k + 1) line)) else []
    else run_directive line
  | None => run_directive line
  end.

(** The bytes up to the next newline, and what follows it *)
Fixpoint cut_line (s : bytes) : bytes * bytes :=
  match s with
  | [] => ([], [])
  | c :: r => if (c =? 10)%N then ([], r) else let '(a, b) := cut_line r in (c :: a, b)
  end.
(** utils.c:248-494 scan_build_directives: each line that begins with "//>" *)
Fixpoint scan_loop (fuel : nat) (p : bytes) : res (list event) :=
  match fuel with
  | O => Fuel
  | S fuel =>
    match p with
    | [] => Ok []
    | _ =>
      let '(line, rest) := cut_line p in
      do l <- scan_loop fuel rest;
      Ok ((if is_prefix (bs "//>") line then run_line (skip_sp (skipn 3 line)) else []) ++ l)
    end
  end.
Definition scan_build_directives (src : bytes) : res (list event) := scan_loop (S (length src)) src.

(** g_link_flags and g_cflags (zprep.h:167, 1024 bytes each) after the events *)
Definition link_flags (init : bytes) (l : list event) : bytes :=
  fold_left (fun d e => match e with ELink f => append_flag d 1024 f | _ => d end) l init.
Definition c_flags (init : bytes) (l : list event) : bytes :=
  fold_left (fun d e => match e with ECflag f => append_flag d 1024 f | _ => d end) l init.
End Directives.
