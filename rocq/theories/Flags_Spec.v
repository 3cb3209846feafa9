(** Flags as a user gives them. *)
From Verif Require Import Common.
Local Open Scope nat_scope.

(** A flag as it can be kept: not empty, without quotes, and with no white space but
    blanks. *)
Definition white (c : N) : Prop := In c [9; 10; 11; 12; 13]%N.
Definition clean (f : bytes) : Prop := Forall (fun c => c <> 34%N /\ ~ white c) f.
Definition flag_ok (f : bytes) : Prop := f <> [] /\ clean f /\ length f <= 4095.
(** Bytes a list of arguments takes in the buffer: quotes around a value with blanks, a
    blank between arguments, and the terminator *)
Definition has_blank (f : bytes) : Prop := In 32%N f.
Definition cost (f : bytes) : nat := length f + (if in_dec N.eq_dec 32%N f then 2 else 0).
Definition needs (costs : list nat) : nat := fold_right (fun c n => c + 1 + n) 0 costs.

(** A command-line flag: what precedes the value (like -I) and the value, if any. *)
Definition cmdline_ok (pv : bytes * option bytes) : Prop :=
  let '(p, v) := pv in
  p <> [] /\ clean p /\ ~ has_blank p /\
  length (p ++ match v with Some v => v | None => [] end) <= 4095 /\
  match v with Some v => clean v | None => True end.
Definition cmdline_cost (pv : bytes * option bytes) : nat :=
  length (fst pv) + match snd pv with Some v => cost v | None => 0 end.
Definition argument (pv : bytes * option bytes) : bytes := fst pv ++ match snd pv with Some v => v | None => [] end.

(** What the shell may be given *)
Definition shell_char (c : N) : Prop :=
  (48 <= c <= 57 \/ 65 <= c <= 90 \/ 97 <= c <= 122)%N \/ In c [45; 95; 46; 32]%N.
Definition harmless (cmd : bytes) : Prop :=
  exists libs, (cmd = bs "pkg-config --cflags " ++ libs \/ cmd = bs "pkg-config --libs " ++ libs) /\ Forall shell_char libs.

(** A source as its lines, some of which are build directives, perhaps for one operating
    system only *)
Inductive kind := KLink | KCflags | KInclude | KLib | KDefine.
Inductive sline := Code (text : bytes) | Directive (os : option bytes) (k : kind) (v : bytes).
Definition word (k : kind) : bytes :=
  match k with
  | KLink => bs "link: " | KCflags => bs "cflags: " | KInclude => bs "include: " | KLib => bs "lib: " | KDefine => bs "define: "
  end.
Definition show_line (l : sline) : bytes :=
  match l with
  | Code t => t
  | Directive None k v => bs "//> " ++ word k ++ v
  | Directive (Some os) k v => bs "//> " ++ os ++ bs ": " ++ word k ++ v
  end.
Definition source (ls : list sline) : bytes := flat_map (fun l => show_line l ++ [10%N]) ls.
(** Values have no '$', do not begin with a blank, and fit. *)
Definition value_ok (v : bytes) : Prop :=
  v <> [] /\ clean v /\ ~ In 36%N v /\ (forall r, v <> 32%N :: r) /\ length v <= 2000.
Definition line_ok (l : sline) : Prop :=
  match l with
  | Code t => ~ In 10%N t /\ ~ (exists r, t = bs "//>" ++ r)
  | Directive os _ v => value_ok v /\ match os with Some o => In o [bs "linux"; bs "windows"; bs "macos"; bs "darwin"] | None => True end
  end.
(** The arguments the C compiler must get on a system for which [here] holds *)
Definition applies (here : bytes -> bool) (os : option bytes) : bool := match os with Some o => here o | None => true end.
Definition link_args (here : bytes -> bool) (ls : list sline) : list bytes :=
  flat_map (fun l => match l with
                     | Directive os k v =>
                       if applies here os then match k with KLink => [v] | KLib => [bs "-L" ++ v] | _ => [] end else []
                     | Code _ => [] end) ls.
Definition c_args (here : bytes -> bool) (ls : list sline) : list bytes :=
  flat_map (fun l => match l with
                     | Directive os k v =>
                       if applies here os then
                         match k with KCflags => [v] | KInclude => [bs "-I" ++ v] | KDefine => [bs "-D" ++ v] | _ => [] end else []
                     | Code _ => [] end) ls.

(** A value with names of environment variables in it: plain text without '$' and ${NAME} *)
Inductive vpart := Plain (t : bytes) | Name (n : bytes).
Definition vtext (p : vpart) : bytes := match p with Plain t => t | Name n => bs "${" ++ n ++ bs "}" end.
Definition vpart_ok (p : vpart) : Prop :=
  match p with
  | Plain t => ~ In 36%N t
  | Name n => ~ In 36%N n /\ ~ In 125%N n /\ length n < 255
  end.
(** A set variable stands for its value, an unset one for itself *)
Definition vmeaning (env : bytes -> option bytes) (p : vpart) : bytes :=
  match p with
  | Plain t => t
  | Name n => match env n with Some x => x | None => vtext (Name n) end
  end.
