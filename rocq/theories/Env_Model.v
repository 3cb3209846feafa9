(** Model of std/env.zc:22-60 (Env: get, get_dup, set, unset), std/sys/env.zc:7-33 (the POSIX
    side) and std/time.zc:14-22, 34-44, 57-68 (Time::now, Duration, sleep, sleep_ms).

    The environment of the process is the list of "NAME=VALUE" strings environ points to, and
    getenv, setenv and unsetenv work on it as the GNU C library's do: the first entry that
    starts with the name and an equals sign.  setenv and unsetenv refuse an empty name and a
    name with an equals sign, and setenv fails when there is no memory (the answer is given
    with the call).  Strings are lists of bytes without NUL.  A pointer returned by getenv
    points into an entry: it is modelled as the name and the number of changes made to the
    environment so far; POSIX lets a later change invalidate it.  Not modelled: Windows. *)
From Verif Require Import Common.
Local Open Scope Z_scope.

Definition environ : Type := list bytes.
Definition entry (name value : bytes) : bytes := name ++ 61%N :: value.
(** getenv *)
Definition lookup (name : bytes) (e : bytes) : option bytes :=
  if is_prefix (name ++ [61%N]) e then Some (skipn (length name + 1) e) else None.
Fixpoint getenv (env : environ) (name : bytes) : option bytes :=
  match env with
  | [] => None
  | e :: env' => match lookup name e with Some v => Some v | None => getenv env' name end
  end.
Definition bad_name (name : bytes) : bool := match name with [] => true | _ => existsb (N.eqb 61) name end.
(** setenv with overwrite: replaces the first entry of that name or adds one *)
Fixpoint replace (env : environ) (name value : bytes) : environ :=
  match env with
  | [] => [entry name value]
  | e :: env' => if lookup name e then entry name value :: env' else e :: replace env' name value
  end.
Definition setenv (env : environ) (nomem : bool) (name value : bytes) : environ * Z :=
  if bad_name name || nomem then (env, -1) else (replace env name value, 0).
(** unsetenv: removes every entry of that name *)
Definition unsetenv (env : environ) (name : bytes) : environ * Z :=
  if bad_name name then (env, -1) else (filter (fun e => if lookup name e then false else true) env, 0).

Record state := St { st_env : environ; st_changes : nat }.
Inductive result := ROk | RErr | RNone | RString (s : bytes) | RPtr (name : bytes) (at_change : nat).
Inductive op := Get (name : bytes) | GetDup (name : bytes) | Set_ (name value : bytes) (nomem : bool) | Unset (name : bytes).
Definition step (st : state) (o : op) : state * result :=
  match o with
  | Get n =>                                                            (* env.zc:23-30 *)
    (st, match getenv (st_env st) n with None => RNone | Some _ => RPtr n (st_changes st) end)
  | GetDup n =>                                                         (* 32-43: String::from copies *)
    (st, match getenv (st_env st) n with None => RNone | Some v => RString v end)
  | Set_ n v m =>                                                       (* 45-49 *)
    let '(e, r) := setenv (st_env st) m n v in
    (St e (if r =? 0 then S (st_changes st) else st_changes st), if r =? 0 then ROk else RErr)
  | Unset n =>                                                          (* 51-55 *)
    let '(e, r) := unsetenv (st_env st) n in
    (St e (if r =? 0 then S (st_changes st) else st_changes st), if r =? 0 then ROk else RErr)
  end.
Fixpoint run (st : state) (l : list op) : state * list result :=
  match l with [] => (st, []) | o :: l' => let '(st, r) := step st o in let '(st, rs) := run st l' in (st, r :: rs) end.
(** Reading through the pointer Env::get returned: defined while nothing has changed *)
Definition deref (st : state) (r : result) : res bytes :=
  match r with
  | RPtr n k => if (k =? st_changes st)%nat then match getenv (st_env st) n with Some v => Ok v | None => UB end else UB
  | RString s => Ok s
  | _ => UB
  end.

(** ** Time *)
Definition u64 (z : Z) : Z := z mod 2 ^ 64.
Definition u32 (z : Z) : Z := z mod 2 ^ 32.
(** time.zc:14-18 *)
Definition now (sec usec : Z) : Z := u64 (u64 (u64 sec * 1000) + u64 usec / 1000).
(** 36-43 *)
Definition from_ms (ms : Z) : Z := ms.
Definition from_secs (s : Z) : Z := u64 (s * 1000).
(** 61-68: the argument of usleep, in microseconds *)
Definition sleep (millis : Z) : Z := u32 (u64 (millis * 1000)).
