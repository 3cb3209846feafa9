(** A command line as a user writes it, and what it asks for. *)
From Verif Require Import Common Flags_Spec Cmdline_Model.
Local Open Scope nat_scope.

(** An option; a value may be joined to its letter or be the next word. *)
Inductive item :=
| ISwitch (w : bytes) | ICc (name : bytes) | IOutput (joined : bool) (name : bytes) | IInclude (joined : bool) (dir : bytes)
| ILib (joined : bool) (letter : N) (name : bytes) | IOpt (joined : bool) (level : bytes) | IDefine (joined : bool) (def : bytes)
| IPass (flag : bytes) | IFile (name : bytes).
Definition put (j : bool) (letter v : bytes) : list bytes := if j then [letter ++ v] else [letter; v].
Definition show (i : item) : list bytes :=
  match i with
  | ISwitch w => [w] | ICc n => [bs "--cc"; n] | IOutput j n => put j (bs "-o") n | IInclude j d => put j (bs "-I") d
  | ILib j k n => put j [45%N; k] n | IOpt j l => put j (bs "-O") l | IDefine j d => put j (bs "-D") d
  | IPass f => [f] | IFile f => [f]
  end.

(** The switches, by their names *)
Definition names (s : switch) : list bytes := map bs match s with
  | EmitC => ["--emit-c"] | Json => ["--json"] | Comments => ["--keep-comments"] | Verbose => ["--verbose"; "-v"]
  | Quiet => ["--quiet"; "-q"] | NoZen => ["--no-zen"] | Typecheck => ["--typecheck"] | Freestanding => ["--freestanding"]
  | Cpp => ["--cpp"; "--cuda"] | Cuda => ["--cuda"] | Objc => ["--objc"; "--objective-c"] | Check => ["--check"]
  | Run => [] | Transpile => [] end%string.
Definition messages : list bytes := map bs ["--version"; "-V"; "--paths"]%string.
Definition is_switch (w : bytes) : Prop := exists s, In w (names s).
Definition value_ok (j : bool) (v : bytes) : Prop := j = true -> v <> [].
Definition item_ok (i : item) : Prop :=
  match i with
  | ISwitch w => is_switch w
  | ICc n => length n <= 63
  | IOutput j v | IInclude j v | IOpt j v | IDefine j v => value_ok j v
  | ILib j k v => value_ok j v /\ (k = 76 \/ k = 108)%N
  | IPass f => (exists r, f = 45%N :: r) /\ ~ is_switch f /\ ~ In f messages /\ f <> bs "--cc" /\
               forall k r, f = 45%N :: k :: r -> ~ In k (bs "oILlOD")
  | IFile f => ~ exists r, f = 45%N :: r
  end.

(** What it asks for *)
Definition files (l : list item) : list bytes := flat_map (fun i => match i with IFile f => [f] | _ => [] end) l.
Definition outputs (l : list item) : list bytes := flat_map (fun i => match i with IOutput _ n => [n] | _ => [] end) l.
Definition dirs (l : list item) : list bytes := flat_map (fun i => match i with IInclude _ d => [d] | _ => [] end) l.
Definition macros (l : list item) : list bytes := flat_map (fun i => match i with IDefine _ d => [d] | _ => [] end) l.
(** [d] is NAME or NAME=TEXT *)
Definition defines_name (d n : bytes) : Prop := ~ In 61%N n /\ (d = n \/ exists t, d = n ++ 61%N :: t).
Definition compilers (l : list item) : list bytes :=
  flat_map (fun i => match i with
    | ICc n => [if beq_bytes n (bs "zig") then bs "zig cc" else n]
    | ISwitch w => if beq_bytes w (bs "--cpp") then [bs "g++"] else if beq_bytes w (bs "--cuda") then [bs "nvcc"] else []
    | _ => [] end) l.
(** the flags for the C compiler, and those for linking *)
Definition c_pairs (l : list item) : list (bytes * option bytes) :=
  flat_map (fun i => match i with
    | IInclude _ d => [(bs "-I", Some d)] | IOpt _ v => [(bs "-O", Some v)] | IDefine _ d => [(bs "-D", Some d)]
    | IPass f => [(f, None)] | _ => [] end) l.
Definition link_pairs (l : list item) : list (bytes * option bytes) :=
  flat_map (fun i => match i with ILib _ k n => [([45%N; k], Some n)] | _ => [] end) l.
Definition fits (l : list item) : Prop :=
  Forall cmdline_ok (c_pairs l) /\ needs (map cmdline_cost (c_pairs l)) <= 4096 /\
  Forall cmdline_ok (link_pairs l) /\ needs (map cmdline_cost (link_pairs l)) <= 1024.
Definition quiet_line (l : list item) : Prop := forall w, In w (flat_map show l) -> ~ In w messages.

(** The commands that compile, and the switches they stand for *)
Definition command (w : bytes) (s : list switch) : Prop :=
  w = bs "build" /\ s = [] \/ w = bs "run" /\ s = [Run] \/ w = bs "check" /\ s = [Check] \/ w = bs "transpile" /\ s = [Transpile; EmitC].
Definition last_of (l : list bytes) : option bytes := match rev l with x :: _ => Some x | [] => None end.
(** some of them, in the same order *)
Inductive subseq : list bytes -> list bytes -> Prop :=
| sub_nil : subseq [] [] | sub_skip x a b : subseq a b -> subseq a (x :: b) | sub_keep x a b : subseq a b -> subseq (x :: a) (x :: b).
