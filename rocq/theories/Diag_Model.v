(** Model of src/diagnostics/diagnostics.c: what the compiler and the language server do with errors and warnings.
    The source is a C string.  A token has the offset of its start in the source (None: a null pointer), its line and
    its column; numbers below 2^31.  Simplified: the messages are given as they are after vfprintf; an object of
    cJSON is kept as its members (its text is that of C97); a column of 0 is taken only for a null start. *)
From Verif Require Import Common Io_Model.
Local Open Scope nat_scope.

Record token := Tok { start : option nat; line : nat; col : nat }.
(** g_config.json_output, g_config.quiet, g_parser_ctx->is_fault_tolerant, g_parser_ctx->on_error != NULL *)
Record config := Cfg { json : bool; quiet : bool; tolerant : bool; callback : bool }.
Inductive out :=
| Text (s : bytes)
| Obj (file : bytes) (line col : nat) (level message : bytes) (suggestion : option bytes).
Record st := St { err : list out; told : list (token * bytes); warnings : nat; stopped : bool }.

(** src/utils/colors.h, 8-14 *)
Definition esc (s : bytes) : bytes := 27%N :: 91%N :: s ++ bs "m".
Definition reset : bytes := esc (bs "0").
Definition red : bytes := esc (bs "1;31").
Definition yellow : bytes := esc (bs "1;33").
Definition blue : bytes := esc (bs "1;34").
Definition cyan : bytes := esc (bs "1;36").
Definition bold : bytes := esc (bs "1").
Definition nl : bytes := [10%N].
(** vsnprintf to n bytes *)
Definition cut (n : nat) (s : bytes) : bytes := firstn (n - 1) s.
Definition dec (n : nat) : bytes := dec_int (Z.of_nat n).
(** %-3d *)
Definition pad3 (s : bytes) : bytes := s ++ repeat 32%N (3 - length s).

Section Source.
Variables (file src : bytes).

(** emit_json, 6-23 *)
Definition emit (level : bytes) (t : token) (msg : bytes) (s : option bytes) : out := Obj file (line t) (col t) level msg s.
(** 96-101, 203-212 and others *)
Definition header (colour word msg : bytes) (t : token) : bytes :=
  colour ++ word ++ reset ++ bold ++ msg ++ reset ++ nl ++ blue ++ bs "  --> " ++ reset ++ file ++ bs ":" ++ dec (line t) ++ bs ":" ++ dec (col t) ++ nl.
Fixpoint to_end (p : bytes) : bytes := match p with [] => [] | c :: r => if (c =? 10)%N then [] else c :: to_end r end.
(** the context, 107-127, 214-233 and others; the bars behind the caret are in [bar] *)
Definition context (colour : bytes) (t : token) : res bytes :=
  match start t with
  | None => UB
  | Some p =>
    if (p <? col t - 1) || (col t =? 0) then UB
    else Ok (blue ++ bs "   |" ++ nl ++ reset ++ blue ++ pad3 (dec (line t)) ++ bs "| " ++ reset ++
             firstn (col t - 1) (skipn (p - (col t - 1)) src) ++ to_end (skipn p src) ++ nl ++
             blue ++ bs "   | " ++ reset ++ repeat 32%N (col t - 1) ++ colour ++ bs "^ here" ++ reset ++ nl)
  end.
Definition bar : bytes := blue ++ bs "   |" ++ nl ++ reset.
(** if (t.start) *)
Definition context_if (colour : bytes) (t : token) (after : bytes) : res bytes :=
  match start t with None => Ok [] | Some _ => do c <- context colour t; Ok (c ++ after) end.
Definition help (word s : bytes) : bytes := blue ++ bs "   |" ++ nl ++ reset ++ cyan ++ bs "   = " ++ word ++ bs ": " ++ reset ++ s ++ nl.
Definition help_if (word : bytes) (s : option bytes) : bytes := match s with Some s => help word s | None => [] end.
Definition suggested (msg : bytes) (s : option bytes) : bytes := msg ++ bs " (Suggestion: " ++ match s with Some s => s | None => [] end ++ bs ")".

Definition say (o : out) (s : st) : st := St (err s ++ [o]) (told s) (warnings s) (stopped s).
Definition count (s : st) : st := St (err s) (told s) (S (warnings s)) (stopped s).
Definition tell (t : token) (m : bytes) (s : st) : st := St (err s) (told s ++ [(t, m)]) (warnings s) (stopped s).
Definition stop (s : st) : st := St (err s) (told s) (warnings s) true.

Section Config.
Variable c : config.
(** zwarn_at, 81-131 *)
Definition warn_at (t : token) (m : bytes) (s : st) : res st :=
  if quiet c then Ok s
  else if json c then Ok (say (emit (bs "warning") t (cut 1024 m) None) s)
  else do x <- context_if yellow t (bar ++ bar); Ok (say (Text (header yellow (bs "warning: ") m t ++ x)) (count s)).
(** zwarn_with_suggestion, 133-186 *)
Definition warn_suggest (t : token) (m : bytes) (g : option bytes) (s : st) : res st :=
  if quiet c then Ok s
  else if json c then Ok (say (emit (bs "warning") t m g) s)
  else do x <- context_if yellow t (help_if (bs "note") g); Ok (say (Text (header yellow (bs "warning: ") m t ++ x)) (count s)).
(** zpanic_at, 188-251 *)
Definition give_up (t : token) (m : bytes) (s : st) : st := if tolerant c && callback c then tell t m s else stop s.
Definition panic_at (t : token) (m : bytes) (s : st) : res st :=
  if json c then Ok (give_up t (cut 1024 m) (say (emit (bs "error") t (cut 1024 m) None) s))
  else do x <- context red t; Ok (give_up t (cut 1024 m) (say (Text (header red (bs "error: ") m t ++ x ++ bar)) s)).
(** zpanic_with_suggestion, 254-311 *)
Definition panic_suggest (t : token) (m : bytes) (g : option bytes) (s : st) : res st :=
  if json c then Ok (give_up t (cut 1024 (suggested m g)) (say (emit (bs "error") t m g) s))
  else do x <- context red t; Ok (give_up t (cut 1024 (suggested m g)) (say (Text (header red (bs "error: ") m t ++ x ++ help_if (bs "help") g)) s)).
(** the hints in a buffer of 4096, 318-330, 537-549: the bound of the first strncat is that of the whole buffer *)
Fixpoint combined (hs : list bytes) (cur : bytes) : res bytes :=
  match hs with
  | [] => Ok cur
  | h :: hs =>
    let n := match cur with [] => cur | _ => cur ++ nl end in
    if 4096 <=? length n then UB else combined hs (n ++ firstn (4096 - length n - 1) h)
  end.
(** in one of 2048, 384-394 *)
Fixpoint combined_help (hs : list bytes) (cur : bytes) : bytes :=
  match hs with
  | [] => cur
  | h :: hs => let n := cur ++ firstn (2048 - length cur - 1) (nl ++ bs "Help: ") in combined_help hs (n ++ firstn (2048 - length n - 1) h)
  end.
Definition opt (s : bytes) : option bytes := match s with [] => None | _ => Some s end.
(** strncat behind what snprintf wrote to 8192 bytes, 396-401 *)
Definition append (a b : bytes) : bytes := if length a <? 2 * 4096 then a ++ firstn (2 * 4096 - length a - 1) b else cut (2 * 4096) a.
(** zpanic_with_hints, 313-407 *)
Definition panic_hints (t : token) (m : bytes) (hs : list bytes) (s : st) : res st :=
  if json c then do h <- combined hs []; Ok (give_up t (cut (2 * 4096) (m ++ nl ++ h)) (say (emit (bs "error") t m (opt h)) s))
  else do x <- context red t;
       Ok (give_up t (append m (combined_help hs [])) (say (Text (header red (bs "error: ") m t ++ x ++ flat_map (help (bs "help")) hs)) s)).
(** zerror_at, 409-475 *)
Definition go_on (t : token) (m : bytes) (s : st) : st := if callback c then tell t m s else s.
Definition error_at (t : token) (m : bytes) (s : st) : res st :=
  if json c then Ok (go_on t (cut 1024 m) (say (emit (bs "error") t (cut 1024 m) None) s))
  else do x <- context_if red t bar; Ok (go_on t (cut 1024 m) (say (Text (header red (bs "error: ") m t ++ x)) s)).
(** zerror_with_suggestion, 477-533: the last call does not look whether there is a callback *)
Definition error_suggest (t : token) (m : bytes) (g : option bytes) (s : st) : res st :=
  if json c then Ok (go_on t (cut 1024 (suggested m g)) (say (emit (bs "error") t m g) s))
  else do x <- context_if red t (help_if (bs "help") g);
       if callback c then Ok (tell t (cut 1024 (suggested m g)) (say (Text (header red (bs "error: ") m t ++ x)) s)) else UB.
(** zerror_with_hints, 535-617 *)
Definition error_hints (t : token) (m : bytes) (hs : list bytes) (s : st) : res st :=
  do h <- combined hs [];
  if json c then Ok (go_on t (append (m ++ nl) h) (say (emit (bs "error") t m (opt h)) s))
  else do x <- context_if red t (flat_map (help (bs "help")) hs);
       Ok (go_on t (if length m <? 2 * 4096 then append (m ++ firstn (2 * 4096 - length m - 1) nl) h else cut (2 * 4096) m) (say (Text (header red (bs "error: ") m t ++ x)) s)).

(** A history of reports *)
Inductive report :=
| Warn (t : token) (m : bytes) | WarnSuggest (t : token) (m : bytes) (g : option bytes)
| Panics (t : token) (m : bytes) | PanicSuggest (t : token) (m : bytes) (g : option bytes) | PanicHints (t : token) (m : bytes) (hs : list bytes)
| Error (t : token) (m : bytes) | ErrorSuggest (t : token) (m : bytes) (g : option bytes) | ErrorHints (t : token) (m : bytes) (hs : list bytes).
Definition step (r : report) : st -> res st :=
  match r with
  | Warn t m => warn_at t m | WarnSuggest t m g => warn_suggest t m g
  | Panics t m => panic_at t m | PanicSuggest t m g => panic_suggest t m g | PanicHints t m hs => panic_hints t m hs
  | Error t m => error_at t m | ErrorSuggest t m g => error_suggest t m g | ErrorHints t m hs => error_hints t m hs
  end.
(** exit(1) ends the run *)
Fixpoint run (l : list report) (s : st) : res st :=
  match l with [] => Ok s | r :: l => if stopped s then Ok s else do s <- step r s; run l s end.
End Config.
End Source.
Definition clean : st := St [] [] 0 false.
(** lsp_on_error and lsp_check_file, src/lsp/lsp_analysis.c 37-128: line, first and last column, message *)
Definition published (l : list (token * bytes)) : list (nat * nat * nat * bytes) :=
  map (fun '(t, m) => let k := if 0 <? col t then col t - 1 else 0 in ((if 0 <? line t then line t - 1 else 0), k, k + 1, m)) l.
