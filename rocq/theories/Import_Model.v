(** Model of imports: parse_import (parser_stmt.c:3511-3893), the list of imported files
    (parser_utils.c:3369-3389), modules and selective imports (parser_utils.c:1128-1208) and the
    loop over the definitions of a file (parser_core.c, parse_program_nodes: 697, 872-948).

    Simplifications: a file is the list of its definitions and imports; definitions are names
    with a @cfg condition and a number for their other attributes; no plugins, C headers,
    automatic imports of the library, LSP mode and Windows paths; a realpath that fails keeps the
    path, as a file that cannot be read does. *)
From Verif Require Import Common.
Local Open Scope nat_scope.

(** import {x, y as z} from "path"; import "path" as alias *)
Record imp := { sel : option (list (bytes * option bytes)); alias : option bytes; path : bytes }.
Inductive what := Def (n : bytes) | Imp (i : imp).
Record item := { cfg : option bytes; attrs : nat; it : what }.
(** A definition in the program: the file it was read from (none for the file on the
    command line), its name with the prefix of its module, and its attributes *)
Record node := { nfile : option bytes; nprefix : option bytes; nname : bytes; ncfg : option bytes; nattrs : nat }.
Record st := { imported : list bytes; modules : list (bytes * bytes); selective : list (bytes * option bytes * bytes) }.

(** strrchr: what comes before and after the last c *)
Fixpoint split_last (c : N) (l : bytes) : option (bytes * bytes) :=
  match l with
  | [] => None
  | x :: l =>
    match split_last c l with
    | Some (a, b) => Some (x :: a, b)
    | None => if (x =? c)%N then Some ([], l) else None
    end
  end.
Definition alnum (c : N) : bool :=
  ((48 <=? c) && (c <=? 57) || (65 <=? c) && (c <=? 90) || (97 <=? c) && (c <=? 122))%N.
Definition after_last (c : N) (l : bytes) : bytes := match split_last c l with Some (_, b) => b | None => l end.
(** extract_module_name, parser_utils.c:1181-1208 *)
Definition module_name (p : bytes) : bytes :=
  let base := after_last (ch "\") (after_last (ch "/") p) in
  let stem := match split_last (ch ".") base with Some (a, _) => a | None => base end in
  map (fun c => if alnum c then c else ch "_") stem.

Section files.
(** The file system: access(p, R_OK), realpath and what a file contains *)
Variable access : bytes -> bool.
Variable real : bytes -> bytes.
Variable content : bytes -> option (list item).
(** -I and $ZC_ROOT, /usr/local/share/zenc, /usr/share/zenc *)
Variable search_dirs : list bytes.

Definition is_abs (p : bytes) : bool := is_prefix (bs "/") p.
Definition is_explicit (p : bytes) : bool := is_prefix (bs "./") p || is_prefix (bs "../") p.
Fixpoint search (dirs : list bytes) (fn : bytes) : bytes :=
  match dirs with
  | [] => fn
  | d :: dirs =>
    let p := d ++ bs "/" ++ fn in
    if (length p <? 1024) && access p then p else search dirs fn
  end.
(** parser_stmt.c:3658-3745 *)
Definition resolve (cur fn : bytes) : bytes :=
  let fn1 :=
    if is_abs fn then fn else
    match split_last (ch "/") cur with
    | Some (d, _) => let r := firstn 1023 (d ++ bs "/" ++ fn) in if is_explicit fn || access r then r else fn
    | None => fn
    end in
  let fn2 := if access fn1 then fn1 else search search_dirs fn1 in
  if access fn2 then real fn2 else fn2.

Definition is_imported (f : bytes) (s : st) : bool := existsb (beq_bytes f) (imported s).
Definition mark (f : bytes) (s : st) : st :=
  {| imported := f :: imported s; modules := modules s; selective := selective s |}.
Definition register (f : bytes) (i : imp) (s : st) : st :=
  {| imported := imported s;
     modules := match sel i, alias i with None, Some a => (a, module_name f) :: modules s | _, _ => modules s end;
     selective := match sel i with Some l => rev (map (fun x => (fst x, snd x, module_name f)) l) ++ selective s | None => selective s end |}.
(** The prefix inside the file: parser_stmt.c:3838-3848 *)
Definition prefix_of (f : bytes) (i : imp) (pre : option bytes) : option bytes :=
  match sel i, alias i with Some _, _ | None, Some _ => Some (module_name f) | None, None => pre end.

(** parser_stmt.c:3511-3893; symbols[32]; [rec] parses a file *)
Definition import (rec : option bytes -> option bytes -> list item -> st -> res (list node * st))
    (cur : bytes) (pre : option bytes) (i : imp) (s : st) : res (list node * st) :=
  if match sel i with Some l => 32 <? length l | None => false end then UB else
  let f := resolve cur (path i) in
  if is_imported f s then Ok ([], s)                    (* "as alias" is left to the caller, which skips it *)
  else
    let s := register f i (mark f s) in
    match content f with
    | None => Panic                                     (* Not found *)
    | Some items => rec (Some f) (prefix_of f i pre) items s
    end.

(** parser_core.c:872-941: the attributes before an item go to the first definition it gave *)
Definition attach (t : item) (l : list node) : list node :=
  match l with
  | [] => []
  | n :: l => {| nfile := nfile n; nprefix := nprefix n; nname := nname n; ncfg := cfg t; nattrs := attrs t |} :: l
  end.

(** parse_program_nodes; [main] is the name of the file on the command line *)
Variable main : bytes.
Definition current (who : option bytes) : bytes := match who with Some f => f | None => main end.
Fixpoint load (fuel : nat) (who pre : option bytes) (items : list item) (s : st) : res (list node * st) :=
  match fuel with
  | 0 => Fuel
  | S fuel =>
    (fix go items s :=
      match items with
      | [] => Ok ([], s)
      | t :: rest =>
        do '(h, s) <- match it t with
                      | Def n => Ok ([{| nfile := who; nprefix := pre; nname := n; ncfg := cfg t; nattrs := attrs t |}], s)
                      | Imp i => import (load fuel) (current who) pre i s
                      end;
        do '(r, s) <- go rest s;
        Ok (attach t h ++ r, s)
      end) items s
  end.
(** main.c:440: the file on the command line is not marked *)
Definition program (fuel : nat) (items : list item) : res (list node * st) :=
  load fuel None None items {| imported := []; modules := []; selective := [] |}.
End files.

(** find_module, find_selective_import: parser_utils.c:1128-1179 *)
Fixpoint find_module (l : list (bytes * bytes)) (a : bytes) : option bytes :=
  match l with [] => None | (x, b) :: l => if beq_bytes x a then Some b else find_module l a end.
Fixpoint find_selective (l : list (bytes * option bytes * bytes)) (n : bytes) : option (bytes * bytes) :=
  match l with
  | [] => None
  | (x, Some a, b) :: l => if beq_bytes a n then Some (x, b) else find_selective l n
  | (x, None, b) :: l => if beq_bytes x n then Some (x, b) else find_selective l n
  end.
