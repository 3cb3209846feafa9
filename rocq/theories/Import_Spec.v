(** Every file that is imported, directly or not and however often, is read once. *)
From Verif Require Import Common Import_Model.
Local Open Scope nat_scope.

Section files.
Variable access : bytes -> bool.
Variable real : bytes -> bytes.
Variable content : bytes -> option (list item).
Variable search_dirs : list bytes.

Definition imports (items : list item) : list imp :=
  flat_map (fun t => match it t with Imp i => [i] | Def _ => [] end) items.
(** The files that a file called [cur] with these items imports, directly or not *)
Inductive reach (cur : bytes) (items : list item) : bytes -> Prop :=
| reach_import i : In i (imports items) -> reach cur items (resolve access real search_dirs cur (path i))
| reach_step f its i : reach cur items f -> content f = Some its -> In i (imports its) ->
    reach cur items (resolve access real search_dirs f (path i)).
End files.

(** The definitions written in a file *)
Definition declared (who pre : option bytes) (items : list item) : list node :=
  flat_map (fun t => match it t with
    | Def n => [{| nfile := who; nprefix := pre; nname := n; ncfg := cfg t; nattrs := attrs t |}]
    | Imp _ => [] end) items.
(** Those of the program that come from a file *)
Definition same (a b : option bytes) : bool :=
  match a, b with Some x, Some y => beq_bytes x y | None, None => true | _, _ => false end.
Definition of_file (who : option bytes) (out : list node) : list node := filter (fun n => same (nfile n) who) out.
(** The same definitions in the same order, with the same attributes from the second on *)
Definition alike (l m : list node) : Prop :=
  map (fun n => (nfile n, nprefix n, nname n)) l = map (fun n => (nfile n, nprefix n, nname n)) m /\ tl l = tl m.

(** The places where a path is looked for, in this order *)
Definition places (search_dirs : list bytes) (cur fn : bytes) : list bytes :=
  let elsewhere p := p :: map (fun d => d ++ bs "/" ++ p) search_dirs in
  match split_last (ch "/") cur with
  | Some (d, _) =>
    let beside := d ++ bs "/" ++ fn in
    if is_prefix (bs "/") fn then elsewhere fn
    else if is_prefix (bs "./") fn || is_prefix (bs "../") fn then elsewhere beside
    else beside :: elsewhere fn
  | None => elsewhere fn
  end.
(** The name under which a program sees an imported symbol *)
Definition visible (x : bytes * option bytes) : bytes := match snd x with Some a => a | None => fst x end.

(** The characters of a name *)
Definition name_char (c : N) : Prop := (48 <= c <= 57 \/ 65 <= c <= 90 \/ 97 <= c <= 122 \/ c = 95)%N.
