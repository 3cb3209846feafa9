(** What composition means, and where C puts the fields of a struct. *)
From Verif Require Import Common Mixin_Model.
Local Open Scope Z_scope.

(** The fields a struct should have: a mixin stands for the fields of that struct. *)
Definition expand (ds : defs) (m : member) : list (bytes * bytes * Z) :=
  match m with
  | Field n t w => [(n, t, w)]
  | Named n t => [(n, t, 0)]
  | Use s => match find_def ds s with Some d => map (fun f => (fname f, ftype f, fwidth f)) (fields d) | None => [] end
  end.
Definition mixins (ms : list member) : list bytes := flat_map (fun m => match m with Use s => [s] | _ => [] end) ms.
(** Every mixin is a struct defined before. *)
Definition known (ds : defs) (ms : list member) : Prop := forall s, In s (mixins ms) -> find_def ds s <> None.

(** Layout of a struct without bit-fields: each field at the next multiple of its alignment, or
    right after the one before it in a packed struct; the size is a multiple of the alignment. *)
Section Layout.
Variable sz al : bytes -> Z.
Definition round_up (o a : Z) : Z := (o + a - 1) / a * a.
Definition place (pack : bool) (cur : Z) (t : bytes) : Z := if pack then cur else round_up cur (al t).
Fixpoint offsets (pack : bool) (cur : Z) (fs : list field) : list Z :=
  match fs with
  | [] => []
  | f :: fs => let o := place pack cur (ftype f) in o :: offsets pack (o + sz (ftype f)) fs
  end.
Fixpoint fields_end (pack : bool) (cur : Z) (fs : list field) : Z :=
  match fs with
  | [] => cur
  | f :: fs => fields_end pack (place pack cur (ftype f) + sz (ftype f)) fs
  end.
Definition align_of (d : sdef) : Z := if packed d then 1 else fold_right Z.max 1 (map (fun f => al (ftype f)) (fields d)).
Definition size_of (d : sdef) : Z := round_up (fields_end (packed d) 0 (fields d)) (align_of d).
Definition offset (d : sdef) (i : nat) : option Z := nth_error (offsets (packed d) 0 (fields d)) i.
Definition lawful : Prop := forall t, 0 <= sz t /\ 0 < al t.
End Layout.

(** Which method a call means: the type's own, or one of a trait it implements, or that of the
    first of its mixins that has one. *)
Inductive Means (e : env) (t m : bytes) : bytes -> Prop :=
| M_own : In (method_name t m) (funcs e) -> Means e t m (method_name t m)
| M_trait tr : ~ In (method_name t m) (funcs e) -> In (t, tr) (impls e) \/ In tr (templates e) ->
    In (trait_name t tr m) (funcs e) -> Means e t m (trait_name t tr m)
| M_mixin d a u b : ~ In (method_name t m) (funcs e) ->
    (forall tr, In (t, tr) (impls e) \/ In tr (templates e) -> ~ In (trait_name t tr m) (funcs e)) ->
    find_def (structs e) t = Some d -> used d = a ++ u :: b -> In (method_name u m) (funcs e) ->
    (forall x, In x a -> ~ In (method_name x m) (funcs e)) -> Means e t m (method_name u m).
(** The names are short enough for the buffers. *)
Definition short_names (e : env) (t m : bytes) : Prop :=
  (length (method_name t m) <= 511)%nat /\
  (forall tr, In (t, tr) (impls e) \/ In tr (templates e) -> (length (trait_name t tr m) <= 255)%nat) /\
  (forall d u, find_def (structs e) t = Some d -> In u (used d) -> (length (method_name u m) <= 127)%nat).
