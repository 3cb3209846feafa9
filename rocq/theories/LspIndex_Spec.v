(** The editor's side of semantic tokens, and positions in ranges. *)
From Verif Require Import Common LspIndex_Model.
From Coq Require Import Permutation Sorting.Sorted.
Local Open Scope Z_scope.

(** Decoding, as the Language Server Protocol defines it: the line is relative to the
    previous token, the column too if it is on the same line *)
Fixpoint decode (line col : Z) (data : list Z) : list tok :=
  match data with
  | dl :: dc :: len :: ty :: mods :: rest =>
      let line' := line + dl in
      let col' := if dl =? 0 then col + dc else dc in
      Tok line' col' len ty mods :: decode line' col' rest
  | _ => []
  end.
Definition before (a b : tok) : Prop :=
  t_line a < t_line b \/ (t_line a = t_line b /\ t_col a < t_col b).
Definition same_place (a b : tok) : Prop := t_line a = t_line b /\ t_col a = t_col b.
(** what qsort promises: the same tokens, none followed by one that compares smaller *)
Definition qsort_result (l sorted : list tok) : Prop :=
  Permutation l sorted /\ StronglySorted (fun a b => compare_tokens a b <= 0) sorted.

(** [r] contains the position *)
Definition contains (r : range) (line col : Z) : Prop :=
  (start_line r < line \/ (start_line r = line /\ start_col r <= col)) /\
  (line < end_line r \/ (line = end_line r /\ col <= end_col r)).
(** the range of a token, zero-based, one past its end included *)
Definition covers (t : token) (r : range) : Prop :=
  start_line r = k_line t - 1 /\ end_line r = k_line t - 1 /\
  start_col r = k_col t - 1 /\ end_col r = k_col t - 1 + k_len t.
(** the range recorded by an operation, if it records one *)
Definition records (o : op) (r : range) : Prop :=
  match o with
  | AddDef t n => 0 < k_line t /\ covers t r /\ def_pos r = None /\ r_node r = n
  | AddRef t d n => 0 < k_line t /\ 0 < k_line d /\ covers t r /\ def_pos r = Some (k_line d - 1, k_col d - 1) /\ r_node r = n
  end.
