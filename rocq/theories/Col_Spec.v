(** A text in colours, without colors.c. *)
From Verif Require Import Common.
Local Open Scope nat_scope.

(** Text, and changes of colour: escape, bracket, codes, m *)
Inductive piece := Words (s : bytes) | Colour (codes : bytes).
Definition sequence (codes : bytes) : bytes := [27%N; 91%N] ++ codes ++ [109%N].
Definition coloured_text (l : list piece) : bytes := flat_map (fun p => match p with Words s => s | Colour w => sequence w end) l.
Definition words (l : list piece) : bytes := flat_map (fun p => match p with Words s => s | Colour _ => [] end) l.
Definition proper (p : piece) : Prop :=
  match p with Words s => ~ In 27%N s /\ ~ In 0%N s | Colour w => ~ In 109%N w /\ ~ In 0%N w end.
