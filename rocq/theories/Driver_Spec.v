(** What a build should leave behind. *)
From Verif Require Import Common Driver_Model.

(** the phases that apply accept the program *)
Definition accepts (c : config) (ph : phases) : Prop :=
  p_types ph = true /\
  match c_mode c with
  | Check => p_check ph = true
  | _ => if c_typecheck c then p_check ph = true else p_moves ph = true
  end.
(** files other than those in [ps] are as before *)
Definition same_but (ps : list path) (fs fs' : files) : Prop := forall p, ~ In p ps -> lookup fs' p = lookup fs p.
(** a wait status: exited with a code *)
Definition exited (code : Z) : Z := (code * 256)%Z.
Definition relative (s : bytes) : Prop := match s with 47%N :: _ => False | _ => True end.
