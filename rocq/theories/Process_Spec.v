(** What a POSIX shell runs for a command line without quotes, expansions, redirections
    or pipes: words are separated by blanks, commands by semicolons and newlines. *)
From Verif Require Import Common.

(** Characters that mean nothing to the shell *)
Definition inert (c : N) : bool :=
  ((48 <=? c) && (c <=? 57) || (65 <=? c) && (c <=? 90) || (97 <=? c) && (c <=? 122))%N
  || existsb (N.eqb c) (bs "_-./:,+@%").
Definition is_blank (c : N) : bool := (c =? 32)%N || (c =? 9)%N.
Definition is_sep (c : N) : bool := (c =? ch ";")%N || (c =? 10)%N.

(** The pieces between the characters satisfying [p] *)
Fixpoint pieces (p : N -> bool) (t : bytes) : list bytes :=
  match t with
  | [] => [[]]
  | c :: t => if p c then [] :: pieces p t
    else match pieces p t with w :: ws => (c :: w) :: ws | [] => [[c]] end
  end.
Definition nonempty {A} (l : list A) : bool := match l with [] => false | _ => true end.

Definition reserved : list bytes :=
  map bs ["if"; "then"; "else"; "elif"; "fi"; "do"; "done"; "case"; "esac"; "while"; "until"; "for"; "in"]%string.
Definition is_reserved (w : bytes) : bool := existsb (beq_bytes w) reserved.

Definition words (t : bytes) : list bytes := filter nonempty (pieces is_blank t).
Definition starts_reserved (ws : list bytes) : bool :=
  match ws with w :: _ => is_reserved w | [] => false end.

(** The commands a line stands for, in order, each with its words; [None] when the line
    uses more of the shell's language than this. *)
Definition shell (t : bytes) : option (list (list bytes)) :=
  let cs := filter nonempty (map words (pieces is_sep t)) in
  if forallb (fun c => inert c || is_blank c || is_sep c) t && negb (existsb starts_reserved cs)
  then Some cs else None.

(** A word that reaches the program as it is *)
Definition plain (w : bytes) : Prop := w <> [] /\ Forall (fun c => inert c = true) w.
