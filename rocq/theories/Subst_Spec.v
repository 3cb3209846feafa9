(** Text as a sequence of words, string literals and other characters. *)
From Verif Require Import Common.
Local Open Scope nat_scope.

Definition word_char (c : N) : Prop :=
  (97 <= c <= 122 \/ 65 <= c <= 90 \/ 48 <= c <= 57 \/ c = 95)%N.
(** a word: one or more letters, digits, underscores *)
Definition word (w : bytes) : Prop := w <> [] /\ Forall word_char w.
(** one element of a string literal: a character, or a backslash and a character *)
Inductive unit_ := Plain (c : N) | Esc (c : N).
Inductive item :=
| Word (w : bytes)
| Str (l : list unit_)       (* a closed string literal *)
| Sym (c : N).               (* any other character *)
Definition show_unit (u : unit_) : bytes := match u with Plain c => [c] | Esc c => [92%N; c] end.
Definition show (i : item) : bytes :=
  match i with
  | Word w => w
  | Str l => [34%N] ++ flat_map show_unit l ++ [34%N]
  | Sym c => [c]
  end.
Definition unit_ok (u : unit_) : Prop :=
  match u with Plain c => c <> 34%N /\ c <> 92%N | Esc _ => True end.
Definition item_ok (i : item) : Prop :=
  match i with
  | Word w => word w
  | Str l => Forall unit_ok l
  | Sym c => ~ word_char c /\ c <> 34%N
  end.
(** words are maximal *)
Fixpoint maximal (l : list item) : Prop :=
  match l with
  | Word _ :: ((Word _ :: _) as l') => False
  | _ :: l' => maximal l'
  | [] => True
  end.
(** [text] consists of the items [l] *)
Definition reads (text : bytes) (l : list item) : Prop :=
  text = flat_map show l /\ Forall item_ok l /\ maximal l.
(** Replacing a word *)
Definition subst_item (old new : bytes) (i : item) : bytes :=
  match i with
  | Word w => if beq_bytes w old then new else w
  | _ => show i
  end.
(** What the code does not read as intended: a string literal that ends in an escaped
    backslash, and one that directly follows a backslash *)
Definition clean_str (i : item) : Prop :=
  match i with Str l => ~ (exists l', l = l' ++ [Esc 92%N]) | _ => True end.
Fixpoint no_backslash_before (l : list item) : Prop :=
  match l with
  | Sym 92%N :: ((Str _ :: _) as l') => False
  | _ :: l' => no_backslash_before l'
  | [] => True
  end.
