(** When a tip may be shown, and which. *)
From Verif Require Import Common Zen_Model.
Local Open Scope nat_scope.

Definition name_of (t : trigger) : bytes :=
  match t with
  | Goto => bs "TRIGGER_GOTO" | PointerArith => bs "TRIGGER_POINTER_ARITH" | Bitwise => bs "TRIGGER_BITWISE" | Recursion => bs "TRIGGER_RECURSION"
  | Ternary => bs "TRIGGER_TERNARY" | Asm => bs "TRIGGER_ASM" | WhileTrue => bs "TRIGGER_WHILE_TRUE" | Macro => bs "TRIGGER_MACRO"
  | VoidPtr => bs "TRIGGER_VOID_PTR" | Main => bs "TRIGGER_MAIN" | FormatString => bs "TRIGGER_FORMAT_STRING" | StructPadding => bs "TRIGGER_STRUCT_PADDING"
  | Global => bs "TRIGGER_GLOBAL"
  end.
(** An entry with a name of a trigger and a text *)
Definition complete (e : entry) : Prop := exists t m, e_trigger e = Some (name_of t) /\ e_message e = Some m.
(** The event asks for a tip of this trigger, at this place *)
Definition asks (e : event) (t : trigger) (p : option (nat * nat)) : Prop :=
  match e with At u l k _ _ => t = u /\ p = Some (l, k) | Finish tty _ _ => tty = true /\ t = Global /\ p = None | Warning => False end.
(** The tip is the text of an entry of this trigger *)
Definition told_by (l : list entry) (t : trigger) (x : tip) : Prop :=
  exists e, In e l /\ e_trigger e = Some (name_of t) /\ e_message e = Some (said x) /\ e_url e = link x.
