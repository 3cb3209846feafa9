(** A line editor in the abstract, without buffers: a text, a cursor in it, which history entry is
    shown, and the line that was being written before the history was looked at. *)
From Verif Require Import Common.

Record view := View { v_text : bytes; v_cur : nat; v_at : nat; v_draft : bytes }.

Inductive keystroke := Char (c : N) | Left | Right | Home | End | Back | KillStart | KillEnd | Up | Down | Redraw.

(** the bytes a terminal sends *)
Definition sent (k : keystroke) : bytes :=
  match k with
  | Char c => [c]
  | Left => [27; 91; 68]
  | Right => [27; 91; 67]
  | Home => [1]
  | End => [5]
  | Back => [127]
  | KillStart => [21]
  | KillEnd => [11]
  | Up => [27; 91; 65]
  | Down => [27; 91; 66]
  | Redraw => [12]
  end%N.

Definition printable (c : N) : Prop := (32 <= c)%N /\ c <> 127%N.
Definition typed (k : keystroke) : Prop := match k with Char c => printable c | _ => True end.

(** entry [i] of the history, or the draft after the last one *)
Definition entry (hist : list bytes) (v : view) (i : nat) : bytes := nth i (hist ++ [v_draft v]) [].

Definition press (hist : list bytes) (k : keystroke) (v : view) : view :=
  let t := v_text v in let p := v_cur v in
  match k with
  | Char c => View (firstn p t ++ c :: skipn p t) (S p) (v_at v) (v_draft v)
  | Left => View t (p - 1) (v_at v) (v_draft v)
  | Right => View t (Nat.min (S p) (length t)) (v_at v) (v_draft v)
  | Home => View t 0 (v_at v) (v_draft v)
  | End => View t (length t) (v_at v) (v_draft v)
  | Back => View (firstn (p - 1) t ++ skipn p t) (p - 1) (v_at v) (v_draft v)
  | KillStart => View (skipn p t) 0 (v_at v) (v_draft v)
  | KillEnd => View (firstn p t) p (v_at v) (v_draft v)
  | Up =>
      match v_at v with
      | 0 => v
      | S i => let v := if v_at v =? length hist then View t p (v_at v) t else v in
               View (entry hist v i) (length (entry hist v i)) i (v_draft v)
      end
  | Down =>
      if v_at v <? length hist
      then View (entry hist v (S (v_at v))) (length (entry hist v (S (v_at v)))) (S (v_at v)) (v_draft v)
      else v
  | Redraw => v
  end.
Definition presses (hist : list bytes) (ks : list keystroke) (v : view) : view :=
  fold_left (fun v k => press hist k v) ks v.
(** an empty line, or one that starts with four blanks for each open brace *)
Definition start (hist : list bytes) (level : nat) : view :=
  View (repeat 32%N (level * 4)) (level * 4) (length hist) [].

(** [text] occurs in [line] *)
Definition occurs (text line : bytes) : Prop := exists a b, line = a ++ text ++ b.

(** the word that ends at the cursor *)
Definition letter (c : N) : Prop :=
  (48 <= c <= 57 \/ 65 <= c <= 90 \/ 97 <= c <= 122 \/ c = 95 \/ c = 58 \/ c = 33)%N.
Definition word_before (t : bytes) (p : nat) (w : bytes) : Prop :=
  exists u, firstn p t = u ++ w /\ Forall letter w /\ (u = [] \/ exists u' c, u = u' ++ [c] /\ ~ letter c).
(** [name] is the one name among [names] that starts with [w] *)
Definition only_name (names : list bytes) (w name : bytes) : Prop :=
  In name names /\ (exists r, name = w ++ r) /\ (forall n r, In n names -> n = w ++ r -> n = name).

(** lines the C code can hold *)
Definition no_nul (l : bytes) : Prop := Forall (fun c => c <> 0%N) l.
(** how many of the entries contain the text *)
Inductive hits (text : bytes) : list bytes -> nat -> Prop :=
| hits_nil : hits text [] 0
| hits_yes l r n : occurs text l -> hits text r n -> hits text (l :: r) (S n)
| hits_no l r n : ~ occurs text l -> hits text r n -> hits text (l :: r) n.
