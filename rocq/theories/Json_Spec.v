(** JSON texts and their meaning, after RFC 8259. *)
From Verif Require Import Common Json_Model.

Section Spec.
  (** [number d t]: the text t is a number with value d.
      [plain c]: the character may stand for itself in a string. *)
  Context {D : Type} (number : D -> bytes -> Prop) (plain : N -> Prop).

  (** insignificant whitespace *)
  Definition ws (l : bytes) : Prop := Forall (fun c => In c [32; 9; 10; 13]%N) l.

  (** [chars s t]: the characters [t] between the quotes stand for the string [s].
      Escapes: the two-character ones without backspace and form feed; no \u. *)
  Inductive chars : bytes -> bytes -> Prop :=
  | chars_nil : chars [] []
  | chars_plain c s t : plain c -> c <> 34%N -> c <> 92%N -> chars s t -> chars (c :: s) (c :: t)
  | chars_esc c e s t : In (e, c) [(ch "n", 10%N); (ch "t", 9%N); (ch "r", 13%N); (34%N, 34%N);
                                   (92%N, 92%N); (ch "/", ch "/")] ->
      chars s t -> chars (c :: s) (92%N :: e :: t).

  Definition quoted (s t : bytes) : Prop := exists u, chars s u /\ t = [34%N] ++ u ++ [34%N].

  (** The members of an object, a later one replacing an earlier one of the same name
      (in its place). *)
  Fixpoint member_put (k : bytes) (v : json D) (m : list (bytes * json D)) : list (bytes * json D) :=
    match m with
    | [] => [(k, v)]
    | (k', v') :: m => if beq_bytes k' k then (k', v) :: m else (k', v') :: member_put k v m
    end.

  (** [value v t]: the text [t] denotes [v]; [elements l t]: one or more values separated
      by commas; [members m0 m t]: one or more members separated by commas, added to [m0]
      give [m]. *)
  Inductive value : json D -> bytes -> Prop :=
  | v_null : value JNull (bs "null")
  | v_true : value (JBool true) (bs "true")
  | v_false : value (JBool false) (bs "false")
  | v_num d t : number d t -> value (JNum d) t
  | v_str s t : quoted s t -> length s <= 4095 -> value (JStr s) t
  | v_arr0 w : ws w -> value (JArr []) ([ch "["] ++ w ++ [ch "]"])
  | v_arr l t : elements l t -> value (JArr l) ([ch "["] ++ t ++ [ch "]"])
  | v_obj0 w : ws w -> value (JObj []) ([ch "{"] ++ w ++ [ch "}"])
  | v_obj m t : members [] m t -> value (JObj m) ([ch "{"] ++ t ++ [ch "}"])
  with elements : list (json D) -> bytes -> Prop :=
  | e_one v w1 t w2 : ws w1 -> ws w2 -> value v t -> elements [v] (w1 ++ t ++ w2)
  | e_more v w1 t w2 l u : ws w1 -> ws w2 -> value v t -> elements l u ->
      elements (v :: l) (w1 ++ t ++ w2 ++ [ch ","] ++ u)
  with members : list (bytes * json D) -> list (bytes * json D) -> bytes -> Prop :=
  | m_one m0 w1 k q w2 w3 v t w4 :
      ws w1 -> ws w2 -> ws w3 -> ws w4 -> quoted k q -> length k <= 4095 -> value v t ->
      members m0 (member_put k v m0) (w1 ++ q ++ w2 ++ [ch ":"] ++ w3 ++ t ++ w4)
  | m_more m0 w1 k q w2 w3 v t w4 m u :
      ws w1 -> ws w2 -> ws w3 -> ws w4 -> quoted k q -> length k <= 4095 -> value v t ->
      members (member_put k v m0) m u ->
      members m0 m (w1 ++ q ++ w2 ++ [ch ":"] ++ w3 ++ t ++ w4 ++ [ch ","] ++ u).

  Scheme value_mind := Induction for value Sort Prop
    with elements_mind := Induction for elements Sort Prop
    with members_mind := Induction for members Sort Prop.
  Combined Scheme json_mind from value_mind, elements_mind, members_mind.
End Spec.

(** RFC 8259: control characters must be escaped *)
Definition rfc_plain (c : N) : Prop := (32 <= c)%N.

(** what may follow a number: nothing, whitespace, or a structural character *)
Definition delim (rest : bytes) : Prop :=
  match rest with [] => True | c :: _ => In c [32; 9; 10; 13; ch ","; ch "]"; ch "}"]%N end.

(** The string the parser accumulates from just after a quote: up to the next unescaped
    quote or the end of the text, escapes counting for one. *)
Fixpoint run_length (l : bytes) : nat :=
  match l with
  | [] => 0
  | c :: l => if (c =? 34)%N then 0
              else if (c =? 92)%N then match l with [] => 1 | _ :: l => S (run_length l) end
              else S (run_length l)
  end.
