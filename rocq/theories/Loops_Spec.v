(** What loops and jumps mean. *)
From Verif Require Import Common Loops_Model.
Local Open Scope nat_scope.

(** Statements as they are written; a loop can have a label. *)
Inductive stmt :=
| Call (f : bytes) (a : nat)
| Break (l : option bytes)
| Continue (l : option bytes)
| If (c : nat) (t : stmts)
| IfElse (c : nat) (t e : stmts)
| Unless (c : nat) (b : stmts)
| Guard (c : nat) (b : stmts)
| While (o : option bytes) (c : nat) (b : stmts)
| Loop (o : option bytes) (b : stmts)
| Repeat (o : option bytes) (n : nat) (b : stmts)
with stmts := Nil | Cons (s : stmt) (l : stmts).

Definition written_jump (w : bytes) (l : option bytes) : list tok :=
  match l with None => [Word w; Semi] | Some l => [Word w; Word l; Semi] end.
Definition written_label (o : option bytes) : list tok := match o with None => [] | Some l => [Word l; Colon] end.
Fixpoint written (s : stmt) : list tok :=
  match s with
  | Call f a => [Word f; Args a; Semi]
  | Break l => written_jump (bs "break") l
  | Continue l => written_jump (bs "continue") l
  | If c t => [Word (bs "if"); Cond c; LBrace] ++ written_all t ++ [RBrace]
  | IfElse c t e => [Word (bs "if"); Cond c; LBrace] ++ written_all t ++ [RBrace; Word (bs "else"); LBrace] ++ written_all e ++ [RBrace]
  | Unless c b => [Word (bs "unless"); Cond c; LBrace] ++ written_all b ++ [RBrace]
  | Guard c b => [Word (bs "guard"); Cond c; Word (bs "else"); LBrace] ++ written_all b ++ [RBrace]
  | While o c b => written_label o ++ [Word (bs "while"); Cond c; LBrace] ++ written_all b ++ [RBrace]
  | Loop o b => written_label o ++ [Word (bs "loop"); LBrace] ++ written_all b ++ [RBrace]
  | Repeat o n b => written_label o ++ [Word (bs "repeat"); Cond n; LBrace] ++ written_all b ++ [RBrace]
  end
with written_all (l : stmts) : list tok := match l with Nil => [] | Cons s l => written s ++ written_all l end.

Section Meaning.
Variable St : Type.
Variable test : nat -> St -> bool.
Variable count : nat -> St -> Z.
Variable act : bytes -> nat -> St -> St.

(** A statement goes on, or leaves or restarts a loop: the innermost one or the one named. *)
Inductive way := Goes | Leaves (l : option bytes) | Restarts (l : option bytes).
Definition mine (o l : option bytes) : bool :=
  match l, o with None, _ => true | Some l, Some o => beq_bytes l o | Some _, None => false end.
(** a loop labelled [o] with a number of rounds given in advance, if any; a loop of more than [fuel]
    rounds gives [Fuel] *)
Fixpoint looping (fuel : nat) (o : option bytes) (left : option nat) (more : St -> bool) (body : St -> res (way * St)) (s : St) : res (way * St) :=
  if match left with Some 0 => false | _ => more s end then
    match fuel with
    | 0 => Fuel
    | S fuel =>
      do '(w, s) <- body s;
      let again := looping fuel o (option_map Nat.pred left) more body s in
      match w with
      | Goes => again
      | Leaves l => if mine o l then Ok (Goes, s) else Ok (w, s)
      | Restarts l => if mine o l then again else Ok (w, s)
      end
    end
  else Ok (Goes, s).
Fixpoint means (fuel : nat) (p : stmt) (s : St) : res (way * St) :=
  match p with
  | Call f a => Ok (Goes, act f a s)
  | Break l => Ok (Leaves l, s)
  | Continue l => Ok (Restarts l, s)
  | If c t => if test c s then means_all fuel t s else Ok (Goes, s)
  | IfElse c t e => if test c s then means_all fuel t s else means_all fuel e s
  | Unless c b | Guard c b => if test c s then Ok (Goes, s) else means_all fuel b s
  | While o c b => looping fuel o None (test c) (means_all fuel b) s
  | Loop o b => looping fuel o None (fun _ => true) (means_all fuel b) s
  | Repeat o n b => looping fuel o (Some (Z.to_nat (count n s))) (fun _ => true) (means_all fuel b) s
  end
with means_all (fuel : nat) (l : stmts) (s : St) : res (way * St) :=
  match l with
  | Nil => Ok (Goes, s)
  | Cons p l => do '(w, s) <- means fuel p s; match w with Goes => means_all fuel l s | _ => Ok (w, s) end
  end.

(** the count of every repeat is the same whenever it is asked for *)
Fixpoint steady (p : stmt) : Prop :=
  match p with
  | If _ t => steady_all t
  | IfElse _ t e => steady_all t /\ steady_all e
  | Unless _ b | Guard _ b | While _ _ b | Loop _ b => steady_all b
  | Repeat _ n b => (forall s s', count n s = count n s') /\ steady_all b
  | _ => True
  end
with steady_all (l : stmts) : Prop := match l with Nil => True | Cons s l => steady s /\ steady_all l end.
End Meaning.

(** names for calls and labels: no keyword, and not a word that starts with else *)
Definition keywords : list bytes :=
  [bs "if"; bs "while"; bs "break"; bs "continue"; bs "loop"; bs "repeat"; bs "unless"; bs "guard"].
Definition name (w : bytes) : Prop := ~ In w keywords /\ ~ exists r, w = bs "else" ++ r.
Definition name_opt (o : option bytes) : Prop := match o with None => True | Some l => name l end.
Fixpoint named (p : stmt) : Prop :=
  match p with
  | Call f _ => name f
  | Break l | Continue l => name_opt l
  | If _ t => named_all t
  | IfElse _ t e => named_all t /\ named_all e
  | Unless _ b | Guard _ b => named_all b
  | While o _ b | Loop o b | Repeat o _ b => name_opt o /\ named_all b
  end
with named_all (l : stmts) : Prop := match l with Nil => True | Cons s l => named s /\ named_all l end.
(** the labels of loops *)
Definition opt_list (o : option bytes) : list bytes := match o with None => [] | Some l => [l] end.
Fixpoint loop_labels (p : stmt) : list bytes :=
  match p with
  | If _ t => loop_labels_all t
  | IfElse _ t e => loop_labels_all t ++ loop_labels_all e
  | Unless _ b | Guard _ b => loop_labels_all b
  | While o _ b | Loop o b | Repeat o _ b => opt_list o ++ loop_labels_all b
  | _ => []
  end
with loop_labels_all (l : stmts) : list bytes := match l with Nil => [] | Cons s l => loop_labels s ++ loop_labels_all l end.
(** the labels jumps name *)
Fixpoint jump_targets (p : stmt) : list bytes :=
  match p with
  | Break l | Continue l => opt_list l
  | If _ t => jump_targets_all t
  | IfElse _ t e => jump_targets_all t ++ jump_targets_all e
  | Unless _ b | Guard _ b | While _ _ b | Loop _ b | Repeat _ _ b => jump_targets_all b
  | Call _ _ => []
  end
with jump_targets_all (l : stmts) : list bytes := match l with Nil => [] | Cons s l => jump_targets s ++ jump_targets_all l end.
(** break and continue stand in loops *)
Fixpoint inside (p : stmt) : Prop :=
  match p with
  | Break None | Continue None => False
  | If _ t => inside_all t
  | IfElse _ t e => inside_all t /\ inside_all e
  | Unless _ b | Guard _ b => inside_all b
  | _ => True
  end
with inside_all (l : stmts) : Prop := match l with Nil => True | Cons s l => inside s /\ inside_all l end.
