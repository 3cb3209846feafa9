(** The environment as a finite map from names to values, and what time should be. *)
From Verif Require Import Common Env_Model.
Local Open Scope Z_scope.

(** A name that can be set: not empty, no equals sign *)
Definition settable (n : bytes) : Prop := n <> [] /\ ~ In 61%N n.
Definition map_ : Type := bytes -> option bytes.
Definition put (m : map_) (n : bytes) (v : option bytes) : map_ := fun k => if beq_bytes k n then v else m k.
(** The map after a history *)
Fixpoint after (m : map_) (l : list op) : map_ :=
  match l with
  | [] => m
  | Set_ n v false :: l' => after (put m n (Some v)) l'
  | Unset n :: l' => after (put m n None) l'
  | _ :: l' => after m l'
  end.
Definition names_of (o : op) : bytes := match o with Get n | GetDup n | Set_ n _ _ | Unset n => n end.
