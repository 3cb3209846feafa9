(** What a user of sockets relies on. *)
From Verif Require Import Common Net_Model.
From Coq Require Import Permutation.
Local Open Scope Z_scope.

(** The kernel hands out only descriptors that are not open; other code opens new ones and closes its own. *)
Definition kernel_ok (p : proc) (e : event) : Prop :=
  match e with
  | Connect fd _ _ | Bind fd _ _ _ | BindUdp fd _ _ | Accept _ fd => fd < 0 \/ ~ In fd (opened p)
  | OtherOpen fd => 0 <= fd /\ ~ In fd (opened p)
  | OtherClose fd => In fd (foreign p)
  | _ => True
  end.
Fixpoint possible (p : proc) (l : list event) : Prop :=
  match l with [] => True | e :: l => kernel_ok p e /\ possible (step p e) l end.
(** the descriptors the program's socket objects hold; a closed object holds none *)
Definition held (l : list sock) : list Z := map (fun s => handle s - 1) (filter (fun s => 0 <? handle s) l).
(** Every open descriptor belongs to other code or to exactly one socket object that is open. *)
Definition tidy (p : proc) : Prop := NoDup (opened p) /\ Permutation (opened p) (foreign p ++ held (objs p)).
Definition start (fds : list Z) : proc := {| opened := fds; foreign := fds; objs := [] |}.
