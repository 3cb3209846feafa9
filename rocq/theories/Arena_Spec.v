(** What a caller of the arena relies on. *)
From Verif Require Import Common Arena_Model.
Local Open Scope N_scope.

(** The number of bytes asked for by a call, without wrap-around. *)
Definition request (c : call) : option N :=
  match c with
  | AllocBytes n => Some n
  | AllocN sz n => Some (sz * n)
  | DupStr s => Some (N.of_nat (length (cstr s)) + 1)
  | _ => None
  end.

(** A block of memory handed out: address and size. *)
Definition block := (N * N)%type.
Definition stop (b : block) : N := fst b + snd b.
Definition disjoint (x y : block) : Prop := stop x <= fst y \/ stop y <= fst x.

(** Blocks live after the calls [cs] returned [rs]: a successful allocation adds one,
    restore(m) gives up those that reach beyond offset m, reset gives up all. *)
Fixpoint live (start : N) (bl : list block) (cs : list call) (rs : list N) : list block :=
  match cs, rs with
  | c :: cs, r :: rs =>
    let bl := match request c with
              | Some n => if r =? 0 then bl else (r, n) :: bl
              | None => match c with
                        | Restore m => filter (fun b => stop b <=? start + m) bl
                        | Reset => []
                        | _ => bl
                        end
              end in
    live start bl cs rs
  | _, _ => bl
  end.

(** [n] rounded up to a multiple of 8. *)
Definition round8 (n : N) : N := (n + 7) / 8 * 8.

(** The bytes of memory at [b]. *)
Definition contents (a : arena) (b : block) : buf N :=
  firstn (N.to_nat (snd b)) (skipn (N.to_nat (fst b - base a)) (mem a)).
