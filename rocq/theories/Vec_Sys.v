(** The same programs run on the modelled Vec (Vec_Model). *)
From Verif Require Import Common Vec_Model Vec_Spec.

Section Sys.
  Context {A : Type}.
  Variable rep_eq : A -> A -> bool.
  Notation vec := (vec A).

  Definition mon (st : list vec) (i : nat) (f : vec -> res (vec * vout A))
    : res (list vec * vout A) :=
    match nth_error st i with
    | None => Ok (st, NoSuch)
    | Some v => do '(v, o) <- f v; Ok (upd st i v, o)
    end.

  (** One call; passing a vector by value leaves the caller's variable zeroed
      (src/codegen/codegen_utils.c:903-945 emit_move_invalidation). *)
  Definition sys_step (st : list vec) (op : vop A) : res (list vec * vout A) :=
    match op with
    | VNew => Ok (st ++ [vnew], Unit)
    | VWithCap n => Ok (st ++ [vwith_capacity n], Unit)
    | VPush i x => mon st i (fun v => do v <- vpush v x; Ok (v, Unit))
    | VInsert i k x => mon st i (fun v => do v <- vinsert v k x; Ok (v, Unit))
    | VPop i => mon st i (fun v => do '(v, x) <- vpop v; Ok (v, Val x))
    | VPopOpt i => mon st i (fun v => do '(v, x) <- vpop_opt v; Ok (v, Opt x))
    | VRemove i k => mon st i (fun v => do '(v, x) <- vremove v k; Ok (v, Val x))
    | VAppend i j =>
        if i =? j then Ok (st, NoSuch) else
        match nth_error st j with
        | None => Ok (st, NoSuch)
        | Some o => match nth_error st i with
                    | None => Ok (st, NoSuch)
                    | Some v => do v <- vappend v o;
                                Ok (upd (upd st i v) j vnew, Unit)
                    end
        end
    | VGet i k => mon st i (fun v => do x <- vget v k; Ok (v, Val x))
    | VFirst i => mon st i (fun v => do x <- vfirst v; Ok (v, Val x))
    | VLast i => mon st i (fun v => do x <- vlast v; Ok (v, Val x))
    | VSet i k x => mon st i (fun v => do v <- vset v k x; Ok (v, Unit))
    | VLength i => mon st i (fun v => Ok (v, Num (vlength v)))
    | VIsEmpty i => mon st i (fun v => Ok (v, Bool (vis_empty v)))
    | VContains i x => mon st i (fun v => do b <- vcontains rep_eq v x; Ok (v, Bool b))
    | VEq i j =>
        if i =? j then Ok (st, NoSuch) else
        match nth_error st j with
        | None => Ok (st, NoSuch)
        | Some o => match nth_error st i with
                    | None => Ok (st, NoSuch)
                    | Some v => do b <- veq rep_eq v o; Ok (upd st j vnew, Bool b)
                    end
        end
    | VClear i => mon st i (fun v => Ok (vclear v, Unit))
    | VFree i => mon st i (fun v => Ok (vfree v, Unit))
    | VClone i => match nth_error st i with
                  | None => Ok (st, NoSuch)
                  | Some v => do c <- vclone v; Ok (st ++ [c], Unit)
                  end
    | VIterate i => mon st i (fun v => do l <- viter_collect (S (len v)) (viterator v);
                                       Ok (v, Items l))
    end.

  Fixpoint sys_run (st : list vec) (ops : list (vop A)) : res (list vec * list (vout A)) :=
    match ops with
    | [] => Ok (st, [])
    | op :: ops => do '(st, o) <- sys_step st op;
                   do '(st, os) <- sys_run st ops;
                   Ok (st, o :: os)
    end.
End Sys.
