(** The programs of String_Spec run on the modelled String. *)
From Verif Require Import Common Vec_Model String_Model String_Spec.

Definition smon (st : list str) (i : nat) (f : str -> res (list str * strout))
  : res (list str * strout) :=
  match nth_error st i with
  | None => Ok (st, TNoSuch)
  | Some v => f v
  end.

Definition str_step (st : list str) (op : strop) : res (list str * strout) :=
  match op with
  | SNew s => do v <- snew s; Ok (st ++ [v], TUnit)
  | SAppend i j => smon st i (fun v => smon st j (fun o =>
      do v <- (if i =? j then sappend_self v else sappend v o); Ok (upd st i v, TUnit)))
  | SAppendC i s => smon st i (fun v => do v <- sappend_c v s; Ok (upd st i v, TUnit))
  | SAdd i j => smon st i (fun v => smon st j (fun o =>
      do n <- sadd v o; Ok (st ++ [n], TUnit)))
  | SSubstring i start n => smon st i (fun v =>
      do r <- ssubstring v start n; Ok (st ++ [r], TUnit))
  | SReserve i n => smon st i (fun v => do v <- sreserve v n; Ok (upd st i v, TUnit))
  | SLength i => smon st i (fun v => Ok (st, TNum (slength v)))
  | SCStr i => smon st i (fun v => do b <- cread (data v); Ok (st, TBytes b))
  | SIsEmpty i => smon st i (fun v => Ok (st, TBool (sis_empty v)))
  | SEq i j => smon st i (fun v => smon st j (fun o =>
      do b <- s_eq v o; Ok (st, TBool b)))
  | SEqStr i s => smon st i (fun v => do b <- seq_str v s; Ok (st, TBool b))
  | SFind i c => smon st i (fun v => do o <- sfind v c; Ok (st, TPos o))
  | SContains i c => smon st i (fun v => do b <- scontains v c; Ok (st, TBool b))
  | SStartsWith i s => smon st i (fun v => do b <- sstarts_with v s; Ok (st, TBool b))
  | SEndsWith i s => smon st i (fun v => do b <- sends_with v s; Ok (st, TBool b))
  | SSplit i d => smon st i (fun v => do ps <- ssplit v d; Ok (st ++ ps, TUnit))
  end.

Fixpoint str_run (st : list str) (ops : list strop) : res (list str * list strout) :=
  match ops with
  | [] => Ok (st, [])
  | op :: ops => do '(st, o) <- str_step st op;
                 do '(st, os) <- str_run st ops;
                 Ok (st, o :: os)
  end.
