(** Model of text formatting in std/io.zc: format (31-40), format_into (42-50), format_new
    (52-63), print and println (65-80), itos, itos_new, utos (124-145).

    The text a C format denotes is given with the call: what vsnprintf makes of the format and
    its arguments is the C library's business.  Modelled: the buffers, their sizes, whether
    they are shared between calls, truncation, and what comes back.  %d and %u are modelled
    ([dec_int], [dec_nat]).  malloc answers as the caller of [step] says.  A write beyond a
    buffer is [UB].  Simplifications: text lengths fit an int; nothing is freed. *)
From Verif Require Import Common.
Local Open Scope Z_scope.

(** printf's %u and %d *)
Fixpoint dec_digits (fuel : nat) (n : Z) : bytes :=
  match fuel with
  | O => []
  | S fuel => if n <? 10 then [Z.to_N (48 + n)] else dec_digits fuel (n / 10) ++ [Z.to_N (48 + n mod 10)]
  end.
Definition dec_nat (n : Z) : bytes := dec_digits 10 n.
Definition dec_int (n : Z) : bytes := if n <? 0 then 45%N :: dec_nat (- n) else dec_nat n.

(** vsnprintf(buf, size, text): 7.21.6.12 of the C standard *)
Definition vsnprintf (buf : bytes) (size : nat) (text : bytes) : res (bytes * Z) :=
  match size with
  | O => Ok (buf, Z.of_nat (length text))
  | S k => let w := firstn k text ++ [0%N] in
    if (length w <=? length buf)%nat then Ok (w ++ skipn (length w) buf, Z.of_nat (length text)) else UB
  end.
(** sprintf(buf, text) *)
Definition sprintf (buf : bytes) (text : bytes) : res bytes :=
  let w := text ++ [0%N] in
  if (length w <=? length buf)%nat then Ok (w ++ skipn (length w) buf) else UB.

(** The static buffers of format (line 32), itos (127) and utos (142), and the blocks malloc
    has given out, in order *)
Inductive which := BFormat | BItos | BUtos.
Record state := St { st_format : bytes; st_itos : bytes; st_utos : bytes; st_heap : list bytes }.
Definition init : state := St (repeat 0%N 1024) (repeat 0%N 32) (repeat 0%N 32) [].
Inductive ptr := PNull | PStatic (w : which) | PHeap (i : nat).
Definition block (st : state) (p : ptr) : option bytes :=
  match p with
  | PNull => None
  | PStatic BFormat => Some (st_format st)
  | PStatic BItos => Some (st_itos st)
  | PStatic BUtos => Some (st_utos st)
  | PHeap i => nth_error (st_heap st) i
  end.
(** the string at a pointer *)
Definition read (st : state) (p : ptr) : option bytes := option_map cstr (block st p).

Inductive op :=
| Format (text : bytes)
| FormatNew (text : bytes) (garbage : option bytes)  (* malloc's answer: none, or 1024 bytes of anything *)
| Itos (n : Z)
| ItosNew (n : Z) (garbage : option bytes)
| Utos (n : Z).
Definition step (st : state) (o : op) : res (state * ptr) :=
  match o with
  | Format t =>                                                         (* 31-40 *)
    do '(b, _) <- vsnprintf (st_format st) 1024 t;
    Ok (St b (st_itos st) (st_utos st) (st_heap st), PStatic BFormat)
  | FormatNew t g =>                                                    (* 52-63 *)
    match g with
    | None => Ok (st, PNull)
    | Some g => do '(b, _) <- vsnprintf g 1024 t;
      Ok (St (st_format st) (st_itos st) (st_utos st) (st_heap st ++ [b]), PHeap (length (st_heap st)))
    end
  | Itos n =>                                                           (* 126-130 *)
    do b <- sprintf (st_itos st) (dec_int n);
    Ok (St (st_format st) b (st_utos st) (st_heap st), PStatic BItos)
  | ItosNew n g =>                                                      (* 133-138 *)
    match g with
    | None => Ok (st, PNull)
    | Some g => do b <- sprintf g (dec_int n);
      Ok (St (st_format st) (st_itos st) (st_utos st) (st_heap st ++ [b]), PHeap (length (st_heap st)))
    end
  | Utos n =>                                                           (* 141-145 *)
    do b <- sprintf (st_utos st) (dec_nat n);
    Ok (St (st_format st) (st_itos st) b (st_heap st), PStatic BUtos)
  end.
Fixpoint run (st : state) (l : list op) : res state :=
  match l with [] => Ok st | o :: l' => do '(st, _) <- step st o; run st l' end.

(** 42-50 *)
Definition format_into (buf : bytes) (size : nat) (text : bytes) : res (bytes * Z) := vsnprintf buf size text.

(** 65-80.  [fail]: the stream refuses the text (vprintf is then negative and writes nothing);
    puts writes the newline *)
Definition print (out : bytes) (fail : bool) (text : bytes) : bytes * Z :=
  if fail then (out, -1) else (out ++ text, Z.of_nat (length text)).
Definition println (out : bytes) (fail : bool) (text : bytes) : bytes * Z :=
  let '(out, ret) := print out fail text in (out ++ [10%N], ret + 1).
