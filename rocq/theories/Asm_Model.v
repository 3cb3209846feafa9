(** Model of inline assembly: parse_asm (parser_stmt.c:624-960) and the asm statement written
    for it (codegen_stmt.c:1381-1556).

    [UB]: a buffer of the compiler overflows.  [Panic]: an error message.  The lists of operands
    are given as they are written, in the order of the sections; the words in front of inputs
    are left out (they only have to begin with in, 847). *)
From Verif Require Import Common.
Local Open Scope nat_scope.

(** The tokens of the block; [TStr]: the text between the quotes, escapes as written *)
Inductive tok := TStr (s : bytes) | TIdent (s : bytes) | TLBrace | TRBrace | TColon | TSemi | TText (s : bytes).
Definition text (t : tok) : bytes :=
  match t with
  | TStr s => [34%N] ++ s ++ [34%N]
  | TIdent s | TText s => s
  | TLBrace => bs "{" | TRBrace => bs "}" | TColon => bs ":" | TSemi => bs ";"
  end.
(** parser_stmt.c:669-673, 680-684 *)
Definition new_line (code : bytes) : bytes := match code with [] => [] | _ => code ++ [10%N] end.
(** 719-732: the character an argument follows *)
Definition last_char (code : bytes) : N :=
  match rev code with [] => 0%N | c :: r => match r with d :: _ => if (c =? 32)%N then d else c | [] => c end end.
(** 741-756 *)
Definition put_arg (code : bytes) (s : bytes) : bytes :=
  match rev code with
  | c :: _ => if (c =? 37)%N || (c =? 36)%N then code ++ s else code ++ [32%N] ++ s
  | [] => code ++ [32%N] ++ s
  end.
(** 651-763: [Top]: before an instruction; [Args]: behind a bare one; [Sub]: inside braces.
    At the end of the file the loop over arguments goes on writing for ever. *)
Inductive mode := Top | Args | Sub.
Fixpoint build (m : mode) (ts : list tok) (code : bytes) : res (bytes * list tok) :=
  match ts with
  | [] => match m with Top => Panic | _ => UB end
  | t :: ts' =>
    match m with
    | Top =>
      match t with
      | TRBrace | TColon => Ok (code, ts)
      | TStr s => build Top ts' (new_line code ++ s)
      | TIdent s => build Args ts' (new_line code ++ s)
      | _ => Panic
      end
    | Args =>
      match t with
      | TRBrace | TColon => Ok (code, ts)
      | TSemi => build Top ts' code
      | TLBrace => build Sub ts' (code ++ bs "{")
      | TIdent s =>
        let c := last_char code in
        if (c =? 37)%N || (c =? 36)%N || (c =? 44)%N then build Args ts' (put_arg code s)
        else build Args ts' (new_line code ++ s)
      | _ => build Args ts' (put_arg code (text t))
      end
    | Sub =>
      match t with
      | TRBrace => build Args ts' (code ++ bs "}")
      | _ => build Sub ts' (code ++ text t)
      end
    end
  end.
(** the buffer of 4096 bytes (647) *)
Definition parse_code (ts : list tok) : res (bytes * list tok) :=
  do '(code, r) <- build Top ts []; if (Z.of_nat (length code) <? 4096)%Z then Ok (code, r) else UB.

(** codegen_stmt.c:1416-1440 *)
Fixpoint index_of (v : bytes) (l : list bytes) : option nat :=
  match l with [] => None | x :: l => if beq_bytes x v then Some 0 else match index_of v l with Some i => Some (S i) | None => None end end.
Definition find_operand (outs ins : list bytes) (v : bytes) : option nat :=
  match index_of v outs with
  | Some i => Some i
  | None => match index_of v ins with Some i => Some (length outs + i) | None => None end
  end.
(** %d of a number below 100 *)
Definition show (i : nat) : bytes :=
  if i <? 10 then [(48 + N.of_nat i)%N] else [(48 + N.of_nat (i / 10))%N; (48 + N.of_nat (i mod 10))%N].
(** strchr(p + 1, '}'): the text before it *)
Fixpoint to_brace (l : bytes) : option bytes :=
  match l with
  | [] => None
  | c :: l => if (c =? 125)%N then Some [] else match to_brace l with Some r => Some (c :: r) | None => None end
  end.
(** 1399-1476.  [skip]: characters of a placeholder already dealt with *)
Fixpoint transform (ext : bool) (outs ins : list bytes) (skip : nat) (l : bytes) : res bytes :=
  match l with
  | [] => Ok []
  | c :: l =>
    match skip with
    | S k => transform ext outs ins k l
    | O =>
      if (c =? 123)%N then
        match to_brace l with
        | Some v =>
          if 64 <=? length v then UB
          else do r <- transform ext outs ins (S (length v)) l;
            Ok ((match find_operand outs ins v with Some i => 37%N :: show i | None => bs "{" ++ v ++ bs "}" end) ++ r)
        | None => do r <- transform ext outs ins 0 l; Ok (c :: r)
        end
      else do r <- transform ext outs ins 0 l;
        Ok (if (c =? 37)%N && ext then c :: c :: r else c :: r)
    end
  end.
(** 1478-1498: the C string literals *)
Definition escape (c : N) : bytes :=
  if (c =? 10)%N then bs "\n" ++ [34%N; 10%N] ++ bs "        " ++ [34%N]
  else if (c =? 34)%N then [92%N; 34%N]
  else if (c =? 92)%N then [92%N; 92%N]
  else [c].
Definition quote (t : bytes) : bytes := [34%N] ++ flat_map escape t ++ bs "\n" ++ [34%N].

(** The operands between the colons that are written *)
Inductive operand := Out (plus : bool) (v : bytes) | In_ (v : bytes) | Clob (s : bytes).
(** 1509-1522 *)
Definition out_operand (o : bytes * bytes) : operand := Out (beq_bytes (fst o) (bs "inout")) (snd o).
(** 1498-1553: one list for each colon *)
Definition sections (outs : list (bytes * bytes)) (ins clobs : list bytes) : list (list operand) :=
  (match outs with [] => [] | _ => [map out_operand outs] end)
  ++ (match ins, outs with [], [] => [] | _, _ => [map In_ ins] end)
  ++ (match clobs with [] => [] | _ => [map Clob clobs] end).
(** The statement: the arrays of 16 names (parser_stmt.c:774, 826, 878), the text and the lists *)
Definition asm (outs : list (bytes * bytes)) (ins clobs : list bytes) (code : bytes) : res (bytes * list (list operand)) :=
  if (16 <? length outs) || (16 <? length ins) || (16 <? length clobs) then UB
  else
    let ext := negb (match outs, ins, clobs with [], [], [] => true | _, _, _ => false end) in
    do t <- transform ext (map snd outs) ins 0 code;
    Ok (quote t, sections outs ins clobs).
