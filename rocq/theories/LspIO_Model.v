(** Model of the main loop of the language server, src/lsp/lsp_main.c:9-65.

    The input is the list of bytes standard input delivers before its end; the result is
    the list of C strings handed to handle_request, in order.
    atoi of a number that does not fit in an int is undefined (C11 7.22.1p1): [UB].
    Simplification: malloc of at most 10 MB succeeds. *)
From Verif Require Import Common.
Local Open Scope nat_scope.

(** fgets: at most [k] bytes, up to and including a newline *)
Fixpoint fgets_loop (k : nat) (s : bytes) : bytes * bytes :=
  match k, s with
  | S k', c :: s' => if (c =? 10)%N then ([c], s')
                     else let '(line, rest) := fgets_loop k' s' in (c :: line, rest)
  | _, _ => ([], s)
  end.
(** lsp_main.c:20-21: char line[512], fgets stores at most 511 bytes *)
Definition line_max : nat := 511.
Definition fgets (s : bytes) : option (bytes * bytes) :=
  match s with [] => None | _ => Some (fgets_loop line_max s) end.

(** atoi: white space, a sign, digits *)
Definition isspace (c : N) : bool := (c =? 32)%N || ((9 <=? c)%N && (c <=? 13)%N).
Definition isdigit (c : N) : bool := ((48 <=? c)%N && (c <=? 57)%N).
Fixpoint digits (acc : Z) (s : bytes) : Z :=
  match s with
  | c :: s' => if isdigit c then digits (acc * 10 + (Z.of_N c - 48))%Z s' else acc
  | [] => acc
  end.
Fixpoint skip_space (s : bytes) : bytes :=
  match s with
  | c :: s' => if isspace c then skip_space s' else s
  | [] => []
  end.
Definition atoi (s : bytes) : res Z :=
  let v := match skip_space s with
           | 45%N :: s' => (- digits 0 s')%Z
           | 43%N :: s' => digits 0 s'
           | s' => digits 0 s'
           end in
  if ((-2147483648 <=? v) && (v <=? 2147483647))%Z then Ok v else UB.

(** lsp_main.c:19-31: content_len, what is left, and whether the end of input was hit *)
Fixpoint read_headers (fuel : nat) (content_len : Z) (s : bytes) : res (Z * bytes * bool) :=
  match fuel with
  | O => Fuel
  | S k =>
    match fgets s with
    | None => Ok (content_len, s, true)
    | Some (line, s') =>
        if beq_bytes (cstr line) [13; 10]%N then Ok (content_len, s', false)
        else if is_prefix (bs "Content-Length: ") line then
          do n <- atoi (cstr (skipn 16 line)); read_headers k n s'
        else read_headers k content_len s'
    end
  end.
Definition body_max : Z := 10485760.
(** lsp_main.c:16-62 *)
Fixpoint lsp_main (fuel : nat) (s : bytes) : res (list bytes) :=
  match fuel with
  | O => Fuel
  | S k =>
    do '(content_len, s1, eof) <- read_headers (length s + 1) 0 s;
    if (content_len <=? 0)%Z then (if eof then Ok [] else lsp_main k s1)
    else if (body_max <? content_len)%Z then Ok []
    else if (Z.of_nat (length s1) <? content_len)%Z then Ok []
    else
      let n := Z.to_nat content_len in
      do r <- lsp_main k (skipn n s1);
      Ok (cstr (firstn n s1) :: r)
  end.
