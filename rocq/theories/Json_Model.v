(** Model of std/json.zc.

    A text is the list of the bytes before its terminating NUL.  A parser position is
    the list of the bytes from there on, so [peek0] of [[]] is the NUL and moving on
    from [[]] would leave the text ([UB]).  Recursion depth is not limited.

    Objects: the Map of object_val is modelled by the list of its entries
    (Map_Props shows that Map behaves as a finite map, and that iteration visits every
    entry once in an unspecified order: the order of the list).

    [D] is the type double; [fmt] is sprintf("%.15g"); [strtod] gives the value and the
    number of bytes converted, [None] if there is no conversion. *)
From Verif Require Import Common.

Section Json.
  Context {D : Type} (fmt : D -> bytes) (strtod : bytes -> option (D * nat)).

  (** json.zc:11-28 *)
  Inductive json :=
  | JNull
  | JBool (b : bool)
  | JNum (d : D)
  | JStr (s : bytes)
  | JArr (l : list json)
  | JObj (l : list (bytes * json)).

  (** reading at the pointer, and moving it on by one *)
  Definition peek0 (l : bytes) : N := match l with [] => 0%N | c :: _ => c end.
  Definition next (l : bytes) : res bytes := match l with [] => UB | _ :: l => Ok l end.

  (** json.zc:39-41 *)
  Definition is_ws (c : N) : bool := ((c =? 32) || (c =? 9) || (c =? 10) || (c =? 13))%N.
  Fixpoint skip_ws (l : bytes) : bytes :=
    match l with
    | c :: l' => if is_ws c then skip_ws l' else l
    | [] => []
    end.

  (** json.zc:50-56 *)
  Definition unescape (c : N) : N :=
    if (c =? ch "n")%N then 10%N
    else if (c =? ch "t")%N then 9%N
    else if (c =? ch "r")%N then 13%N
    else c.

  (** buf[len++] = c, for char buf[4096] (json.zc:46) *)
  Definition put_char (buf : bytes) (c : N) : res bytes :=
    if length buf <? 4096 then Ok (buf ++ [c]) else UB.

  (** json.zc:47-61; [buf] holds the bytes stored so far *)
  Fixpoint string_loop (l buf : bytes) : res (bytes * bytes) :=
    match l with
    | [] => Ok (buf, [])
    | c :: l' =>
      if (c =? 34)%N then Ok (buf, l)
      else if (c =? 92)%N then
        match l' with
        | e :: l'' => do buf <- put_char buf (unescape e); string_loop l'' buf
        | [] => do buf <- put_char buf c; string_loop l' buf
        end
      else do buf <- put_char buf c; string_loop l' buf
    end.

  (** json.zc:43-65; the result of strdup stops at a NUL, of which there is none *)
  Definition parse_string (l : bytes) : res (option bytes * bytes) :=
    if negb (peek0 l =? 34)%N then Ok (None, l)
    else
      do l <- next l;
      do '(buf, l) <- string_loop l [];
      do l <- (if (peek0 l =? 34)%N then next l else Ok l);
      do _ <- put_char buf 0%N;
      Ok (Some buf, l).

  (** Map.put *)
  Fixpoint put (k : bytes) (v : json) (m : list (bytes * json)) : list (bytes * json) :=
    match m with
    | [] => [(k, v)]
    | (k', v') :: m => if beq_bytes k' k then (k', v) :: m else (k', v') :: put k v m
    end.

  Definition is_digit (c : N) : bool := ((48 <=? c) && (c <=? 57))%N.

  (** json.zc:124-170, 69-91 and 93-122.  [None] is the null result. *)
  Fixpoint parse_value (f : nat) (l : bytes) : res (option json * bytes) :=
    match f with
    | 0 => Fuel
    | S f =>
      let l := skip_ws l in
      if (peek0 l =? 0)%N then Ok (None, l)
      else if is_prefix (bs "null") l then Ok (Some JNull, skipn 4 l)
      else if is_prefix (bs "true") l then Ok (Some (JBool true), skipn 4 l)
      else if is_prefix (bs "false") l then Ok (Some (JBool false), skipn 5 l)
      else if (peek0 l =? 34)%N then
        do '(s, l) <- parse_string l;
        Ok (match s with Some s => Some (JStr s) | None => None end, l)
      else if (peek0 l =? ch "-")%N || is_digit (peek0 l) then
        match strtod l with
        | None => Ok (None, l)
        | Some (d, n) => if n <=? length l then Ok (Some (JNum d), skipn n l) else UB
        end
      else if (peek0 l =? ch "[")%N then
        do l <- next l;
        let l := skip_ws l in
        if (peek0 l =? ch "]")%N then do l <- next l; Ok (Some (JArr []), l)
        else array_loop f l []
      else if (peek0 l =? ch "{")%N then
        do l <- next l;
        let l := skip_ws l in
        if (peek0 l =? ch "}")%N then do l <- next l; Ok (Some (JObj []), l)
        else object_loop f l []
      else Ok (None, l)
    end
  (** json.zc:81-90; [acc]: the elements pushed *)
  with array_loop (f : nat) (l : bytes) (acc : list json) : res (option json * bytes) :=
    match f with
    | 0 => Fuel
    | S f =>
      do '(v, l) <- parse_value f (skip_ws l);
      match v with
      | None => Ok (None, l)
      | Some v =>
        let acc := acc ++ [v] in
        let l := skip_ws l in
        if (peek0 l =? ch "]")%N then do l <- next l; Ok (Some (JArr acc), l)
        else if negb (peek0 l =? ch ",")%N then Ok (None, l)
        else do l <- next l; array_loop f l acc
      end
    end
  (** json.zc:105-121 *)
  with object_loop (f : nat) (l : bytes) (acc : list (bytes * json)) : res (option json * bytes) :=
    match f with
    | 0 => Fuel
    | S f =>
      do '(key, l) <- parse_string (skip_ws l);
      match key with
      | None => Ok (None, l)
      | Some key =>
        let l := skip_ws l in
        if negb (peek0 l =? ch ":")%N then Ok (None, l)
        else
          do l <- next l;
          do '(v, l) <- parse_value f (skip_ws l);
          match v with
          | None => Ok (None, l)
          | Some v =>
            let acc := put key v acc in
            let l := skip_ws l in
            if (peek0 l =? ch "}")%N then do l <- next l; Ok (Some (JObj acc), l)
            else if negb (peek0 l =? ch ",")%N then Ok (None, l)
            else do l <- next l; object_loop f l acc
          end
      end
    end.

  (** json.zc:172-175, 261-267: [None] is Result::Err *)
  Definition json_parse (text : bytes) : res (option json) :=
    do '(v, _) <- parse_value (2 * length text + 1) text; Ok v.

  (** json.zc:482-493 *)
  Definition escape (c : N) : bytes :=
    if (c =? 34)%N then [92; 34]%N
    else if (c =? 92)%N then [92; 92]%N
    else if (c =? 10)%N then [92; ch "n"]%N
    else if (c =? 9)%N then [92; ch "t"]%N
    else if (c =? 13)%N then [92; ch "r"]%N
    else if (c =? 8)%N then [92; ch "b"]%N
    else if (c =? 12)%N then [92; ch "f"]%N
    else [c].

  (** json.zc:468-523.  The String buffer is the list of the bytes appended (C11).
      In Zen-C source the literal of line 506 is an open brace. *)
  Fixpoint stringify (v : json) : bytes :=
    match v with
    | JNull => bs "null"
    | JBool b => if b then bs "true" else bs "false"
    | JNum d => fmt d
    | JStr s => [34%N] ++ flat_map escape s ++ [34%N]
    | JArr l =>
      [ch "["] ++
      (fix items (first : bool) (l : list json) : bytes :=
         match l with
         | [] => []
         | v :: l => (if first then [] else [ch ","]) ++ stringify v ++ items false l
         end) true l ++ [ch "]"]
    | JObj l =>
      [ch "{"] ++
      (fix members (first : bool) (l : list (bytes * json)) : bytes :=
         match l with
         | [] => []
         | (k, v) :: l => (if first then [] else [ch ","]) ++
             [34%N] ++ k ++ [34%N; ch ":"] ++ stringify v ++ members false l
         end) true l ++ [ch "}"]
    end.
End Json.
Arguments json : clear implicits.
