(** Model of the JSON reader and writer of the language server: src/lsp/cJSON.c:281-405
    (parse_number), 599-660 (print_number), 669-1087 (strings), 1097-1249 (white space, BOM,
    cJSON_Parse), 1385-1905 (values, arrays, objects).

    A parser position is the list of the bytes from there to the end of the buffer, the NUL
    included; reading at the end of the buffer, or writing past an allocation, is [UB].  [Ok None]
    is a parse error.  [D] is the type double; [show] is what print_number writes; [strtod] gives the
    value and the number of bytes converted.  Simplifications: memory suffices (ensure gives the
    room that was asked for); the error position is left out; a string value is the bytes before
    its first NUL (that is what every reader of valuestring sees). *)
From Verif Require Import Common.

Section Cjson.
Context {D : Type} (show : D -> bytes) (strtod : bytes -> option (D * nat)).

Inductive json := JNull | JBool (b : bool) | JNum (d : D) | JStr (s : bytes) | JArr (l : list json) | JObj (l : list (bytes * json)).

(** ** Writing *)
(** print_string_ptr, 989-1010: the bytes added for escapes *)
Definition extra (c : N) : nat :=
  if ((c =? 34) || (c =? 92) || (c =? 8) || (c =? 12) || (c =? 10) || (c =? 13) || (c =? 9))%N then 1
  else if (c <? 32)%N then 5 else 0.
Definition escape_characters (s : bytes) : nat := fold_right (fun c n => extra c + n) 0 s.
Definition hex_digit (n : N) : N := if (n <? 10)%N then (48 + n)%N else (87 + n)%N.
(** 1032-1071 *)
Definition escape (c : N) : bytes :=
  if ((31 <? c) && negb (c =? 34) && negb (c =? 92))%N then [c]
  else 92%N :: (if c =? 92 then [92] else if c =? 34 then [34] else if c =? 8 then bs "b" else if c =? 12 then bs "f"
        else if c =? 10 then bs "n" else if c =? 13 then bs "r" else if c =? 9 then bs "t"
        else bs "u00" ++ [hex_digit (c / 16); hex_digit (c mod 16)])%N.
(** 960-1080; [UB]: more written than was reserved (1013) or a gap before the quote (1076) *)
Definition print_string (s : bytes) : res bytes :=
  let n := length s + escape_characters s in
  let body := if escape_characters s =? 0 then firstn n s else flat_map escape s in
  if length body =? n then Ok (34%N :: body ++ [34%N]) else UB.
Definition tabs (n : nat) : bytes := repeat 9%N n.
(** print_array, 1637-1658, and print_object, 1823-1877: what stands between the brackets *)
Definition print_elements (pr : json -> res bytes) (fmt : bool) : list json -> res bytes :=
  fix elements (l : list json) : res bytes :=
    match l with
    | [] => Ok []
    | v :: r => do t <- pr v; do u <- elements r;
                Ok (t ++ (match r with [] => [] | _ => if fmt then bs ", " else bs "," end) ++ u)
    end.
Definition print_members (pr : json -> res bytes) (fmt : bool) (depth : nat) : list (bytes * json) -> res bytes :=
  fix members (l : list (bytes * json)) : res bytes :=
    match l with
    | [] => Ok []
    | (k, v) :: r => do q <- print_string k; do t <- pr v; do u <- members r;
                Ok ((if fmt then tabs depth else []) ++ q ++ (if fmt then [58; 9] else [58])%N ++ t ++
                    (match r with [] => [] | _ => bs "," end) ++ (if fmt then [10] else [])%N ++ u)
    end.
(** print_value, print_array, print_object: 1445-1515, 1617-1675, 1797-1905 *)
Fixpoint print (fmt : bool) (depth : nat) (v : json) : res bytes :=
  match v with
  | JNull => Ok (bs "null")
  | JBool b => Ok (if b then bs "true" else bs "false")
  | JNum d => Ok (show d)
  | JStr s => print_string s
  | JArr l => do t <- print_elements (print fmt (S depth)) fmt l; Ok (bs "[" ++ t ++ bs "]")
  | JObj l => do t <- print_members (print fmt (S depth)) fmt (S depth) l;
              Ok (bs "{" ++ (if fmt then [10] else [])%N ++ t ++ (if fmt then tabs depth else []) ++ bs "}")
  end.

(** ** Reading *)
(** 1097-1120: what is at most 32 is skipped, the terminating NUL too; at the end one step back *)
Fixpoint drop_ws (l : bytes) : bytes := match l with c :: r => if (c <=? 32)%N then drop_ws r else l | [] => [] end.
Definition skip_ws (l : bytes) : bytes := match drop_ws l with [] => (match l with [] => [] | c :: r => [last r c] end) | r => r end.

(** parse_hex4, 669-701: 0 when a digit is not one *)
Definition hex_value (c : N) : option N :=
  (if (48 <=? c) && (c <=? 57) then Some (c - 48) else if (65 <=? c) && (c <=? 70) then Some (10 + c - 65)
   else if (97 <=? c) && (c <=? 102) then Some (10 + c - 97) else None)%N.
Definition parse_hex4 (a b c d : N) : N :=
  match hex_value a, hex_value b, hex_value c, hex_value d with
  | Some a, Some b, Some c, Some d => (N.shiftl (N.shiftl (N.shiftl a 4 + b) 4 + c) 4 + d)%N
  | _, _, _, _ => 0%N
  end.
(** 769-817 *)
Definition low (c : N) : N := N.land (N.lor c 128) 191.
Definition encode_utf8 (c : N) : bytes :=
  (if c <? 128 then [N.land c 127]
   else if c <? 2048 then [N.land (N.lor (N.shiftr c 6) 192) 255; low c]
   else if c <? 65536 then [N.land (N.lor (N.shiftr c 12) 224) 255; low (N.shiftr c 6); low c]
   else [N.land (N.lor (N.shiftr c 18) 240) 255; low (N.shiftr c 12); low (N.shiftr c 6); low c])%N.
(** parse_string, 880-936, on the bytes between the quotes; utf16_literal_to_utf8, 706-765.  A
    backslash that is the last byte takes the closing quote (905: input_end - input_pointer is 1) *)
Fixpoint decode (l : bytes) : option bytes :=
  match l with
  | [] => Some []
  | c :: r =>
    if negb (c =? 92)%N then option_map (cons c) (decode r)
    else match r with
         | [] => Some [34%N]
         | e :: r =>
           if (e =? ch "b")%N then option_map (cons 8%N) (decode r)
           else if (e =? ch "f")%N then option_map (cons 12%N) (decode r)
           else if (e =? ch "n")%N then option_map (cons 10%N) (decode r)
           else if (e =? ch "r")%N then option_map (cons 13%N) (decode r)
           else if (e =? ch "t")%N then option_map (cons 9%N) (decode r)
           else if ((e =? 34) || (e =? 92) || (e =? 47))%N then option_map (cons e) (decode r)
           else if (e =? ch "u")%N then
             match r with
             | a :: b :: c :: d :: r =>
               let first := parse_hex4 a b c d in
               if ((56320 <=? first) && (first <=? 57343))%N then None
               else if ((55296 <=? first) && (first <=? 56319))%N then
                 match r with
                 | p :: u :: a :: b :: c :: d :: r =>
                   if negb (p =? 92)%N || negb (u =? ch "u")%N then None
                   else let second := parse_hex4 a b c d in
                     if ((second <? 56320) || (57343 <? second))%N then None
                     else option_map (app (encode_utf8 (65536 + N.lor (N.shiftl (N.land first 1023) 10) (N.land second 1023))%N)) (decode r)
                 | _ => None
                 end
               else option_map (app (encode_utf8 first)) (decode r)
             | _ => None
             end
           else None
         end
  end.
(** 842-862: the bytes up to the closing quote, how many escapes were skipped, the rest *)
Fixpoint scan (l : bytes) : option (bytes * nat * bytes) :=
  match l with
  | [] => None
  | c :: r =>
    if (c =? 34)%N then Some ([], 0, r)
    else if (c =? 92)%N then
      match r with
      | [] => None
      | e :: r => match scan r with Some (b, n, q) => Some (c :: e :: b, S n, q) | None => None end
      end
    else match scan r with Some (b, n, q) => Some (c :: b, n, q) | None => None end
  end.
(** 828-957 *)
Definition parse_string (l : bytes) : res (option (bytes * bytes)) :=
  match l with
  | [] => UB
  | c :: r =>
    if negb (c =? 34)%N then Ok None
    else match scan r with
         | None => Ok None
         | Some (body, skipped, rest) =>
           let allocated := length body + 1 - skipped + 1 in       (* 870-871 *)
           match decode body with
           | None => Ok None
           | Some s => if length s + 1 <=? allocated then Ok (Some (cstr s, rest)) else UB
           end
         end
  end.
(** parse_number, 310-405 *)
Definition num_char (c : N) : bool := (((48 <=? c) && (c <=? 57)) || (c =? 43) || (c =? 45) || (c =? 101) || (c =? 69) || (c =? 46))%N.
Fixpoint num_run (l : bytes) : bytes := match l with c :: r => if num_char c then c :: num_run r else [] | [] => [] end.
Definition parse_number (l : bytes) : option (D * bytes) :=
  match strtod (num_run l) with
  | Some (d, n) => if n =? 0 then None else Some (d, skipn n l)
  | None => None
  end.

(** parse_value, 1385-1442; parse_array, 1519-1613; parse_object, 1679-1793 *)
Fixpoint parse_value (fuel depth : nat) (l : bytes) : res (option (json * bytes)) :=
  match fuel with
  | O => Fuel
  | S fuel =>
    if is_prefix (bs "null") l then Ok (Some (JNull, skipn 4 l))
    else if is_prefix (bs "false") l then Ok (Some (JBool false, skipn 5 l))
    else if is_prefix (bs "true") l then Ok (Some (JBool true, skipn 4 l))
    else match l with
    | [] => Ok None
    | c :: r =>
      if (c =? 34)%N then do o <- parse_string l; Ok (match o with Some (s, q) => Some (JStr s, q) | None => None end)
      else if ((c =? 45) || ((48 <=? c) && (c <=? 57)))%N then Ok (match parse_number l with Some (d, q) => Some (JNum d, q) | None => None end)
      else if (c =? 91)%N then
        if 1000 <=? depth then Ok None
        else let l := skip_ws r in
          match l with
          | [] => Ok None
          | x :: q => if (x =? 93)%N then Ok (Some (JArr [], q))
                      else do o <- parse_items fuel (S depth) l; Ok (match o with Some (vs, q) => Some (JArr vs, q) | None => None end)
          end
      else if (c =? 123)%N then
        if 1000 <=? depth then Ok None
        else let l := skip_ws r in
          match l with
          | [] => Ok None
          | x :: q => if (x =? 125)%N then Ok (Some (JObj [], q))
                      else do o <- parse_members fuel (S depth) l; Ok (match o with Some (vs, q) => Some (JObj vs, q) | None => None end)
          end
      else Ok None
    end
  end
(** the loop 1553-1589 and the end 1591-1608, from before an element *)
with parse_items (fuel depth : nat) (l : bytes) : res (option (list json * bytes)) :=
  match fuel with
  | O => Fuel
  | S fuel =>
    do o <- parse_value fuel depth (skip_ws l);
    match o with
    | None => Ok None
    | Some (v, l) =>
      match skip_ws l with
      | [] => Ok None
      | x :: r =>
        if (x =? 44)%N then do o <- parse_items fuel depth r; Ok (match o with Some (vs, q) => Some (v :: vs, q) | None => None end)
        else if (x =? 93)%N then Ok (Some ([v], r)) else Ok None
      end
    end
  end
with parse_members (fuel depth : nat) (l : bytes) : res (option (list (bytes * json) * bytes)) :=
  match fuel with
  | O => Fuel
  | S fuel =>
    match l with
    | [] => Ok None                       (* 1734: nothing comes after the comma *)
    | _ =>
      do o <- parse_string (skip_ws l);
      match o with
      | None => Ok None
      | Some (k, l) =>
        match skip_ws l with
        | [] => Ok None
        | x :: l =>
          if negb (x =? 58)%N then Ok None
          else do o <- parse_value fuel depth (skip_ws l);
            match o with
            | None => Ok None
            | Some (v, l) =>
              match skip_ws l with
              | [] => Ok None
              | x :: r =>
                if (x =? 44)%N then do o <- parse_members fuel depth r; Ok (match o with Some (vs, q) => Some ((k, v) :: vs, q) | None => None end)
                else if (x =? 125)%N then Ok (Some ([(k, v)], r)) else Ok None
              end
            end
        end
      end
    end
  end.
(** cJSON_Parse, 1123-1245: the text before its NUL; what follows the value is not looked at *)
Definition parse (text : bytes) : res (option json) :=
  let l := text ++ [0%N] in
  let l := if (4 <? length l) && is_prefix [239; 187; 191]%N l then skipn 3 l else l in
  do o <- parse_value (2 * length l + 1) 0 (skip_ws l);
  Ok (match o with Some (v, _) => Some v | None => None end).
End Cjson.
Arguments json D : clear implicits.
