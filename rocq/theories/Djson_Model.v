(** Model of @derive(ToJson) and @derive(FromJson): what the methods written by
    parser_core.c:1064-1218 (from_json) and 1219-1302 (to_json) do, and the text of
    from_json.  JSON values are those of Json_Model.v.

    [D] is the type double, [of_int] the conversion of an integer to it and [to_int] that of
    a double to int, [None] where C leaves it undefined.

    Simplifications: a field type is one of those the methods know; the strings of char* and
    String fields are bytes without NUL and never null; the heap is not modelled, so neither
    are the copies and forget calls made for vectors. *)
From Verif Require Import Common Json_Model.

(** The integer types: number of bits, signed or not.  String and char* fields convert alike. *)
Inductive ty := TInt (bits : Z) (signed : bool) | TDouble | TBool | TStr | TVec | TStruct (fs : fields)
with fields := FNil | FCons (name : bytes) (t : ty) (fs : fields).

Section Derive.
  Context {D : Type} (of_int : Z -> D) (to_int : D -> option Z) (zero : D).

  (** [VIndet]: a variable never assigned *)
  Inductive val := VInt (z : Z) | VDouble (d : D) | VBool (b : bool) | VStr (s : bytes) | VVec (l : list bytes)
  | VStruct (l : vals) | VIndet
  with vals := VNil | VCons (v : val) (l : vals).

  (** Conversion of an int to an integer type *)
  Definition convert (bits : Z) (signed : bool) (z : Z) : Z :=
    let m := (z mod 2 ^ bits)%Z in if signed && (2 ^ (bits - 1) <=? m)%Z then (m - 2 ^ bits)%Z else m.

  (** parser_core.c:1219-1302; the method of a struct sets the fields in order *)
  Fixpoint to_json (t : ty) (v : val) {struct t} : res (json D) :=
    match t, v with
    | TInt _ _, VInt z => Ok (JNum (of_int z))             (* 1253-1257 *)
    | TDouble, VDouble d => Ok (JNum d)                    (* 1258-1262 *)
    | TBool, VBool b => Ok (JBool b)                       (* 1263-1266 *)
    | TStr, VStr s => Ok (JStr s)                          (* 1267-1276 *)
    | TVec, VVec l => Ok (JArr (map JStr l))               (* 1277-1287 *)
    | TStruct fs, VStruct l => do m <- set_fields fs l []; Ok (JObj m)   (* 1288-1292 *)
    | _, _ => UB
    end
  with set_fields (fs : fields) (l : vals) (m : list (bytes * json D)) {struct fs} : res (list (bytes * json D)) :=
    match fs, l with
    | FNil, VNil => Ok m
    | FCons n t fs, VCons v l => do j <- to_json t v; set_fields fs l (put n j m)
    | _, _ => UB
    end.

  (** json.zc:333-341 *)
  Fixpoint lookup (k : bytes) (m : list (bytes * json D)) : option (json D) :=
    match m with [] => None | (k', v) :: m => if beq_bytes k' k then Some v else lookup k m end.
  Definition get (k : bytes) (j : json D) : option (json D) :=
    match j with JObj m => lookup k m | _ => None end.
  (** 1134-1154: the strings of an array, other elements left out *)
  Fixpoint strings (l : list (json D)) : list bytes :=
    match l with [] => [] | JStr s :: l => s :: strings l | _ :: l => strings l end.

  (** parser_core.c:1064-1218.  [field t o]: the field of type [t] from what was found under
      its name; the method of a nested struct always succeeds *)
  Fixpoint field (t : ty) (o : option (json D)) {struct t} : res val :=
    match t with
    | TInt b s =>                                          (* 1104-1107, json.zc:308-313 *)
      match o with
      | Some (JNum d) => match to_int d with Some z => Ok (VInt (convert b s z)) | None => UB end
      | _ => Ok (VInt 0)
      end
    | TDouble => Ok (VDouble (match o with Some (JNum d) => d | _ => zero end))
    | TBool => Ok (VBool (match o with Some (JBool b) => b | _ => false end))
    | TStr => Ok (VStr (match o with Some (JStr s) => s | _ => [] end))
    | TVec => Ok (VVec (match o with Some (JArr l) => strings l | _ => [] end))
    | TStruct fs =>                                        (* 1157-1166 *)
      match o with
      | Some j => do l <- get_fields fs j; Ok (VStruct l)
      | None => Ok VIndet
      end
    end
  with get_fields (fs : fields) (j : json D) {struct fs} : res vals :=
    match fs with
    | FNil => Ok VNil
    | FCons n t fs => do v <- field t (get n j); do l <- get_fields fs j; Ok (VCons v l)
    end.
  (** S::from_json(j): Result::Ok of the struct *)
  Definition from_json (fs : fields) (j : json D) : res val := do l <- get_fields fs j; Ok (VStruct l).
End Derive.
Arguments val : clear implicits.
Arguments vals : clear implicits.

(** The text of from_json: the assignments, formatted into an array of 2048 bytes each and
    appended to one of 8192, then the constructor with one initializer of at most 128 bytes
    for each field.  [ft]: the assignment's kind *)
Inductive kind := KInt | KVec | KNested (type : bytes).
Definition assign_text (n : bytes) (k : kind) : bytes :=
  match k with
  | KInt => bs "let _f_" ++ n ++ bs " = (*j).get_int(""" ++ n ++ bs """).unwrap_or(0);" ++ [10%N]
  | KVec =>
    bs "let _f_" ++ n ++ bs " = Vec<String>::new();" ++ [10%N]
    ++ bs "let _arr_" ++ n ++ bs " = (*j).get_array(""" ++ n ++ bs """);" ++ [10%N]
    ++ bs "if _arr_" ++ n ++ bs ".is_some() {" ++ [10%N]
    ++ bs "  let _a_" ++ n ++ bs " = _arr_" ++ n ++ bs ".unwrap();" ++ [10%N]
    ++ bs "  for let _i_" ++ n ++ bs ": usize = 0; _i_" ++ n ++ bs " < _a_" ++ n ++ bs ".len(); _i_" ++ n ++ bs " = _i_" ++ n ++ bs " + 1 {" ++ [10%N]
    ++ bs "    let _item_" ++ n ++ bs " = _a_" ++ n ++ bs ".at(_i_" ++ n ++ bs ");" ++ [10%N]
    ++ bs "    if _item_" ++ n ++ bs ".is_some() {" ++ [10%N]
    ++ bs "      let _str_" ++ n ++ bs " = (*_item_" ++ n ++ bs ".unwrap()).as_string();" ++ [10%N]
    ++ bs "      if _str_" ++ n ++ bs ".is_some() {" ++ [10%N]
    ++ bs "        let _s_" ++ n ++ bs " = String::new(_str_" ++ n ++ bs ".unwrap());" ++ [10%N]
    ++ bs "        _f_" ++ n ++ bs ".push(_s_" ++ n ++ bs "); _s_" ++ n ++ bs ".forget();" ++ [10%N]
    ++ bs "      }" ++ [10%N] ++ bs "    }" ++ [10%N] ++ bs "  }" ++ [10%N] ++ bs "}" ++ [10%N]
  | KNested t =>
    bs "let _opt_" ++ n ++ bs " = (*j).get(""" ++ n ++ bs """);" ++ [10%N]
    ++ bs "let _f_" ++ n ++ bs ": " ++ t ++ bs ";" ++ [10%N]
    ++ bs "if _opt_" ++ n ++ bs ".is_some() { _f_" ++ n ++ bs " = " ++ t ++ bs "::from_json(_opt_" ++ n ++ bs ".unwrap()).unwrap(); }" ++ [10%N]
  end.
Definition init_text (n : bytes) (k : kind) : bytes :=
  match k with KVec => n ++ bs ": _f_" ++ n ++ bs ".clone()" | _ => n ++ bs ": _f_" ++ n end.
(** Pieces of text with the size of the array each is formatted into; [sprintf] and [strcat] *)
Fixpoint pieces_cat (l : list (nat * bytes)) (body : bytes) : res bytes :=
  match l with
  | [] => Ok body
  | (cap, p) :: l =>
    if length p <? cap then
      if (Z.of_nat (length body + length p) <? 8192)%Z then pieces_cat l (body ++ p) else UB
    else UB
  end.
Fixpoint inits (fs : list (bytes * kind)) (first : bool) : list (nat * bytes) :=
  match fs with
  | [] => []
  | (n, k) :: fs => (if first then [] else [(3, bs ", ")]) ++ (128, init_text n k) :: inits fs false
  end.
(** Literals and names are appended without a temporary: no limit of their own *)
Definition free (p : bytes) : nat * bytes := (S (length p), p).
Definition from_body (name : bytes) (fs : list (bytes * kind)) : res bytes :=
  pieces_cat (map (fun f => (2048, assign_text (fst f) (snd f))) fs
              ++ [free (bs "return Result<"); free name; free (bs ">::Ok("); free name; free (bs " { ")]
              ++ inits fs true ++ [free (bs " }); ")]) [].
