(** C106: types in the generated C. *)
From Verif Require Import Common Ctype_Model Ctype_Spec Ctype_Proofs.
Local Open Scope nat_scope.

Section Names.
  Variable zen_name : ty -> bytes.
  Variable is_struct : bytes -> bool.
  Notation var_decl := (var_decl zen_name is_struct).
  Notation cdecl := (cdecl zen_name).
  Notation c_string := (c_string zen_name).

  (** A variable, a field or a parameter of a usual type is declared in C with this type:
      base types, slices, closures, pointers to them, fixed arrays of these in any number of
      dimensions, function pointers that return one of the first, and pointers to function
      pointers; a const in front of the type stands in front of the declaration. *)
  Theorem C106_decl_partial :
    forall t name, usual zen_name t -> forallb word_char name = true ->
    (exists s, var_decl t name = Ok s /\ toks s = cdecl t (flush name)) /\
    (exists s, var_decl (TConst t) name = Ok s /\ toks s = W (bs "const") :: cdecl t (flush name)).
  Proof. intros t name U Hn. exact (var_ok zen_name is_struct t name U Hn). Qed.

  (** So is the type alone, as in a cast. *)
  Theorem C106_type_partial :
    forall t, usual zen_name t -> exists s, c_string t = Ok s /\ toks s = cdecl t [].
  Proof.
    intros t U. destruct (proj1 (forms zen_name) t U) as (a & d & E & T).
    rewrite c_string_parts by (now apply usual_not_const in U). rewrite E. cbn [bind]. eauto.
  Qed.

  (** A function that returns a plain type or a function pointer is declared with its
      return type, its name and its parameters. *)
  Theorem C106_fun_partial :
    forall ret name params va,
    (plain zen_name ret \/ exists args r, ret = TFun true args r /\ plain zen_name r /\ all_usual zen_name args) ->
    ident name -> Forall (param_ok zen_name) params ->
    exists s, func_signature zen_name is_struct ret name params va = Ok s /\
      toks s = cfun zen_name ret name params va.
  Proof.
    intros ret name params va R Hn P. destruct (params_ok zen_name is_struct params P) as (l & E & F).
    apply join_commas in F.
    unfold func_signature, cfun. cbn zeta.
    set (A := match params with
              | [] => if va then bs "..." else bs "void"
              | _ :: _ => join l ++ (if va then bs ", ..." else [])
              end).
    set (B := match params with
              | [] => if va then [S_ 46%N; S_ 46%N; S_ 46%N] else [W (bs "void")]
              | _ :: _ => commas (map (fun p => cdecl (fst p) (flush (snd p))) params) ++ (if va then S_ 44%N :: [S_ 46%N; S_ 46%N; S_ 46%N] else [])
              end).
    assert (AB : toks A = B).
    { unfold A, B. destruct params as [|p ps]; [destruct va; reflexivity|]. rewrite <- F. destruct va; [|now rewrite !app_nil_r].
      change (bs ", ...") with (44 :: 32 :: bs "...")%N. rewrite toks_sym by (reflexivity || discriminate). reflexivity. }
    destruct R as [R|(args & r & -> & R & U)].
    - destruct (plain_ok zen_name ret R) as (s & Ps & O & C).
      rewrite c_string_parts by (apply (usual_not_const zen_name); constructor; now constructor).
      rewrite Ps. cbn [bind]. rewrite E. cbn [bind]. rewrite app_nil_r.
      change (bs "(*)") with (40 :: bs "*)")%N. rewrite split_none by (apply (okc_not 40%N); auto).
      eexists. split; [reflexivity|]. fold A. rewrite C.
      change (s ++ bs " " ++ name ++ bs "(" ++ A ++ bs ")") with (s ++ 32%N :: (name ++ 40%N :: (A ++ 41%N :: []))).
      rewrite toks_sp. f_equal. rewrite toks_sym by (reflexivity || discriminate). rewrite (toks_ident _ Hn).
      rewrite toks_sym by (reflexivity || discriminate). rewrite AB. reflexivity.
    - destruct (plain_ok zen_name r R) as (s & Ps & O & C).
      destruct (proj2 (proj2 (forms zen_name)) args U) as (ps & Ep & T).
      rewrite c_string_parts by reflexivity. cbn [parts]. rewrite Ps. cbn [bind]. rewrite Ep. cbn [bind]. rewrite E. cbn [bind].
      rewrite !app_nil_r.
      set (Q := join (map (fun p => fst p ++ snd p) ps)) in *. cbn [app].
      change (s ++ bs " (*)(" ++ Q ++ bs ")") with (s ++ [32%N] ++ 40%N :: (bs "*)(" ++ Q ++ bs ")")).
      rewrite (app_assoc s). change (bs "(*)") with (40 :: bs "*)")%N.
      rewrite split_first; [|apply (okc_not 40%N); [reflexivity|rewrite forallb_app, O; reflexivity]|reflexivity].
      eexists. split; [reflexivity|]. fold A. cbn [cdecl Ctype_Spec.cdecl]. rewrite C.
      rewrite <- !app_assoc.
      match goal with |- toks ?x = _ => change x with
        (s ++ 32%N :: ([] ++ 40%N :: ([] ++ 42%N :: (name ++ 40%N :: (A ++ 41%N :: ([] ++ 41%N :: ([] ++ 40%N :: (Q ++ 41%N :: []))))))))
      end.
      rewrite toks_sp. f_equal. rewrite !toks_sym by (reflexivity || discriminate). rewrite (toks_ident _ Hn), AB, T, toks_nil.
      unfold paren, star. cbn [app]. rewrite <- !app_assoc. reflexivity.
  Qed.

  (** Stars and sizes written behind a type stand in C as they are written. *)
  Theorem C106_suffix_partial :
    forall t stars dims d, plain zen_name t -> Forall (fun n => 0 < n)%Z dims ->
    usual zen_name (suffixed t stars dims) /\
    cdecl (suffixed t stars dims) d =
      cdecl t (repeat (S_ 42%N) stars ++ d ++ flat_map (fun n => brackets [W (dec n)]) dims).
  Proof.
    intros t k dims d Hp Hd. unfold suffixed.
    assert (P : plain zen_name (Nat.iter k (TPtr false) t)) by (induction k; [exact Hp|cbn; now constructor]).
    assert (A : forall dims, Forall (fun n => 0 < n)%Z dims -> arrays zen_name (fold_right (fun n t => TArr t n) (Nat.iter k (TPtr false) t) dims)).
    { induction 1; cbn [fold_right]; now constructor. }
    split; [constructor; auto|]. revert d. induction Hd as [|n dims Hn Hd IH]; intros d; cbn [fold_right flat_map].
    - rewrite app_nil_r. clear A. revert d. induction k as [|k IH]; intros d; [reflexivity|].
      cbn [Nat.iter nat_rect]. cbn [Ctype_Spec.cdecl]. cbn [Nat.iter nat_rect] in P. inversion P; subst.
      change (nat_rect _ t _ k) with (Nat.iter k (TPtr false) t) in *.
      rewrite plain_fixed with (zen_name := zen_name) by assumption. rewrite IH by assumption. f_equal.
      unfold star. cbn [app repeat]. clear. induction k as [|k IH]; [reflexivity|]. cbn [repeat app]. f_equal. exact IH.
    - cbn [Ctype_Spec.cdecl]. destruct (Z.eqb_spec n 0); [lia|]. rewrite IH. now rewrite <- !app_assoc.
  Qed.

  (** A pointer to a fixed array is not declared as one: the star comes last. *)
  Theorem C106_ptr_array_refuted :
    forall t n name, plain zen_name t -> (0 < n)%Z -> ident name ->
    exists s, var_decl (TPtr false (TArr t n)) name = Ok s /\
      toks s = cdecl t [] ++ W name :: brackets [W (dec n)] ++ star /\
      toks s <> cdecl (TPtr false (TArr t n)) (flush name).
  Proof.
    intros t n name P Hn Hi. destruct (plain_ok zen_name t P) as (a & E & O & C).
    unfold Ctype_Model.var_decl. rewrite c_string_parts by reflexivity. cbn [parts].
    destruct (Z.eqb_spec n 0); [lia|]. destruct (Z.ltb_spec n 0); [lia|]. rewrite E. cbn [bind]. rewrite app_nil_r.
    unfold ptr_to. change (bs "(*") with (40 :: [42])%N.
    assert (NB : forall c, okc c = false -> c <> 91%N -> c <> 93%N -> ~ In c (a ++ bs "[" ++ dec n ++ bs "]")).
    { intros c H1 H2 H3 I. apply in_app_or in I. destruct I as [I|I]; [now apply (okc_not c) in I|].
      change (bs "[" ++ dec n ++ bs "]") with (91%N :: dec n ++ [93%N]) in I.
      destruct I as [I|I]; [congruence|]. apply in_app_or in I. destruct I as [I|I].
      - destruct (dec_ident n) as [_ K]. apply word_okc in K. now apply (okc_not c) in I.
      - destruct I as [I|[]]. congruence. }
    rewrite app_nil_r. rewrite split_none by (apply NB; (reflexivity || discriminate)). cbn [bind].
    eexists. split; [reflexivity|]. unfold emit_c_decl.
    assert (NB' : forall c, okc c = false -> c <> 91%N -> c <> 93%N -> ~ In c ((a ++ bs "[" ++ dec n ++ bs "]") ++ bs "*")).
    { intros c H1 H2 H3 I. apply in_app_or in I. destruct I as [I|I]; [now apply NB in I|].
      destruct I as [I|[]]. subst c. discriminate. }
    change (bs "(*") with (40 :: [42])%N. rewrite split_none by (apply NB'; (reflexivity || discriminate)).
    change (bs "<") with (60 :: [])%N. rewrite split_none by (apply NB'; (reflexivity || discriminate)).
    rewrite <- app_assoc. change ((bs "[" ++ dec n ++ bs "]") ++ bs "*") with (91%N :: ((dec n ++ bs "]") ++ bs "*")).
    change (bs "[") with (91 :: [])%N.
    rewrite split_first; [|apply (okc_not 91%N); auto|reflexivity].
    match goal with |- toks ?x = _ /\ _ => assert (T : toks x = cdecl t [] ++ W name :: brackets [W (dec n)] ++ star) end.
    { rewrite toks_arrays; [|exact (proj2 Hi)|reflexivity]. rewrite C, app_nil_r. f_equal.
      destruct Hi as [Hi _]. destruct name as [|c name]; [contradiction|]. cbn [flush app]. f_equal.
      rewrite <- app_assoc. change (91%N :: dec n ++ bs "]" ++ bs "*") with ([] ++ 91%N :: (dec n ++ 93%N :: ([] ++ 42%N :: []))).
      rewrite !toks_sym by (reflexivity || discriminate). rewrite (toks_ident _ (dec_ident n)). reflexivity. }
    split; [exact T|]. rewrite T. cbn [Ctype_Spec.cdecl fixed]. destruct (Z.eqb_spec n 0); [lia|]. cbn [negb].
    rewrite !C, app_nil_r. intros K. apply app_inv_head in K. discriminate.
  Qed.

  (** An array of function pointers gets its size in the wrong place. *)
  Theorem C106_fn_array_refuted :
    forall args ret n name, plain zen_name ret -> all_usual zen_name args -> (0 < n)%Z -> ident name ->
    exists s, var_decl (TArr (TFun true args ret) n) name = Ok s /\
      toks s = cdecl (TFun true args ret) [W name] ++ brackets [W (dec n)] /\
      toks s <> cdecl (TArr (TFun true args ret) n) [W name].
  Proof.
    intros args ret n name P U Hn Hi.
    destruct (proj1 (proj2 (forms zen_name)) _ (fnptr_fn zen_name args ret P U)) as (r & k & l & E & O & F & C).
    unfold Ctype_Model.var_decl. rewrite c_string_parts by reflexivity. cbn [parts].
    destruct (Z.eqb_spec n 0); [lia|]. destruct (Z.ltb_spec n 0); [lia|]. cbn [parts] in E. rewrite E. cbn [bind].
    eexists. split; [reflexivity|]. rewrite app_nil_r.
    assert (Q : emit_c_decl is_struct ((r ++ bs " (" ++ stars k ++ bs ")(" ++ l ++ bs ")") ++ bs "[" ++ dec n ++ bs "]") name
      = r ++ bs " (" ++ stars k ++ name ++ bs ")(" ++ (l ++ bs ")[" ++ dec n) ++ bs "]").
    { unfold emit_c_decl. change (bs "(*") with (40 :: [42])%N. change (bs " (") with ([32] ++ [40])%N.
      rewrite <- !app_assoc, !(app_assoc r).
      match goal with |- context [split_sub (40 :: [42])%N ((r ++ [32%N]) ++ ?x)] =>
        change x with (40%N :: (stars k ++ bs ")(" ++ l ++ bs ")" ++ bs "[" ++ dec n ++ bs "]")) end.
      rewrite split_first; [|apply (okc_not 40%N); [reflexivity|rewrite forallb_app, O; reflexivity]|reflexivity].
      change (bs ")") with (41 :: [])%N at 1.
      change (40%N :: stars k ++ bs ")(" ++ l ++ bs ")" ++ bs "[" ++ dec n ++ bs "]")
        with ((40%N :: stars k) ++ 41%N :: (40%N :: (l ++ bs ")" ++ bs "[" ++ dec n ++ bs "]"))).
      rewrite split_first; [|intros [I|I]; [discriminate I|apply repeat_spec in I; discriminate]|reflexivity].
      rewrite <- !app_assoc. reflexivity. }
    rewrite Q. clear Q.
    match goal with |- toks ?x = _ /\ _ => assert (T : toks x = toks r ++ (paren (map S_ (stars k) ++ [W name]) ++ paren (toks l)) ++ brackets [W (dec n)]) end.
    { rewrite <- !app_assoc.
      match goal with |- toks ?x = _ => change x with
        (r ++ 32%N :: ([] ++ 40%N :: (stars k ++ name ++ 41%N :: ([] ++ 40%N :: (l ++ 41%N :: ([] ++ 91%N :: (dec n ++ 93%N :: []))))))) end.
      rewrite toks_sp. f_equal. rewrite toks_sym by (reflexivity || discriminate).
      rewrite toks_stars, toks_sym by (reflexivity || discriminate). rewrite (toks_ident _ Hi).
      rewrite !toks_sym by (reflexivity || discriminate). rewrite (toks_ident _ (dec_ident n)), toks_nil.
      unfold paren, brackets. cbn [app]. rewrite <- !app_assoc. cbn [app]. rewrite <- ?app_assoc. reflexivity. }
    rewrite T. split.
    - rewrite C, <- !app_assoc. reflexivity.
    - change (cdecl (TArr (TFun true args ret) n) [W name])
        with (if (n =? 0)%Z then W (bs "Slice_" ++ zen_name (TFun true args ret)) :: [W name] else cdecl (TFun true args ret) ([W name] ++ brackets [W (dec n)])).
      destruct (Z.eqb_spec n 0); [lia|]. rewrite C. intros K. apply app_inv_head in K.
      unfold paren in K. rewrite <- !app_assoc in K. cbn [app] in K. injection K as K. rewrite <- !app_assoc in K.
      apply app_inv_head in K. discriminate.
  Qed.

  (** A const pointer and a pointer to something const are written alike. *)
  Theorem C106_const_refuted :
    forall t name, plain zen_name t -> forallb word_char name = true ->
    var_decl (TConst (TPtr false t)) name = var_decl (TPtr false (TConst t)) name.
  Proof.
    intros t name P Hn. destruct (plain_ok zen_name t P) as (a & E & O & C).
    unfold Ctype_Model.var_decl. cbn [Ctype_Model.c_string parts]. rewrite E. cbn [bind]. rewrite !app_nil_r.
    unfold ptr_to. change (bs "(*") with (40 :: [42])%N.
    rewrite split_none by (apply (okc_not 40%N); auto).
    rewrite split_none by (apply (okc_not 40%N); [reflexivity|rewrite forallb_app, O; reflexivity]).
    rewrite <- app_assoc. reflexivity.
  Qed.

  (** An array of negative size sends the compiler into endless recursion. *)
  Theorem C106_negative_refuted :
    forall t n, (n < 0)%Z -> c_string (TArr t n) = UB.
  Proof.
    intros t n H. rewrite c_string_parts by reflexivity. cbn [parts].
    destruct (Z.eqb_spec n 0); [lia|]. destruct (Z.ltb_spec n 0); [reflexivity|lia].
  Qed.

  (** The sizes of an array of an opaque array type come out exchanged. *)
  Theorem C106_alias_refuted :
    forall t m n name, plain zen_name t -> (0 < m)%Z -> (0 < n)%Z ->
    var_decl (TArr (TAlias (TArr t n)) m) name = var_decl (TArr (TArr t m) n) name.
  Proof.
    intros t m n name P Hm Hn. destruct (plain_ok zen_name t P) as (a & E & O & C).
    unfold Ctype_Model.var_decl. rewrite !c_string_parts by reflexivity. cbn [parts]. rewrite E.
    destruct (Z.eqb_spec n 0), (Z.eqb_spec m 0), (Z.ltb_spec n 0), (Z.ltb_spec m 0); try lia. cbn [bind].
    rewrite !app_nil_r, <- !app_assoc. reflexivity.
  Qed.
End Names.
Print Assumptions C106_decl_partial.
Print Assumptions C106_type_partial.
Print Assumptions C106_fun_partial.
Print Assumptions C106_suffix_partial.
Print Assumptions C106_ptr_array_refuted.
Print Assumptions C106_fn_array_refuted.
Print Assumptions C106_const_refuted.
Print Assumptions C106_negative_refuted.
Print Assumptions C106_alias_refuted.

(** Function pointers that return function pointers, functions that return pointers to
    function pointers, and typedefs of arrays are not C declarations of their types. *)
Theorem C106_nested_refuted :
  let zn := fun _ : ty => bs "T" in let st := fun _ : bytes => false in
  let f := TFun true [] (TBase BVoid) in
  (exists s, var_decl zn st (TFun true [] f) (bs "x") = Ok s /\ s = bs "void (*x)() (*)()" /\
     toks s <> cdecl zn (TFun true [] f) [W (bs "x")]) /\
  (exists s, func_signature zn st (TPtr false f) (bs "x") [] false = Ok s /\ s = bs "void (**)() x(void)" /\
     toks s <> cfun zn (TPtr false f) (bs "x") [] false) /\
  (exists s, c_string zn (TArr (TBase BInt) 3) = Ok s /\ typedef s (bs "V") = bs "typedef int32_t[3] V;" /\
     toks (typedef s (bs "V")) <> W (bs "typedef") :: cdecl zn (TArr (TBase BInt) 3) [W (bs "V")] ++ [S_ 59%N]).
Proof.
  intros zn st f. splits; eexists; (split; [vm_compute; reflexivity|]); split; try (vm_compute; reflexivity); vm_compute; discriminate.
Qed.
Print Assumptions C106_nested_refuted.

(** The sizes written are the sizes of the type. *)
Theorem C106_size : forall n, (0 <= n)%Z -> value (dec n) = Z.to_N n /\ ident (dec n).
Proof. intros n H. split; [now apply dec_value|apply dec_ident]. Qed.
Print Assumptions C106_size.

Example C106_case :
  let zn := fun _ : ty => bs "int32_t" in let st := fun _ : bytes => false in
  let f := TFun true [TArr (TBase BInt) 0; TPtr false (TBase BChar)] (TPtr false (TBase (BStruct true (bs "P")))) in
  usual zn f /\
  var_decl zn st f (bs "cb") = Ok (bs "struct P* (*cb)(Slice_int32_t, char*)") /\
  var_decl zn st (suffixed (TBase BU8) 1 [2; 30]%Z) (bs "m") = Ok (bs "uint8_t* m[2][30]") /\
  func_signature zn st f (bs "g") [(f, bs "h")] false =
    Ok (bs "struct P* (*g(struct P* (*h)(Slice_int32_t, char*)))(Slice_int32_t, char*)").
Proof.
  intros zn st f. splits; try (vm_compute; reflexivity).
  apply usual_fn, fnptr_fn; repeat (constructor || (split; [discriminate|reflexivity])); intros K; discriminate K.
Qed.
