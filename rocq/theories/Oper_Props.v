(** C81: an operator on structs calls the method of its left operand once. *)
From Verif Require Import Common Oper_Model Oper_Spec Oper_Proofs.
Local Open Scope nat_scope.

(** PARTIAL: for every program and every [fine] expression the parser gives a tree of the right
    type, and its C code does what the expression means: in particular each method is
    called once, though an operand's text may appear many times. *)
Theorem C81_meaning_partial : forall funcs impls e, fine funcs impls e ->
  exists t, elab funcs impls e = Ok (t, typ funcs impls e)
  /\ forall fn constant arith arith1 s,
       eval funcs fn constant arith arith1 t s = meaning funcs impls fn constant arith arith1 e s.
Proof.
  intros funcs impls e F.
  destruct (elab_ok funcs impls (fun _ _ _ => Panic) (fun _ => 0%Z) (fun _ _ _ => Panic) (fun _ _ => Panic) e F) as (t & E & _).
  exists t. split; [exact E|]. intros fn constant arith arith1 s.
  destruct (elab_ok funcs impls fn constant arith arith1 e F) as (t' & E' & [_ V] & _).
  rewrite E in E'. inversion E'; subst. apply V.
Qed.

(** Vectors with add by pointer and value, eq from a trait, and neg *)
Definition vfuncs : list (bytes * sig) :=
  [(bs "V__add", {| params := [true; true]; ret := TObj (bs "V") |});
   (bs "V__mul", {| params := [true; false]; ret := TObj (bs "V") |});
   (bs "V__neg", {| params := [true]; ret := TObj (bs "V") |});
   (bs "V__Eq_eq", {| params := [true; true]; ret := TNum |})].
Definition va := SVar (bs "a") (TObj (bs "V")).
Definition vb := SVar (bs "b") (TObj (bs "V")).
(** -(a + b * 2) == a *)
Definition vexp := SBin (bs "==") (SUn (bs "-") (SBin (bs "+") va (SBin (bs "*") vb (SConst false TNum (bs "2"))))) va.
Example C81_meaning_case : fine vfuncs [(bs "V", bs "Eq")] vexp
  /\ (do '(t, _) <- elab vfuncs [(bs "V", bs "Eq")] vexp; Ok (emit t))
     = Ok (bs "V__Eq_eq((__typeof__((V__neg((__typeof__((V__add((&a), (__typeof__((V__mul((&b), 2)))[]){V__mul((&b), 2)})))[]){V__add((&a), (__typeof__((V__mul((&b), 2)))[]){V__mul((&b), 2)})})))[]){V__neg((__typeof__((V__add((&a), (__typeof__((V__mul((&b), 2)))[]){V__mul((&b), 2)})))[]){V__add((&a), (__typeof__((V__mul((&b), 2)))[]){V__mul((&b), 2)})})}, (&a))").
Proof.
  split; [|vm_compute; reflexivity].
  assert (K : forall o g, @Some (bytes * sig) o = Some g -> o = g) by (intros ? ? X; now inversion X).
  cbn [fine vexp va vb].
  repeat match goal with |- _ /\ _ => split end; auto; try discriminate.
  all: try (intros m M; vm_compute in M; inversion M; subst; vm_compute; repeat split; auto; try lia; repeat constructor; intros; lia).
  all: try (intros n g E; vm_compute in E; inversion E; subst; vm_compute; repeat split; auto; discriminate).
  all: try (intros E; vm_compute in E; discriminate).
Qed.

(** REFUTED: the C code is not of the size of the program: each operator or method that takes its left
    operand by pointer doubles that operand's text. *)
Fixpoint chain (op x y s : bytes) (n : nat) : src :=
  match n with 0 => SVar x (TObj s) | S n => SBin op (chain op x y s n) (SVar y (TObj s)) end.
Fixpoint calls (m x s : bytes) (n : nat) : src :=
  match n with 0 => SVar x (TObj s) | S n => SMethod m (calls m x s n) end.
Lemma twice_length t : 2 * length t <= length (twice t).
Proof. unfold twice. rewrite !app_length. lia. Qed.
Theorem C81_size_refuted : forall funcs impls op x y s m g n,
  operator_method op = Some m -> length s + length m < 254 -> find (s ++ bs "__" ++ m) funcs = Some g ->
  hd false (params g) = true -> ret g = TObj s -> x <> [] ->
  exists t, elab funcs impls (chain op x y s n) = Ok (t, TObj s) /\ 2 ^ n <= length (emit t).
Proof.
  intros funcs impls op x y s m g n M L F P R X.
  assert (E : forall n, exists t, elab funcs impls (chain op x y s n) = Ok (t, TObj s) /\ 2 ^ n <= length (emit t)
     /\ (is_rvalue t = true \/ n = 0)).
  { clear n. induction n as [|n (t & IH & B & V)].
    - exists (Var x). cbn [chain elab emit]. splits; auto. destruct x; [contradiction|]. cbn. lia.
    - cbn [chain elab]. rewrite IH. cbn [bind]. cbv zeta. rewrite M. cbn [struct_of andb].
      unfold resolve. rewrite mangle_ok by auto. cbn [bind]. rewrite F. cbn [bind]. rewrite P, R.
      eexists. splits; [reflexivity| |now left]. cbn [emit]. unfold self_arg, address.
      rewrite !app_length. cbn [length Nat.pow]. destruct V as [-> | ->].
      + change (emit (Un (bs "&_rval") t)) with (twice (emit t)). pose proof (twice_length (emit t)). lia.
      + change (length (bs "__")) with 2. cbn [Nat.pow]. lia. }
  destruct (E n) as (t & A & B & _). eauto.
Qed.
Theorem C81_chain_refuted : forall funcs impls m x s g n,
  length s + length m < 254 -> find (s ++ bs "__" ++ m) funcs = Some g ->
  hd false (params g) = true -> ret g = TObj s -> x <> [] ->
  exists t, elab funcs impls (calls m x s n) = Ok (t, TObj s) /\ 2 ^ n <= length (emit t).
Proof.
  intros funcs impls m x s g n L F P R X.
  assert (E : forall n, exists t, elab funcs impls (calls m x s n) = Ok (t, TObj s) /\ 2 ^ n <= length (emit t)
     /\ (is_rvalue t = true \/ n = 0)).
  { clear n. induction n as [|n (t & IH & B & V)].
    - exists (Var x). cbn [calls elab emit]. splits; auto. destruct x; [contradiction|]. cbn. lia.
    - cbn [calls elab]. rewrite IH. cbn [bind struct_of].
      unfold resolve. rewrite mangle_ok by auto. cbn [bind]. rewrite F. cbn [bind]. rewrite P, R.
      eexists. splits; [reflexivity| |now left]. cbn [emit]. unfold self_arg, address.
      rewrite !app_length. cbn [length Nat.pow]. destruct V as [-> | ->].
      + change (emit (Un (bs "&_rval") t)) with (twice (emit t)). pose proof (twice_length (emit t)). lia.
      + change (length (bs "__")) with 2. cbn [Nat.pow]. lia. }
  destruct (E n) as (t & A & B & _). eauto.
Qed.
Example C81_size_case : exists t, elab vfuncs [] (chain (bs "+") (bs "a") (bs "b") (bs "V") 4) = Ok (t, TObj (bs "V"))
  /\ length (emit t) = 382.
Proof. eexists. split; [vm_compute; reflexivity|vm_compute; reflexivity]. Qed.

(** REFUTED: a right operand that is a literal or a conditional is not accepted where the method takes a
    pointer, *)
Theorem C81_literal_refuted : forall funcs impls op a b a' b' ta tb m s p n g,
  elab funcs impls a = Ok (a', ta) -> elab funcs impls b = Ok (b', tb) -> is_pointer tb = false ->
  (exists t txt, b = SConst false t txt) \/ (exists c e f, b = SCond c e f) ->
  operator_method op = Some m -> struct_of ta = Some (s, p) -> resolve funcs impls s m = Ok (Some (n, g)) ->
  nth 1 (params g) false = true ->
  exists t ty, elab funcs impls (SBin op a b) = Ok (t, ty)
  /\ forall fn constant arith arith1 st r, eval funcs fn constant arith arith1 t st <> Ok r.
Proof.
  intros funcs impls op a b a' b' ta tb m s p n g Ea Eb T K M ST R P.
  cbn [elab]. rewrite Ea. cbn [bind]. rewrite Eb. cbn [bind]. cbv zeta. rewrite M, ST, T, Bool.andb_false_r, R. cbn [bind].
  eexists _, _. split; [reflexivity|]. intros fn constant arith arith1 st r. rewrite eval_call2. rewrite P. unfold rhs_arg, address.
  assert (H : is_rvalue b' = false /\ forall st, eval funcs fn constant arith arith1 (Un (bs "&") b') st = Panic).
  { destruct K as [(t & txt & ->)|(c & e & f & ->)].
    - cbn [elab] in Eb. inversion Eb; subst. split; reflexivity.
    - cbn [elab] in Eb. destruct (elab funcs impls c) as [[c' ?]| | |], (elab funcs impls e) as [[e' ?]| | |], (elab funcs impls f) as [[f' ?]| | |];
        cbn [bind] in Eb; try discriminate. inversion Eb; subst. split; reflexivity. }
  destruct H as [-> H]. destruct (eval _ _ _ _ _ (self_arg _ _ _ _) st) as [[v s']| | |]; cbn [bind]; try discriminate.
  rewrite H. discriminate.
Qed.
(** a right operand that is a pointer is not accepted where the method takes a value, *)
Theorem C81_pointer_refuted : forall funcs impls op x s y s' m n g l fn constant arith arith1 st,
  operator_method op = Some m -> resolve funcs impls s m = Ok (Some (n, g)) -> nth 1 (params g) false = false ->
  find n funcs = Some g -> length (params g) = 2 -> mem st (LVar y) = VPtr l ->
  exists t ty, elab funcs impls (SBin op (SVar x (TObj s)) (SVar y (TPtr s'))) = Ok (t, ty)
  /\ forall r, eval funcs fn constant arith arith1 t st <> Ok r.
Proof.
  intros funcs impls op x s y s' m n g l fn constant arith arith1 st M R P F LP V.
  cbn [elab bind]. cbv zeta. rewrite M. cbn [struct_of andb]. rewrite R. cbn [bind].
  eexists _, _. split; [reflexivity|]. intros r. rewrite eval_call2, P. unfold rhs_arg.
  destruct (eval _ _ _ _ _ (self_arg _ _ _ _) st) as [[v st']| | |] eqn:E; cbn [bind]; try discriminate.
  assert (st' = st).
  { destruct (hd false (params g)); unfold self_arg in E; cbn in E; inversion E; auto. }
  subst st'. cbn [eval bind]. rewrite V. unfold call. rewrite F.
  destruct (params g) as [|p1 [|p2 [|p3 l']]]; try discriminate LP. cbn [nth] in P. subst p2.
  cbn [kinds is_ptr_val]. change (Bool.eqb false true) with false. rewrite Bool.andb_false_r. discriminate.
Qed.
(** compound assignment does not pass an object where the method takes a pointer, *)
Theorem C81_compound_refuted : forall funcs impls op x s y s' m g z fn constant arith arith1 st,
  operator_method op = Some m -> length s + length m < 254 -> find (s ++ bs "__" ++ m) funcs = Some g ->
  nth 1 (params g) false = true -> mem st (LVar y) = VObj z ->
  exists t ty, elab funcs impls (SAssign op x (TObj s) (SVar y (TObj s'))) = Ok (t, ty)
  /\ eval funcs fn constant arith arith1 t st = Panic.
Proof.
  intros funcs impls op x s y s' m g z fn constant arith arith1 st M L F P V.
  cbn [elab bind]. cbv zeta. rewrite M. cbn [struct_of]. unfold resolve_direct. rewrite mangle_ok by auto. cbn [bind]. rewrite F.
  eexists _, _. split; [reflexivity|]. rewrite eval_assign, eval_call2.
  assert (E : exists v, eval funcs fn constant arith arith1 (self_arg (hd false (params g)) false false (Var x)) st = Ok (v, st)).
  { destruct (hd false (params g)); eexists; reflexivity. }
  destruct E as [v ->]. cbn [bind eval]. rewrite V. unfold call. rewrite F.
  destruct (params g) as [|p1 [|p2 l]]; try discriminate P. cbn [nth] in P. subst p2. cbn [kinds is_ptr_val].
  change (Bool.eqb true false) with false. cbn [andb]. rewrite Bool.andb_false_r. reflexivity.
Qed.
(** and does not see the methods of traits. *)
Theorem C81_traits_refuted : forall funcs impls op x s b b' tb m z fn constant arith arith1 st,
  operator_method op = Some m -> is_comparison op = false -> length s + length m < 254 -> find (s ++ bs "__" ++ m) funcs = None ->
  elab funcs impls b = Ok (b', tb) -> mem st (LVar x) = VObj z ->
  exists t ty, elab funcs impls (SAssign op x (TObj s) b) = Ok (t, ty)
  /\ forall r, eval funcs fn constant arith arith1 t st <> Ok r.
Proof.
  intros funcs impls op x s b b' tb m z fn constant arith arith1 st M C L F Eb V.
  cbn [elab]. rewrite Eb. cbn [bind]. cbv zeta. rewrite M. cbn [struct_of]. unfold resolve_direct. rewrite mangle_ok by auto. cbn [bind].
  rewrite F. eexists _, _. split; [reflexivity|]. intros r. rewrite eval_assign, eval_bin.
  - cbn [eval bind]. destruct (eval _ _ _ _ _ b' st) as [[w st']| | |]; cbn [bind]; try discriminate. rewrite V. discriminate.
  - apply beq_neq. intros ->. vm_compute in M. discriminate.
  - left. unfold is_comparison in C. destruct (is_equality op); [discriminate|reflexivity].
Qed.
(** REFUTED: a struct whose name is long overruns a buffer at every operator, with or without a method. *)
Theorem C81_long_refuted : forall funcs impls op x s b b' tb m,
  operator_method op = Some m -> 254 <= length s + length m -> elab funcs impls b = Ok (b', tb) ->
  elab funcs impls (SBin op (SVar x (TObj s)) b) = UB.
Proof.
  intros funcs impls op x s b b' tb m M L Eb. cbn [elab bind]. rewrite Eb. cbn [bind]. cbv zeta. rewrite M. cbn [struct_of andb].
  unfold resolve, mangle. cbv zeta. destruct (Nat.ltb_spec (length (s ++ bs "__" ++ m)) 256) as [H|H]; [|reflexivity].
  rewrite !app_length in H. change (length (bs "__")) with 2 in H. lia.
Qed.
Example C81_refuted_cases :
  resolve vfuncs [(bs "V", bs "Eq")] (bs "V") (bs "eq") = Ok (Some (bs "V__Eq_eq", {| params := [true; true]; ret := TNum |}))
  /\ elab vfuncs [] (SBin (bs "+") (SVar (bs "x") (TObj (repeat 65%N 251))) va) = UB.
Proof. split; vm_compute; reflexivity. Qed.

Print Assumptions C81_meaning_partial.
Print Assumptions C81_size_refuted.
Print Assumptions C81_chain_refuted.
Print Assumptions C81_literal_refuted.
Print Assumptions C81_pointer_refuted.
Print Assumptions C81_compound_refuted.
Print Assumptions C81_traits_refuted.
Print Assumptions C81_long_refuted.
