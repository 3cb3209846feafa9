(** C80: a trait object's method is that of the object's own type. *)
From Coq Require FinFun.
From Verif Require Import Common Trait_Model Trait_Spec Trait_Proofs.
Local Open Scope nat_scope.

(** PARTIAL: in every program that the C compiler accepts, with at most 1024 implementations,
    a method with self and no Self in its result, given by the implementation for the
    object's type, runs exactly that implementation's body. *)
Theorem C80_dispatch_partial : forall prog i m b,
  accepted prog -> length prog <= 1024 -> In i prog -> itrait i <> bs "Copy" ->
  In (mname m, b) (imethods i) -> mself m = true -> mreturns_self m = false ->
  call prog (istruct i) (itrait i) m = Ok b.
Proof.
  intros prog i m b (N1 & N2 & N3) L I C M S R. unfold call.
  rewrite emit_tables_ok by auto. cbn [bind].
  assert (T : forall p, NoDup (map (fun i => table_symbol (istruct i) (itrait i)) prog) ->
     NoDup (map fst (map (fun i => (table_symbol (istruct i) (itrait i), slots i)) (filter p prog)))).
  { clear. intros p. induction prog as [|j prog IH]; intros H; [constructor|]. inversion H; subst.
    cbn [filter]. destruct (p j); [|auto]. cbn [map]. constructor; [|auto]. cbn [fst].
    intros X. apply H2. apply in_map_iff in X as ([k v] & E & X). apply in_map_iff in X as (j' & E' & X).
    apply filter_In in X as [X _]. apply in_map_iff. exists j'. inversion E'; subst. cbn in E. auto. }
  rewrite (find_in _ (slots i)).
  - rewrite (find_in (mname m) (function_symbol (istruct i) (itrait i) (mname m))).
    + rewrite R, S. cbn [negb]. rewrite (find_in _ b); auto. unfold functions. apply in_flat_map.
      exists i. split; [auto|]. apply in_map_iff. exists (mname m, b). auto.
    + unfold slots. rewrite map_map. cbn [fst]. rewrite Forall_forall in N3. now apply N3.
    + unfold slots. apply in_map_iff. exists (mname m, b). auto.
  - apply T, N1.
  - apply in_map_iff. exists i. split; [auto|]. apply filter_In. split; [auto|].
    destruct (beq_bytes (itrait i) (bs "Copy")) eqn:E; [|reflexivity]. apply beq_bytes_true in E. contradiction.
Qed.
Definition circle := {| istruct := bs "Circle"; itrait := bs "Shape"; imethods := [(bs "area", 1); (bs "name", 2)] |}.
Definition square := {| istruct := bs "Square"; itrait := bs "Shape"; imethods := [(bs "name", 3); (bs "area", 4)] |}.
Definition area := {| mname := bs "area"; mself := true; mparams := [{| ptype := bs "int"; pname := bs "k" |}]; mreturns_self := false |}.
Lemma nodup_bytes (l : list bytes) :
  (fix nd l := match l with [] => true | x :: l => negb (existsb (beq_bytes x) l) && nd l end) l = true -> NoDup l.
Proof.
  induction l as [|x l IH]; intros H; [constructor|]. apply andb_prop in H as [A B]. constructor; [|auto].
  intros I. rewrite (proj2 (existsb_exists _ _)) in A; [discriminate|]. exists x. split; [auto|apply beq_bytes_refl].
Qed.
Example C80_dispatch_case : accepted [circle; square]
  /\ call [circle; square] (bs "Circle") (bs "Shape") area = Ok 1 /\ call [circle; square] (bs "Square") (bs "Shape") area = Ok 4.
Proof.
  splits.
  - unfold accepted. splits; try (apply nodup_bytes; vm_compute; reflexivity).
    constructor; [|constructor; [|constructor]]; apply nodup_bytes; vm_compute; reflexivity.
  - vm_compute. reflexivity.
  - vm_compute. reflexivity.
Qed.

(** REFUTED: a method of the trait that the implementation leaves out is not reported; calling
    it calls a null pointer. *)
Theorem C80_missing_refuted : forall prog i m,
  accepted prog -> length prog <= 1024 -> In i prog -> itrait i <> bs "Copy" ->
  ~ In (mname m) (map fst (imethods i)) ->
  call prog (istruct i) (itrait i) m = UB.
Proof.
  intros prog i m (N1 & N2 & N3) L I C M. unfold call.
  rewrite emit_tables_ok by auto. cbn [bind].
  rewrite (find_in _ (slots i)).
  - rewrite find_none; [reflexivity|]. unfold slots. rewrite map_map. exact M.
  - clear - N1. induction prog as [|j prog IH]; [constructor|]. inversion N1; subst.
    cbn [filter]. destruct (negb _); [|auto]. cbn [map]. constructor; [|auto]. cbn [fst].
    intros X. apply H1. apply in_map_iff in X as ([k v] & E & X). apply in_map_iff in X as (j' & E' & X).
    apply filter_In in X as [X _]. apply in_map_iff. exists j'. inversion E'; subst. cbn in E. auto.
  - apply in_map_iff. exists i. split; [auto|]. apply filter_In. split; [auto|].
    destruct (beq_bytes (itrait i) (bs "Copy")) eqn:E; [|reflexivity]. apply beq_bytes_true in E. contradiction.
Qed.
Example C80_missing_case :
  call [circle] (bs "Circle") (bs "Shape") {| mname := bs "draw"; mself := true; mparams := []; mreturns_self := false |} = UB.
Proof. vm_compute. reflexivity. Qed.

(** REFUTED: a method without self, or returning Self, is never called correctly through a
    trait object. *)
Theorem C80_selfless_refuted : forall prog s t m b,
  mself m = false \/ mreturns_self m = true -> call prog s t m <> Ok b.
Proof.
  intros prog s t m b H. unfold call. destruct (emit_tables prog []); cbn [bind]; try discriminate.
  destruct (find _ a); [|discriminate]. destruct (find _ l); [|discriminate].
  destruct (mreturns_self m); [discriminate|]. destruct H as [-> | H]; [discriminate|discriminate].
Qed.

(** PARTIAL: the function a call goes through passes on every argument, in order: for
    every method with self whose parameter types contain no comma, with fewer than 16
    parameters and 1024 bytes of text, and a name without a double underscore. *)
Theorem C80_arguments_partial : forall m,
  mself m = true -> Forall plain (mparams m) -> length (mparams m) <= 15 -> length (declared m) < 1024 ->
  contains (bs "__") (mname m) = false ->
  exists args, args_text m = Ok args /\ args = declared m
  /\ wrapper_call m args = bs "self->vtable->" ++ mname m ++ bs "(self->self"
       ++ (match mparams m with [] => [] | _ => bs ",  " ++ passed m end) ++ bs ")".
Proof.
  intros m S F C L N. exists (declared m). splits.
  - apply args_text_ok; auto.
    + eapply Forall_impl; [|exact F]. intros p P. apply P.
    + rewrite S. lia.
  - reflexivity.
  - unfold wrapper_call. rewrite declared_self by auto. rewrite original_plain by auto.
    change (declared m) with (join (bs ", ") (pieces m)). rewrite extract_names by auto.
    unfold names, passed. rewrite S. cbn [app]. rewrite after_self. destruct (mparams m); reflexivity.
Qed.
Example C80_arguments_case :
  let m := {| mname := bs "put"; mself := true; mparams := [{| ptype := bs "char*"; pname := bs "key" |}; {| ptype := bs "unsigned int"; pname := bs "n" |}];
              mreturns_self := false |} in
  Forall plain (mparams m)
  /\ (do a <- args_text m; Ok (wrapper_call m a)) = Ok (bs "self->vtable->put(self->self,  key, n)").
Proof.
  cbv zeta. split; [|vm_compute; reflexivity]. 
  assert (P : forall t n, (existsb (N.eqb (ch ",")) t || existsb (fun c => (c =? 32)%N || (c =? ch "*")%N || (c =? ch ",")%N) n) = false ->
     t <> [] -> (hd 0%N t =? 32)%N = false -> n <> [] -> plain {| ptype := t; pname := n |}).
  { clear. intros t n H T S M. apply Bool.orb_false_iff in H as [A B]. unfold plain; cbn. splits; auto.
    - intros I. rewrite (proj2 (existsb_exists _ _)) in A; [discriminate|]. exists (ch ","). split; [auto|apply N.eqb_refl].
    - destruct t; [contradiction|]. cbn in S |- *. intros [E|[]]. subst. discriminate.
    - unfold word. apply Forall_forall. intros c I.
      assert (X : (c =? 32)%N || (c =? ch "*")%N || (c =? ch ",")%N = false).
      { destruct (_ || _ || _) eqn:E; [|reflexivity]. rewrite (proj2 (existsb_exists _ _)) in B; [discriminate|]. eauto. }
      apply Bool.orb_false_iff in X as [X X3]. apply Bool.orb_false_iff in X as [X1 X2].
      splits; apply N.eqb_neq; auto. }
  constructor; [|constructor; [|constructor]]; apply P; try discriminate; reflexivity.
Qed.

(** REFUTED: seventeen parameters, counting self, overrun an array of the compiler. *)
Theorem C80_many_refuted : forall m,
  16 < (if mself m then 1 else 0) + length (mparams m) -> args_text m = UB.
Proof.
  intros m H. assert (G : forall ps count buf, 16 < count + length ps -> count <= 16 -> params_loop ps count buf = UB).
  { clear. induction ps as [|p ps IH]; intros count buf H C; cbn [length] in H; [lia|]. cbn [params_loop].
    destruct (Nat.ltb_spec count 16); [|reflexivity].
    destruct (if 0 <? length buf then cat buf (bs ", ") else Ok buf) as [b| | |] eqn:E; cbn [bind].
    2-4: destruct (0 <? length buf); unfold cat in E; try destruct (_ <? _); try discriminate; reflexivity.
    unfold cat. destruct (length b + length (ptype p) <? 1024); [|reflexivity]. cbn [bind].
    destruct (_ <? 1024); [|reflexivity]. cbn [bind]. destruct (_ <? 1024); [|reflexivity]. cbn [bind]. apply IH; lia. }
  unfold args_text. destruct (mself m); cbn [bind]; [|apply G; lia].
  rewrite cat_ok by (cbn; lia). cbn [bind]. apply G; lia.
Qed.
Example C80_many_case : args_text {| mname := bs "f"; mself := true; mparams := repeat {| ptype := bs "int"; pname := bs "x" |} 16; mreturns_self := false |} = UB.
Proof. vm_compute. reflexivity. Qed.

(** REFUTED: that there is a self is decided by the letters anywhere in the text: without self,
    a parameter called itself, or of a type with these letters, loses the first argument;
    and a double underscore in a method's name loses what stands before it. *)
Theorem C80_letters_refuted :
  (do a <- args_text {| mname := bs "f"; mself := false; mparams := [{| ptype := bs "int"; pname := bs "itself" |}; {| ptype := bs "int"; pname := bs "n" |}];
                        mreturns_self := false |};
   Ok (wrapper_call {| mname := bs "a__b"; mself := false; mparams := []; mreturns_self := false |} a))
  = Ok (bs "self->vtable->b(self->self,  n)").
Proof. vm_compute. reflexivity. Qed.

Print Assumptions C80_dispatch_partial.
Print Assumptions C80_missing_refuted.
Print Assumptions C80_selfless_refuted.
Print Assumptions C80_arguments_partial.
Print Assumptions C80_many_refuted.
Print Assumptions C80_letters_refuted.

(** REFUTED for more than 1024 implementations, each of another struct or trait: the list of those already written overflows, whatever is called. *)
Theorem C80_implementations_refuted : forall prog s t m, NoDup (map (fun i => (itrait i, istruct i)) prog) -> 1024 < length prog -> call prog s t m = UB.
Proof.
  intros prog s t m N L. unfold call.
  assert (A : forall prog emitted, NoDup (map (fun i => (itrait i, istruct i)) prog) -> (forall i, In i prog -> ~ In (itrait i, istruct i) emitted) ->
    length emitted <= 1024 -> 1024 < length emitted + length prog -> emit_tables prog emitted = UB).
  { clear. induction prog as [|i prog IH]; intros emitted N D M L; [cbn [length] in L; lia|]. cbn [emit_tables].
    destruct (existsb _ emitted) eqn:X.
    { apply existsb_exists in X as ((e1, e2) & I & E). apply andb_prop in E as [E1 E2]. apply beq_bytes_true in E1, E2. cbn in E1, E2. subst. destruct (D i (or_introl eq_refl) I). }
    destruct (length emitted <? 1024) eqn:B; [|reflexivity]. apply Nat.ltb_lt in B. inversion N as [|? ? N1 N2]; subst. rewrite IH; auto; rewrite ?app_length; cbn [length] in *; try lia.
    intros j J I. apply in_app_or in I as [I|[I|[]]]; [apply (D j); auto; now right|]. apply N1. rewrite I. apply in_map_iff. eauto. }
  rewrite A; auto; cbn [length]; lia.
Qed.
Print Assumptions C80_implementations_refuted.
Example C80_implementations_used : let prog := map (fun n => {| istruct := repeat 65%N n; itrait := bs "T"; imethods := [] |}) (seq 1 1025) in NoDup (map (fun i => (itrait i, istruct i)) prog) /\ 1024 < length prog.
Proof.
  cbn zeta. rewrite map_map, map_length, seq_length. split; [|lia]. apply Coq.Logic.FinFun.Injective_map_NoDup; [|apply seq_NoDup].
  intros a b E. injection E as E. apply (f_equal (@length _)) in E. now rewrite !repeat_length in E.
Qed.
