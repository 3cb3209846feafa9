(** * C87: instantiating generic structs *)
From Verif Require Import Common Mangle_Model Inst_Model Inst_Spec Inst_Proofs.
Local Open Scope nat_scope.

(** Whatever the program, no two instances written to the output have the same name. *)
Theorem C87_once l fuel pr : run_items fuel (Prog [] (St [] []) []) l = Ok pr -> NoDup (map fst (s_structs (p_st pr))).
Proof. apply once. Qed.
Print Assumptions C87_once.

(** For templates whose fields are their parameter, types that have nothing to do with
    templates, templates at their own parameter, and pointers to these, used at arguments that
    are one plain word: the compiler finishes; it writes exactly the instances the uses need,
    directly or through fields (recursive templates included), each once; and each has the
    fields of the template with the argument for the parameter. *)
Theorem C87_instances_partial ds us fuel :
  good_decls ds ->
  (forall g a, In (g, a) us -> In g (map (fun d => fst (fst d)) ds) /\ exists n, good_arg n /\ (a = SName n \/ exists c, a = SPrim n c)) ->
  length ds < fuel ->
  exists out, compile fuel (map decl ds ++ map (fun '(g, a) => IUse (SApp g a)) us) = Ok out /\
    NoDup (map fst out) /\
    (forall n, In n (map fst out) <-> exists g a g', In (g, a) us /\ needs ds g g' /\ n = instance g' a) /\
    (forall g p fs a b, In (g, p, fs) ds -> good_arg a -> In (instance g (SName a), b) out ->
       b = map (fun '(f, t) => (f, c_type (subst p (SName a) t))) fs).
Proof.
  intros Gd Gu L. destruct (instances ds us fuel Gd) as (out & E & N & X & B); auto.
  { intros [g a] H. apply Gu in H as (Hg & n & Gn & [->|[c ->]]); split; auto. }
  exists out. split; auto. split; auto. split.
  - intros n. rewrite X. split; intros (g & a & g' & H1 & H2 & ->); exists g, a, g'; split; auto; split; auto;
      apply Gu in H1 as (_ & n & Gn & H1); unfold instance; cbn [c_type arg_name];
      rewrite (sanitize_word (arg_name a)) by (destruct H1 as [->|[c ->]]; apply Gn); reflexivity.
  - intros g p fs a b D Ga H. apply (B g p fs a b D Ga). unfold instance in H. now rewrite c_app in H by apply Ga.
Qed.
Print Assumptions C87_instances_partial.
(** A list, its nodes, which point to each other and back to the list, and a box, used at two types *)
Definition ex_T : sty := SName (bs "T").
Definition ex_int : sty := SPrim (bs "int") (bs "int32_t").
Definition ex_decls : list tdecl :=
  [(bs "Node", bs "T", [(bs "item", ex_T); (bs "next", SPtr (SApp (bs "Node") ex_T)); (bs "owner", SPtr (SApp (bs "List") ex_T))]);
   (bs "List", bs "T", [(bs "head", SPtr (SApp (bs "Node") ex_T)); (bs "last", SApp (bs "Box") ex_T); (bs "len", ex_int)]);
   (bs "Box", bs "U", [(bs "p", SPtr (SName (bs "U"))); (bs "file", SPtr (SName (bs "os_file")))])].
Definition ex_uses : list (bytes * sty) := [(bs "List", ex_int); (bs "Box", SName (bs "Point")); (bs "List", ex_int)].
Example C87_applies :
  good_decls ex_decls /\
  (forall g a, In (g, a) ex_uses -> In g (map (fun d => fst (fst d)) ex_decls) /\ exists n, good_arg n /\ (a = SName n \/ exists c, a = SPrim n c)) /\
  compile 4 (map decl ex_decls ++ map (fun '(g, a) => IUse (SApp g a)) ex_uses) =
    Ok [(bs "Box_Point", [(bs "p", bs "Point*"); (bs "file", bs "os_file*")]);
        (bs "List_int", [(bs "head", bs "Node_int*"); (bs "last", bs "Box_int"); (bs "len", bs "int32_t")]);
        (bs "Box_int", [(bs "p", bs "int*"); (bs "file", bs "os_file*")]);
        (bs "Node_int", [(bs "item", bs "int"); (bs "next", bs "Node_int*"); (bs "owner", bs "List_int*")])].
Proof.
  assert (Wd : forall s, s <> [] -> forallb (fun c => ((97 <=? c) && (c <=? 122) || (65 <=? c) && (c <=? 90) || (48 <=? c) && (c <=? 57))%N) s = true -> word s).
  { intros s H E. split; auto. rewrite Forall_forall. rewrite forallb_forall in E. intros c Hc. apply E in Hc.
    destruct (N.leb_spec 97 c), (N.leb_spec c 122), (N.leb_spec 65 c), (N.leb_spec c 90), (N.leb_spec 48 c), (N.leb_spec c 57); cbn in Hc; try discriminate; lia. }
  assert (Sfx : forall s suf, ends_with suf s = false -> ~ exists x, s = x ++ suf).
  { intros s suf E [x ->]. now rewrite ends_with_app in E. }
  assert (Pre : forall s pre, is_prefix pre s = false -> forall x, s <> pre ++ x).
  { intros s pre E x ->. assert (is_prefix pre (pre ++ x) = true) by (apply is_prefix_spec; eauto). congruence. }
  assert (U : forall p n, n <> p -> forallb (fun c => negb (c =? 42)%N) n = true -> ends_with (95%N :: p) n = false -> is_prefix (bs "Slice_") n = false ->
     is_prefix (bs "Node_") n = false -> is_prefix (bs "List_") n = false -> is_prefix (bs "Box_") n = false -> unrelated ex_decls p n).
  { intros p n H1 H2 H3 H4 H5 H6 H7. split; auto. split.
    { intros X. rewrite forallb_forall in H2. now apply H2 in X. }
    split; [now apply (Sfx n (95%N :: p))|]. split; [intros [x E]; now apply (Pre _ _ H4 x)|].
    intros d x [<-|[<-|[<-|[]]]]; [apply (Pre n (bs "Node_") H5 x)|apply (Pre n (bs "List_") H6 x)|apply (Pre n (bs "Box_") H7 x)]. }
  split; [split|split].
  - cbn [ex_decls map fst]. repeat constructor; cbn [In]; intros X; repeat (destruct X as [X|X]; [discriminate X|]); exact X.
  - intros n p fs [E|[E|[E|[]]]]; injection E as <- <- <-;
      (split; [apply Wd; [discriminate|reflexivity]|]); (split; [apply Wd; [discriminate|reflexivity]|]);
      (split; [cbn; lia|]); (split; [cbn; lia|]); intros f t H; repeat (destruct H as [H|H]; [injection H as <- <-|]); try (exfalso; exact H).
    + apply ft_param.
    + apply ft_ptr, ft_app. cbn. tauto.
    + apply ft_ptr, ft_app. cbn. tauto.
    + apply ft_ptr, ft_app. cbn. tauto.
    + apply ft_app. cbn. tauto.
    + apply ft_prim, U; try reflexivity; discriminate.
    + apply ft_ptr, ft_param.
    + apply ft_ptr, ft_name, U; try reflexivity; discriminate.
  - assert (Ga : forall s, word s -> length s < 100 -> 1 < length s -> ends_with (bs "Ptr") s = false -> good_arg s).
    { intros s Ws L1 L2 E. split; auto. split; auto. split; [intros (c & -> & _); cbn in L2; lia|now apply Sfx]. }
    intros g a [E|[E|[E|[]]]]; injection E as <- <-; (split; [cbn; tauto|]).
    + exists (bs "int"). split; [|right; eexists; reflexivity]. apply Ga; [apply Wd; [discriminate|reflexivity]|cbn; lia|cbn; lia|reflexivity].
    + exists (bs "Point"). split; [|left; reflexivity]. apply Ga; [apply Wd; [discriminate|reflexivity]|cbn; lia|cbn; lia|reflexivity].
    + exists (bs "int"). split; [|right; eexists; reflexivity]. apply Ga; [apply Wd; [discriminate|reflexivity]|cbn; lia|cbn; lia|reflexivity].
  - vm_compute. reflexivity.
Qed.

(** The argument may not contain an underscore: a struct that holds an instance of another
    template at its parameter, used at such an argument (int32_t, any name imported from a
    module), is written with a field whose type is never defined. *)
Theorem C87_underscore_refuted g h x y f p fuel :
  word g -> word h -> g <> h -> word x -> word y -> word p ->
  length g < 50 -> length h < 50 -> length x < 50 -> length y < 50 -> length p < 50 ->
  exists out, compile (S (S fuel)) [ITemplate g p []; ITemplate h p [(f, SApp g (SName p))]; IUse (SApp h (SName (x ++ bs "_" ++ y)))] = Ok out /\
    undefined [] out (g ++ bs "_" ++ x ++ bs "_" ++ y).
Proof.
  intros. eexists. split; [apply underscore; auto|]. split; [|split; [|easy]].
  - do 4 eexists. split; [now left|]. split; [now left|].
    unfold base_name. rewrite <- (app_nil_r (g ++ _)) at 1. apply (before_star_app _ 0).
    intros X. apply in_app_or in X as [X|[X|X]]; [now apply (word_no 42%N g) in X; auto|discriminate|].
    apply in_app_or in X as [[]|X].
    apply in_app_or in X as [X|[X|X]]; [now apply (word_no 42%N x) in X; auto|discriminate|]. now apply (word_no 42%N y) in X; auto.
  - intros [E|[]]. cbn [fst] in E. apply app_inv_tail in E. congruence.
Qed.
Print Assumptions C87_underscore_refuted.
Example C87_underscore_applies : compile 2 [ITemplate (bs "Vec") (bs "T") []; ITemplate (bs "A") (bs "T") [(bs "v", SApp (bs "Vec") ex_T)];
    IUse (SApp (bs "A") (SPrim (bs "int32_t") (bs "int32_t")))] = Ok [(bs "A_int32_t", [(bs "v", bs "Vec_int32_t")])].
Proof. vm_compute. reflexivity. Qed.

(** A struct whose name is one capital letter is taken for a parameter: no instance at it is
    ever made. *)
Theorem C87_capital_refuted c g p f s fuel :
  (65 <= c <= 90)%N -> word g -> word s -> 1 < length s -> length g < 50 ->
  exists out, compile (S fuel) [ITemplate g p [(f, SName p)]; IStruct [c] []; IStruct s [(f, SApp g (SName [c]))]] = Ok out /\
    undefined [] out (g ++ bs "_" ++ [c]).
Proof.
  intros Hc Wg Ws Ls Lg. eexists. split; [now apply capital|]. split; [|split; [|easy]].
  - do 4 eexists. split; [now left|]. split; [now left|].
    unfold base_name. rewrite <- (app_nil_r (g ++ _)) at 1. apply (before_star_app _ 0).
    intros X. apply in_app_or in X as [X|[X|[X|[]]]]; [now apply (word_no 42%N g) in X; auto|discriminate|lia].
  - intros [E|[E|[]]]; cbn [fst] in E.
    + apply (word_no 95%N s Ws); auto. rewrite E. apply in_or_app. right. now left.
    + apply (f_equal (@length N)) in E. rewrite !app_length in E. cbn in E. lia.
Qed.
Print Assumptions C87_capital_refuted.

Definition ex_vec : item := ITemplate (bs "Vec") (bs "T") [(bs "data", SPtr ex_T)].
(** A template that holds a template of a template of its parameter: the parameter itself ends
    up in the output, and the instance needed is not made. *)
Theorem C87_nested_refuted : exists out,
  compile 5 [ex_vec; ITemplate (bs "Grid") (bs "T") [(bs "rows", SApp (bs "Vec") (SApp (bs "Vec") ex_T))]; IUse (SApp (bs "Grid") ex_int)] = Ok out /\
  undefined [bs "int"] out (bs "Vec_T") /\ undefined [bs "int"] out (bs "Vec_Vec_int").
Proof.
  eexists. split; [vm_compute; reflexivity|].
  split; (split; [|split; [intros X; repeat (destruct X as [X|X]; [discriminate X|]); exact X|intros [X|[]]; discriminate]]).
  - do 4 eexists. split; [right; now left|]. split; [now left|reflexivity].
  - do 4 eexists. split; [now left|]. split; [now left|reflexivity].
Qed.
(** The same for a template at a pointer to the parameter *)
Theorem C87_pointer_refuted : exists out,
  compile 5 [ex_vec; ITemplate (bs "Bag") (bs "T") [(bs "items", SApp (bs "Vec") (SPtr ex_T))]; IUse (SApp (bs "Bag") ex_int)] = Ok out /\
  undefined [bs "int"] out (bs "T") /\ ~ In (bs "Vec_intPtr") (map fst out).
Proof.
  eexists. split; [vm_compute; reflexivity|].
  split; [|intros X; repeat (destruct X as [X|X]; [discriminate X|]); exact X].
  split; [|split; [intros X; repeat (destruct X as [X|X]; [discriminate X|]); exact X|intros [X|[]]; discriminate]].
  do 4 eexists. split; [right; now left|]. split; [now left|reflexivity].
Qed.
(** An argument that is a pointer to a struct is lost on the way to a field *)
Theorem C87_struct_pointer_refuted : exists out,
  compile 5 [ex_vec; ITemplate (bs "Bag") (bs "T") [(bs "items", SApp (bs "Vec") ex_T)]; IStruct (bs "Point") []; IUse (SApp (bs "Bag") (SPtr (SName (bs "Point"))))] = Ok out /\
  undefined [] out (bs "PointPtr").
Proof.
  eexists. split; [vm_compute; reflexivity|].
  split; [|split; [intros X; repeat (destruct X as [X|X]; [discriminate X|]); exact X|easy]].
  do 4 eexists. split; [right; now left|]. split; [now left|reflexivity].
Qed.
(** A struct whose name ends in an underscore and the parameter is taken for an instance *)
Theorem C87_suffix_refuted : exists out,
  compile 5 [IStruct (bs "Matrix_T") []; ITemplate (bs "Box") (bs "T") [(bs "m", SName (bs "Matrix_T"))]; IUse (SApp (bs "Box") ex_int)] = Ok out /\
  undefined [bs "int"] out (bs "Matrix_int").
Proof.
  eexists. split; [vm_compute; reflexivity|].
  split; [|split; [intros X; repeat (destruct X as [X|X]; [discriminate X|]); exact X|intros [X|[]]; discriminate]].
  do 4 eexists. split; [now left|]. split; [now left|reflexivity].
Qed.
(** A template that mentions an instance of itself is refused *)
Theorem C87_self_refuted g p f a fuel : word a -> a <> p -> (1 < length a) -> length g < 100 -> length a < 100 ->
  compile (S fuel) [ITemplate g p [(f, SPtr (SApp g (SName a)))]] = Panic.
Proof. intros W D L L1 L2. apply self_panic; auto. destruct a as [|c [|d a]]; cbn in *; auto; lia. Qed.
Print Assumptions C87_self_refuted.
(** Templates whose instances need ever larger instances: the compiler goes on until the name
    no longer fits its buffer, and writes beyond it. *)
Theorem C87_growing_refuted : exists l, forall fuel, compile (20 + fuel) l = UB.
Proof.
  exists [ITemplate (repeat 87%N 60) (bs "T") [(bs "z", ex_T)];
          ITemplate (bs "B") (bs "T") [(bs "y", SPtr (SApp (bs "A") ex_T))];
          ITemplate (bs "A") (bs "T") [(bs "x", SPtr (SApp (bs "B") (SApp (repeat 87%N 60) ex_T)))];
          IUse (SApp (bs "A") ex_int)].
  intros fuel. vm_compute. reflexivity.
Qed.
Print Assumptions C87_growing_refuted.
