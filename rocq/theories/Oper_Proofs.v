From Verif Require Import Common Oper_Model Oper_Spec.
Local Open Scope nat_scope.

Section program.
Variable funcs : list (bytes * sig).
Variable impls : list (bytes * bytes).
Notation resolve := (resolve funcs impls).
Notation method_of := (method_of funcs impls).

Lemma mangle_ok s m : length s + length m < 254 -> mangle s m = Ok (s ++ bs "__" ++ m).
Proof.
  intros H. unfold mangle. cbv zeta. rewrite (proj2 (Nat.ltb_lt _ _)); [reflexivity|].
  rewrite !app_length. change (length (bs "__")) with 2. lia.
Qed.
Lemma trait_loop_ok l s m : Forall (fun i => fst i = s -> length s + length (snd i) + length m < 253) l ->
  trait_loop funcs l s m = Ok (from_traits funcs l s m).
Proof.
  induction l as [|[st tr] l IH]; intros H; [reflexivity|]. inversion H; subst. cbn [trait_loop from_traits]. cbv zeta.
  destruct (beq_bytes st s) eqn:E; [|auto]. apply beq_bytes_true in E. cbn in H2. specialize (H2 E).
  assert (L : length (s ++ bs "__" ++ tr ++ bs "_" ++ m) < 256).
  { rewrite !app_length. change (length (bs "__")) with 2. change (length (bs "_")) with 1. lia. }
  rewrite firstn_all2 by lia. destruct (find _ funcs); [|auto]. now rewrite (proj2 (Nat.ltb_lt _ _)).
Qed.
Lemma resolve_ok s m : length s + length m < 254 ->
  Forall (fun i => fst i = s -> length s + length (snd i) + length m < 253) impls -> resolve s m = Ok (method_of s m).
Proof.
  intros L F. unfold Oper_Model.resolve, Oper_Spec.method_of. rewrite mangle_ok by auto. cbn [bind].
  destruct (find _ funcs); [reflexivity|]. now apply trait_loop_ok.
Qed.
Lemma resolve_direct_ok s m : length s + length m < 254 ->
  from_traits funcs impls s m = None \/ find (s ++ bs "__" ++ m) funcs <> None -> resolve_direct funcs s m = Ok (method_of s m).
Proof.
  intros L D. unfold resolve_direct, Oper_Spec.method_of. rewrite mangle_ok by auto. cbn [bind].
  destruct (find _ funcs); [reflexivity|]. destruct D as [-> | D]; [reflexivity|contradiction].
Qed.

Variable fn : bytes -> list val -> st -> res (val * st).
Variable constant : bytes -> Z.
Variable arith : bytes -> val -> val -> res val.
Variable arith1 : bytes -> val -> res val.
Notation elab := (elab funcs impls).
Notation eval := (eval funcs fn constant arith arith1).
Notation typ := (typ funcs impls).
Notation meaning := (meaning funcs impls fn constant arith arith1).
Notation argument := (argument funcs impls).
Notation addressable := (addressable funcs impls).
Notation fine := (fine funcs impls).

(** The tree of an expression that can be addressed *)
Definition shape (e : src) (t : tree) : Prop :=
  match e with
  | SVar x _ => t = Var x
  | SConst i ty txt => t = Const i ty txt
  | SCond _ _ _ => True
  | _ => (forall x, t <> Var x) /\ (addressable e -> is_rvalue_unary t = true)
  end.
Definition good (e : src) (t : tree) : Prop := shape e t /\ forall s, eval t s = meaning e s.

Lemma eval_rval t s : eval (Un (bs "&_rval") t) s = (do '(v, s) <- eval t s; Ok (fresh v s)).
Proof. reflexivity. Qed.
Lemma eval_addr x s : eval (Un (bs "&") (Var x)) s = Ok (VPtr (LVar x), s).
Proof. reflexivity. Qed.
Lemma rvalue_unary t : is_rvalue_unary t = true -> is_rvalue t = true.
Proof. destruct t; auto; discriminate. Qed.
Lemma place_ok e t r s : good e t -> addressable e -> r = is_rvalue t \/ r = is_rvalue_unary t ->
  eval (address r t) s = place e (meaning e) s.
Proof.
  intros [S V] A R. unfold address. destruct e; cbn [shape place Oper_Spec.addressable] in *; try contradiction.
  - subst t. destruct R; subst r; cbn [is_rvalue is_rvalue_unary]; apply eval_addr.
  - subst t. destruct init; [|contradiction]. destruct R; subst r; cbn [is_rvalue is_rvalue_unary].
    + rewrite eval_rval, V. reflexivity.
    + reflexivity.
  - destruct S as [_ S]. specialize (S A). pose proof (rvalue_unary _ S) as S'.
    assert (r = true) by (destruct R; congruence). subst r. rewrite eval_rval, V. reflexivity.
  - destruct S as [_ S]. specialize (S A). pose proof (rvalue_unary _ S) as S'.
    assert (r = true) by (destruct R; congruence). subst r. rewrite eval_rval, V. reflexivity.
  - destruct S as [_ S]. specialize (S A). pose proof (rvalue_unary _ S) as S'.
    assert (r = true) by (destruct R; congruence). subst r. rewrite eval_rval, V. reflexivity.
  - destruct S as [_ S]. specialize (S A). pose proof (rvalue_unary _ S) as S'.
    assert (r = true) by (destruct R; congruence). subst r. rewrite eval_rval, V. reflexivity.
Qed.
Lemma self_arg_ok e t r want s : good e t -> self_ok funcs impls want e -> r = is_rvalue t \/ r = is_rvalue_unary t ->
  eval (self_arg want (is_pointer (typ e)) r t) s = argument want e (meaning e) s.
Proof.
  intros G S R. unfold self_arg, Oper_Spec.argument, self_ok in *. destruct want, (is_pointer (typ e)) eqn:E.
  - apply G.
  - apply place_ok; auto.
  - change (eval (Un (bs "*") t) s) with (do '(v, s) <- eval t s; match v with VPtr l => Ok (mem s l, s) | _ => Panic end).
    destruct G as [_ G]. now rewrite G.
  - apply G.
Qed.
Lemma rhs_arg_ok e t want s : good e t -> rhs_ok funcs impls want e ->
  eval (rhs_arg want (is_pointer (typ e)) t) s = argument want e (meaning e) s.
Proof.
  intros G [S P]. unfold rhs_arg, Oper_Spec.argument in *. destruct want.
  - destruct (is_pointer (typ e)) eqn:E; [apply G|]. apply place_ok; auto.
  - rewrite (P eq_refl). apply G.
Qed.
Lemma eval_call1 f a s : eval (Call1 f a) s = (do '(v, s) <- eval a s; call funcs fn f [v] s).
Proof. reflexivity. Qed.
Lemma eval_call2 f a b s : eval (Call2 f a b) s = (do '(v, s) <- eval a s; do '(w, s) <- eval b s; call funcs fn f [v; w] s).
Proof. reflexivity. Qed.
Lemma eval_bin op t a b s : beq_bytes op (bs "=") = false -> (is_equality op = false \/ forall n, t <> TObj n) ->
  eval (Bin op t a b) s = (do '(v, s) <- eval a s; do '(w, s) <- eval b s; do r <- builtin arith op v w; Ok (r, s)).
Proof. intros E H. cbn [Oper_Model.eval]. rewrite E. destruct (is_equality op), t; auto. destruct H as [H|H]; [discriminate|exfalso; now apply (H s0)]. Qed.
Lemma eval_assign x t b s : eval (Bin (bs "=") t (Var x) b) s = (do '(v, s) <- eval b s; Ok (v, store (LVar x) v s)).
Proof. reflexivity. Qed.
Lemma eval_neq n a b s : eval (Bin (bs "!=") (TObj n) a b) s =
  (do '(p, s) <- (match a with Var x => Ok (VPtr (LVar x), s) | _ => do '(v, s) <- eval a s; Ok (fresh v s) end);
   do '(q, s) <- (match b with Var x => Ok (VPtr (LVar x), s) | _ => do '(v, s) <- eval b s; Ok (fresh v s) end);
   do '(v, s) <- call funcs fn (n ++ bs "__eq") [p; q] s; do v <- negate v; Ok (v, s)).
Proof. reflexivity. Qed.
Lemma bind_ext {A B} (m m' : res A) (f f' : A -> res B) : m = m' -> (forall x, f x = f' x) -> bind m f = bind m' f'.
Proof. intros -> H. destruct m'; cbn [bind]; auto. Qed.
Lemma operand_eq e t s : good e t -> (match e with SCond _ _ _ => (forall x, t <> Var x) | _ => True end) ->
  (match t with Var x => Ok (VPtr (LVar x), s) | _ => do '(v, s) <- eval t s; Ok (fresh v s) end) = place e (meaning e) s.
Proof.
  intros [S V] C. destruct e; cbn [shape place] in *; try (subst t; reflexivity).
  - rewrite <- V. destruct t; try reflexivity. exfalso. now apply (C x).
  - destruct S as [S _]. rewrite <- V. destruct t; try reflexivity. exfalso. now apply (S x).
  - destruct S as [S _]. rewrite <- V. destruct t; try reflexivity. exfalso. now apply (S x).
  - destruct S as [S _]. rewrite <- V. destruct t; try reflexivity. exfalso. now apply (S x).
  - destruct S as [S _]. rewrite <- V. destruct t; try reflexivity. exfalso. now apply (S x0).
Qed.
Lemma truth_holds v : truth v = holds v.
Proof. destruct v as [[]| |]; reflexivity. Qed.
Lemma negate_opposite v : negate v = opposite v.
Proof. destruct v as [[]| |]; reflexivity. Qed.
Lemma beq_neq a b : a <> b -> beq_bytes a b = false.
Proof. intros H. destruct (beq_bytes a b) eqn:E; [apply beq_bytes_true in E; contradiction|reflexivity]. Qed.

Theorem elab_ok e : fine e -> exists t, elab e = Ok (t, typ e) /\ good e t /\ (match e with SCond _ _ _ => forall x, t <> Var x | _ => True end).
Proof.
  induction e as [x t|i t txt|c IHc a IHa b IHb|op a IHa|op a IHa b IHb|m a IHa|op x t b IHb]; intros F; cbn [Oper_Spec.fine] in F.
  - exists (Var x). repeat split.
  - exists (Const i t txt). repeat split.
  - destruct F as (Fc & Fa & Fb). destruct (IHc Fc) as (c' & Ec & [_ Gc] & _), (IHa Fa) as (a' & Ea & [_ Ga] & _), (IHb Fb) as (b' & Eb & [_ Gb] & _).
    exists (Cond c' a' b'). cbn [Oper_Model.elab Oper_Spec.typ]. rewrite Ec, Ea, Eb. cbn [bind]. splits; auto; [|discriminate].
    split; [exact Logic.I|]. intros s. cbn [Oper_Model.eval Oper_Spec.meaning]. apply bind_ext; [apply Gc|]. intros [v s'].
    apply bind_ext; [apply truth_holds|]. intros [|]; auto.
  - destruct F as (Fa & O & N & Sf). destruct (IHa Fa) as (a' & Ea & Ga & _). cbn [Oper_Model.elab Oper_Spec.typ]. rewrite Ea. cbn [bind].
    assert (P : unary_op funcs impls op (typ a) = None ->
      good (SUn op a) (Un op a')).
    { intros U. split.
      - cbn [shape]. split; [discriminate|]. cbn [Oper_Spec.addressable]. intros X. contradiction.
      - intros s. cbn [Oper_Spec.meaning]. rewrite U. destruct Ga as [_ Ga].
        destruct O as [-> | [-> | ->]]; cbn [Oper_Model.eval]; rewrite Ga; reflexivity. }
    destruct (unary_method op) as [m|] eqn:M.
    2: { assert (U : unary_op funcs impls op (typ a) = None) by (unfold unary_op; now rewrite M).
         exists (Un op a'). rewrite U. splits; auto. }
    destruct (struct_of (typ a)) as [[s p]|] eqn:ST.
    2: { assert (U : unary_op funcs impls op (typ a) = None) by (unfold unary_op; now rewrite M, ST).
         exists (Un op a'). rewrite U. splits; auto. }
    assert (PT : p = is_pointer (typ a)) by (destruct (typ a); inversion ST; reflexivity).
    destruct (N m eq_refl) as [N1 N2]. unfold short, direct in *. rewrite ST in N1, N2.
    rewrite resolve_direct_ok by auto. cbn [bind].
    assert (U : unary_op funcs impls op (typ a) = method_of s m) by (unfold unary_op; now rewrite M, ST).
    rewrite <- U in *. destruct (unary_op funcs impls op (typ a)) as [[n g]|] eqn:E.
    + eexists. splits; [reflexivity| |exact Logic.I]. split.
      * cbn [shape]. split; [discriminate|reflexivity].
      * intros s'. cbn [Oper_Spec.meaning]. rewrite E, eval_call1. rewrite PT. rewrite (self_arg_ok a); auto. now apply Sf with n.
    + exists (Un op a'). splits; auto.
  - destruct F as (Fa & Fb & O & N & Sf & Q). destruct (IHa Fa) as (a' & Ea & Ga & Ca), (IHb Fb) as (b' & Eb & Gb & Cb).
    cbn [Oper_Model.elab Oper_Spec.typ]. rewrite Ea. cbn [bind]. rewrite Eb. cbn [bind]. cbv zeta.
    assert (P : binary_op funcs impls op (typ a) (typ b) = None -> good (SBin op a b) (Bin op (typ a) a' b')).
    { intros U. split; [cbn [shape]; split; [discriminate|reflexivity]|].
      intros s. cbn [Oper_Spec.meaning]. rewrite U. pose proof (beq_neq _ _ O) as O'.
      assert (D : (is_equality op = false \/ forall n, typ a <> TObj n) \/ (op = bs "!=" /\ exists n, typ a = TObj n)).
      { destruct (typ a) as [|n|] eqn:T; try (left; right; discriminate). unfold is_equality.
        destruct (beq_bytes op (bs "==")) eqn:E1.
        - apply beq_bytes_true in E1. destruct (Q U E1) as [X|X]; discriminate.
        - destruct (beq_bytes op (bs "!=")) eqn:E2; [|left; left; reflexivity]. apply beq_bytes_true in E2. right. eauto. }
      destruct Ga as [Sa Va], Gb as [Sb Vb].
      destruct D as [D|[-> [n T]]].
      - rewrite eval_bin by auto.
        assert (Z : (do '(v, s0) <- eval a' s; do '(w, s1) <- eval b' s0; do r <- builtin arith op v w; Ok (r, s1))
          = (do '(v, s0) <- meaning a s; do '(w, s1) <- meaning b s0; do r <- builtin arith op v w; Ok (r, s1))).
        { apply bind_ext; [apply Va|]. intros [v s0]. apply bind_ext; [apply Vb|]. reflexivity. }
        rewrite Z. destruct (beq_bytes op (bs "!=")) eqn:E; [|destruct (typ a); reflexivity].
        destruct (typ a) as [|n|] eqn:T; try reflexivity. destruct D as [D|D].
        + unfold is_equality in D. rewrite E in D. rewrite Bool.orb_true_r in D. discriminate.
        + exfalso. now apply (D n).
      - rewrite T. rewrite eval_neq, beq_bytes_refl.
        apply bind_ext; [apply operand_eq; auto; split; auto|]. intros [v s0].
        apply bind_ext; [apply operand_eq; auto; split; auto|]. intros [w s1]. apply bind_ext; [reflexivity|].
        intros [r s2]. now rewrite negate_opposite. }
    assert (P' : binary_op funcs impls op (typ a) (typ b) = None -> exists t,
       @Ok (tree * ty) (Bin op (typ a) a' b', plain_type op (typ a)) = Ok (t, match binary_op funcs impls op (typ a) (typ b) with
          | Some (_, g) => ret g | None => if is_comparison op then TNum else typ a end) /\ good (SBin op a b) t /\ True).
    { intros U. exists (Bin op (typ a) a' b'). rewrite U. splits; auto. }
    destruct (operator_method op) as [m|] eqn:M; [|apply P'; unfold binary_op; now rewrite M].
    destruct (struct_of (typ a)) as [[s p]|] eqn:ST; [|apply P'; unfold binary_op; now rewrite M, ST].
    assert (PT : p = is_pointer (typ a)) by (destruct (typ a); inversion ST; reflexivity).
    destruct (p && is_equality op && is_pointer (typ b)) eqn:PE; [apply P'; unfold binary_op; now rewrite M, ST, PE|].
    destruct (N m eq_refl) as [N1 N2]. unfold short, names_ok in *. rewrite ST in N1, N2.
    rewrite resolve_ok by auto. cbn [bind].
    assert (U : binary_op funcs impls op (typ a) (typ b) = method_of s m) by (unfold binary_op; now rewrite M, ST, PE).
    rewrite <- U in *. destruct (binary_op funcs impls op (typ a) (typ b)) as [[n g]|] eqn:E; [|now apply P'].
    destruct (Sf n g eq_refl) as [S1 S2].
    eexists. splits; [reflexivity| |exact Logic.I]. split.
    + cbn [shape]. split; [discriminate|reflexivity].
    + intros s'. cbn [Oper_Spec.meaning]. rewrite E, eval_call2. rewrite PT.
      apply bind_ext; [apply self_arg_ok; auto|]. intros [v s0]. apply bind_ext; [apply rhs_arg_ok; auto|]. reflexivity.
  - destruct F as (Fa & N1 & N2 & n & g & E & H & Sf). destruct (IHa Fa) as (a' & Ea & Ga & _).
    cbn [Oper_Model.elab Oper_Spec.typ]. rewrite Ea. cbn [bind]. unfold named, short, names_ok in *.
    destruct (struct_of (typ a)) as [[s p]|] eqn:ST; [|discriminate].
    assert (PT : p = is_pointer (typ a)) by (destruct (typ a); inversion ST; reflexivity).
    rewrite resolve_ok by auto. cbn [bind]. rewrite E, H.
    eexists. splits; [reflexivity| |exact Logic.I]. split; [cbn [shape]; split; [discriminate|reflexivity]|].
    intros s'. cbn [Oper_Spec.meaning]. unfold named. rewrite ST, E, eval_call1, PT. rewrite (self_arg_ok a); auto.
  - destruct F as (Fb & O & NC & N & Sf). destruct (IHb Fb) as (b' & Eb & Gb & _).
    cbn [Oper_Model.elab Oper_Spec.typ]. rewrite Eb. cbn [bind]. cbv zeta.
    assert (NE : is_equality op = false).
    { unfold is_comparison in NC. destruct (is_equality op); [discriminate|reflexivity]. }
    assert (P : binary_op funcs impls op t (typ b) = None -> exists u,
       @Ok (tree * ty) (Bin (bs "=") t (Var x) (Bin op t (Var x) b'), t) = Ok (u, t) /\ good (SAssign op x t b) u /\ True).
    { intros U. eexists. splits; [reflexivity| |exact Logic.I]. split; [cbn [shape]; split; [discriminate|reflexivity]|].
      intros s. cbn [Oper_Spec.meaning]. rewrite U, eval_assign. pose proof (beq_neq _ _ O) as O'. rewrite eval_bin by auto.
      apply bind_ext; [|reflexivity]. destruct Gb as [_ Vb]. cbn [Oper_Model.eval bind]. now rewrite Vb. }
    destruct (operator_method op) as [m|] eqn:M; [|apply P; unfold binary_op; now rewrite M].
    destruct (struct_of t) as [[s p]|] eqn:ST; [|apply P; unfold binary_op; now rewrite M, ST].
    assert (PT : p = is_pointer t) by (destruct t; inversion ST; reflexivity).
    destruct (N m eq_refl) as [N1 N2]. unfold short, direct in *. rewrite ST in N1, N2.
    rewrite resolve_direct_ok by auto. cbn [bind].
    assert (U : binary_op funcs impls op t (typ b) = method_of s m)
      by (unfold binary_op; rewrite M, ST, NE; now rewrite Bool.andb_false_r).
    rewrite <- U in *. destruct (binary_op funcs impls op t (typ b)) as [[n g]|] eqn:E; [|now apply P].
    eexists. splits; [reflexivity| |exact Logic.I]. split; [cbn [shape]; split; [discriminate|reflexivity]|].
    intros s'. cbn [Oper_Spec.meaning]. rewrite E, eval_assign, eval_call2.
    apply bind_ext; [|reflexivity]. pose proof (Sf n g eq_refl) as R.
    apply bind_ext.
    + rewrite PT. unfold self_arg, Oper_Spec.argument. cbn [Oper_Spec.typ].
      destruct (hd false (params g)), (is_pointer t); reflexivity.
    + intros [v s0]. apply bind_ext; [|reflexivity]. unfold Oper_Spec.argument. rewrite R. destruct Gb as [_ Vb].
      rewrite Vb. now destruct (is_pointer (typ b)).
Qed.
End program.
