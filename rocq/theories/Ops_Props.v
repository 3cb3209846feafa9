(** Property C76: operands are evaluated once. *)
From Verif Require Import Common Ops_Model Ops_Spec Ops_Proofs.
Local Open Scope Z_scope.

(** C76, for every expression whose compound assignments go to targets that only read and
    which uses no variable called _l, for every order of evaluation, every meaning of the
    operators and functions and every memory: the generated code returns the value, makes the
    calls and leaves the memory the source says.  Missing: other targets, and that name (both
    below). *)
Theorem C76_operands_partial :
  forall ord op_val fun_val e (w : world), clean e -> simple ord e ->
  c_eval ord op_val fun_val [] w (gen e)
  = (fst (eval ord op_val fun_val w e), [], snd (eval ord op_val fun_val w e)).
Proof. intros ord op_val fun_val e w C S. apply (gen_ok ord op_val fun_val); auto. constructor. Qed.
Print Assumptions C76_operands_partial.

(** a[i] += (g(x ?? f(1)) && (b ??= f(2))), in both orders *)
Definition an_expr : expr :=
  ECompound 1 (TElem (bs "a") (ERead (TVar (bs "i"))))
    (EAnd (ECall 7 (ECoal (ERead (TVar (bs "x"))) (ECall 5 (EConst 1))))
          (ECoalAssign (TVar (bs "b")) (ECall 5 (EConst 2)))).
Example C76_example :
  let op := fun (_ : N) a b => a + b in
  let fn := fun (f : N) (v : Z) (m : mem) => (v * 10, m) in
  clean an_expr /\ simple LeftFirst an_expr /\ simple RightFirst an_expr
  /\ (let '(v, w) := eval LeftFirst op fn ([(AtVar (bs "i"), 3); (AtElem (bs "a") 3, 40)], []) an_expr in
      v = 41 /\ load (fst w) (AtElem (bs "a") 3) = 41 /\ load (fst w) (AtVar (bs "b")) = 20
      /\ snd w = [(5%N, 1); (7%N, 10); (5%N, 2)]).
Proof. cbv zeta. splits; try (cbn; splits; auto; discriminate). vm_compute. splits; reflexivity. Qed.

(** C76 fails when the target of a compound assignment calls a function: it is called twice,
    in every order and whatever the function and the operator do *)
Theorem C76_twice_refuted :
  forall ord op_val fun_val op a f k d (w : world),
  let e := ECompound op (TElem a (ECall f (EConst k))) (EConst d) in
  snd (snd (c_eval ord op_val fun_val [] w (gen e))) = snd w ++ [(f, k); (f, k)]
  /\ snd (snd (eval ord op_val fun_val w e)) = snd w ++ [(f, k)].
Proof.
  intros. cbn. unfold call. destruct ord; cbn.
  - destruct (fun_val f k (fst w)) as [r m]. cbn. destruct (fun_val f k m) as [r' m']. cbn. now rewrite <- app_assoc.
  - destruct (fun_val f k (fst w)) as [r m]. cbn. destruct (fun_val f k m) as [r' m']. cbn. now rewrite <- app_assoc.
Qed.
Print Assumptions C76_twice_refuted.
(** a[next()] += 100, next() counting up from 0: reads a[1], writes a[0] *)
Example C76_twice_example :
  let op := fun (_ : N) a b => a + b in
  let fn := fun (f : N) (v : Z) (m : mem) => (load m (AtVar (bs "n")), store m (AtVar (bs "n")) (load m (AtVar (bs "n")) + 1)) in
  let m := [(AtElem (bs "a") 0, 5); (AtElem (bs "a") 1, 6)] in
  let e := ECompound 1 (TElem (bs "a") (ECall 5 (EConst 0))) (EConst 100) in
  load (fst (snd (eval LeftFirst op fn (m, []) e))) (AtElem (bs "a") 0) = 105
  /\ load (fst (snd (c_eval LeftFirst op fn [] (m, []) (gen e)))) (AtElem (bs "a") 0) = 106.
Proof. vm_compute. split; reflexivity. Qed.

(** The same for ??= *)
Theorem C76_coalesce_twice_refuted :
  forall ord op_val fun_val a f k d (w : world),
  let e := ECoalAssign (TElem a (ECall f (EConst k))) (EConst d) in
  snd (snd (c_eval ord op_val fun_val [] w (gen e))) = snd w ++ [(f, k); (f, k)]
  /\ snd (snd (eval ord op_val fun_val w e)) = snd w ++ [(f, k)].
Proof.
  intros. cbn. unfold call. destruct ord; cbn.
  - destruct (fun_val f k (fst w)) as [r m]. cbn. destruct (fun_val f k m) as [r' m']. cbn.
    split; [destruct (load m' (AtElem a r') =? 0)|destruct (load m (AtElem a r) =? 0)]; cbn; now rewrite <- ?app_assoc.
  - destruct (fun_val f k (fst w)) as [r m]. cbn.
    split; destruct (load m (AtElem a r) =? 0); cbn; try reflexivity;
      destruct (fun_val f k m) as [r' m']; cbn; now rewrite <- ?app_assoc.
Qed.
Print Assumptions C76_coalesce_twice_refuted.

(** C76 fails for a variable called _l: x ?? _l is 0 whenever x is, whatever _l holds *)
Theorem C76_capture_refuted :
  forall ord op_val fun_val x (w : world), x <> bs "_l" -> load (fst w) (AtVar x) = 0 ->
  let e := ECoal (ERead (TVar x)) (ERead (TVar (bs "_l"))) in
  fst (fst (c_eval ord op_val fun_val [] w (gen e))) = 0
  /\ fst (eval ord op_val fun_val w e) = load (fst w) (AtVar (bs "_l")).
Proof.
  intros ord op_val fun_val x w N H e.
  subst e. cbn [gen gen_target c_eval c_loc eval place]. unfold c_load. cbn [in_temps fst snd]. unfold tmp.
  rewrite beq_bytes_refl. rewrite ?H. split; reflexivity.
Qed.
Print Assumptions C76_capture_refuted.
