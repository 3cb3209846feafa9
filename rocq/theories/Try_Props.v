(** C77: e? is e's value, or leaves the function with e's error. *)
From Verif Require Import Common Try_Model Try_Spec Try_Proofs.
Local Open Scope nat_scope.

(** PARTIAL: every function body in which nothing is deferred where a ? stands, and whose
    operands of ? are of a type like the function's, does what it means, for any meaning of
    its statements: the value is bound, the error is returned in the function's type and
    nothing after it runs, and deferred statements run on every other way out. *)
Theorem C77_meaning_partial : forall (St : Type) (act : nat -> St -> St) cond val set r ty (l : items) (s : St),
  unburdened_all false l -> typed_all r ty l ->
  texecs act cond (cval_of ty val) set r (emit_function l) s = same r (execs act cond val set [] l s).
Proof.
  intros St act cond val set r ty l s U T. unfold emit_function.
  rewrite (proj2 (emit_ok act cond val set r ty)) by auto.
  destruct (execs act cond val set [] l s) as [[] ?]; reflexivity.
Qed.
(** let x = e1?; if c { let y = e2?; } defer a5; a6; return e3; *)
Example C77_meaning_case :
  let l := Then (LetTry 1 1) (Then (If 0 (Then (LetTry 2 2) Nil) Nil) (Defer 5 (Then (Act 6) (Then (Return 3) Nil)))) in
  let act := fun a s => s ++ [Z.of_nat a] in
  let cond := fun (_ : nat) (s : list Z) => (true, s) in
  let set := fun (x : nat) v s => s ++ [Z.of_nat x; v]%Z in
  let val b := fun e (s : list Z) => (if (e =? 2) && b then Bad 77 else Good (Z.of_nat e * 100), s ++ [9%Z]) in
  let ty := fun _ : nat => Enum 0 1 in
  unburdened_all false l /\ typed_all (Enum 0 1) ty l
  /\ texecs act cond (cval_of ty (val true)) set (Enum 0 1) (emit_function l) [] = (Returned (CEnum 1 77), [9; 1; 100; 9]%Z)
  /\ texecs act cond (cval_of ty (val false)) set (Enum 0 1) (emit_function l) []
     = (Returned (CEnum 0 300), [9; 1; 100; 9; 2; 200; 6; 9; 5]%Z).
Proof. cbn. intuition (auto; discriminate). Qed.

(** REFUTED beyond that: with any statements deferred, an error leaves the function without
    running any of them. *)
Fixpoint deferring (ds : list nat) (l : items) : items := match ds with [] => l | d :: ds => Defer d (deferring ds l) end.
Theorem C77_deferred_refuted : forall (St : Type) (act : nat -> St -> St) cond val set r ty ds x e l (s : St) er s',
  alike r (ty e) -> val e s = (Bad er, s') ->
  texecs act cond (cval_of ty val) set r (emit_function (deferring ds (Then (LetTry x e) l))) s = (Returned (repr r (Bad er)), s')
  /\ execs act cond val set [] (deferring ds (Then (LetTry x e) l)) s = (Returns (Bad er), run_deferred act (rev ds) s').
Proof.
  intros St act cond val set r ty ds x e l s er s' A V.
  assert (E : forall own, texecs act cond (cval_of ty val) set r (emits [] own (deferring ds (Then (LetTry x e) l))) s
                          = (Returned (repr r (Bad er)), s')).
  { induction ds as [|d ds IH]; intros own; cbn [deferring emits].
    - cbn [emit texecs texec]. unfold cval_of. rewrite V. rewrite (try_value_ok _ _ _ A). reflexivity.
    - apply IH. }
  assert (F : forall own, execs act cond val set own (deferring ds (Then (LetTry x e) l)) s
                          = (Returns (Bad er), run_deferred act (rev ds ++ own) s')).
  { clear E. induction ds as [|d ds IH]; intros own; cbn [deferring].
    - rewrite execs_then. cbn [exec]. rewrite V. reflexivity.
    - change (execs act cond val set own (Defer d (deferring ds (Then (LetTry x e) l))) s)
        with (execs act cond val set (d :: own) (deferring ds (Then (LetTry x e) l)) s).
      rewrite IH. cbn [rev]. now rewrite <- app_assoc. }
  split; [apply E|]. rewrite F. now rewrite app_nil_r.
Qed.
(** defer close(7); let x = read()?; ... : close does not run *)
Example C77_deferred_case :
  let act := fun a s => s ++ [a] in
  let val := fun (e : nat) (s : list nat) => (Bad 5, s ++ [e]) in
  let l := deferring [7] (Then (LetTry 1 2) (Then (Act 3) Nil)) in
  texecs act (fun _ s => (true, s)) (cval_of (fun _ => Struct) val) (fun _ _ s => s) Struct (emit_function l) []
    = (Returned (CStruct false 0 5), [2])
  /\ execs act (fun _ s => (true, s)) val (fun _ _ s => s) [] l [] = (Returns (Bad 5), [2; 7]).
Proof. cbn. auto. Qed.

(** REFUTED: the error is told by the tag of the function's own type, so an operand whose
    enum lists Ok and Err in the other order has its successes returned as errors, and its
    errors taken for values. *)
Theorem C77_variant_order_refuted : forall a b v, a <> b ->
  try_value (Enum a b) (repr (Enum b a) (Good v)) = Some (inr (repr (Enum a b) (Bad v)))
  /\ try_value (Enum a b) (repr (Enum b a) (Bad v)) = Some (inl v).
Proof.
  intros a b v N. cbn. rewrite Nat.eqb_refl. destruct (Nat.eqb_spec a b); [contradiction|auto].
Qed.
Example C77_variant_order_case :
  try_value (Enum 0 1) (repr (Enum 1 0) (Good 42)) = Some (inr (CEnum 1 42)).
Proof. reflexivity. Qed.

(** REFUTED: there is no ? for Option, whatever the function returns, nor between an enum
    and the library's Result. *)
Theorem C77_option_refuted : forall r t x, r = Optional \/ t = Optional \/ (r = Struct <-> t <> Struct) ->
  try_value r (repr t x) = None.
Proof.
  intros r t x. destruct r, t, x; cbn; try reflexivity; intros [H|[H|[H1 H2]]]; try discriminate; exfalso.
  1,2: assert (Enum ok err = Struct) by (apply H2; discriminate); discriminate.
  1,2: now apply H1.
Qed.
Example C77_option_case : try_value Optional (repr Optional (Good 1)) = None.
Proof. reflexivity. Qed.

Print Assumptions C77_meaning_partial.
Print Assumptions C77_deferred_refuted.
Print Assumptions C77_variant_order_refuted.
Print Assumptions C77_option_refuted.
