(** C86: a program that passes zc check has no type errors. *)
From Verif Require Import Common Types_Model Check_Model Check_Spec Check_Proofs.
Local Open Scope nat_scope.

(** PARTIAL: whatever passes the checker meets the constraints of C, for every program of any size and nesting whose types are
    integers, floats, strings, structs and pointers and that does nothing the checker does not look at ([seen_block]).
    Missing: the things it does not look at (refuted below), and the sizes of integers behind pointers. *)
Theorem C86_sound_partial g h b : same_scope g h -> seen_block h b -> passes g b = true -> wt_block lax h b = true.
Proof.
  intros S V P. apply Nat.eqb_eq in P. eapply (proj2 stmt_sound); eauto using same_scope_lax.
Qed.
(** PARTIAL: every program that meets the constraints of C passes the checker, with those types and unless it does one of the things
    the checker refuses ([clean_block]): dividing by a literal zero, shifting by 32 or more, code after return or break,
    integers and floats in one place, floats as conditions. *)
Theorem C86_complete_partial g h b : same_scope g h -> clean_block h b -> wt_block exact h b = true -> passes g b = true.
Proof.
  intros S C W. apply Nat.eqb_eq. eapply (proj2 stmt_complete); eauto using same_scope_exact. discriminate.
Qed.

(** variables 0: i32, 1: f64, 2: string, 3: struct P, 4: i32*, 5: struct P*; function 0: (i32*, i32) -> f64 with one default,
    function 1: (string, ...) -> void *)
Definition tys : list ty :=
  [t_i32; t_f64; TString; TStruct (bs "P"); TPointer t_i32; TPointer (TStruct (bs "P"))].
Definition g0 : env := mkenv (fun x => nth_error tys x)
  (fun f => match f with 0 => Some (mksig [TPointer t_i32; t_i32] 1 false t_f64) | 1 => Some (mksig [TString] 1 true t_void) | _ => None end)
  (fun _ => None) true.
Definition h0 : cenv := mkcenv (fun x => match nth_error tys x with Some t => cof t | None => None end)
  (fun f => match f with 0 => Some (mkcsig [CPtr (CInt 1); CInt 1] 1 false (CFloat 2)) | 1 => Some (mkcsig [CPtr (CInt 0)] 1 true CVoid) | _ => None end)
  (CFloat 2).
Lemma scope0 : same_scope g0 h0.
Proof.
  split; [|split].
  - intros x. cbn [vars cvars g0 h0]. destruct (nth_error tys x) as [t|] eqn:E; auto.
    do 6 (destruct x as [|x]; [injection E as <-; vm_compute; split; [reflexivity|discriminate]|]). destruct x; discriminate E.
  - intros [|[|f]]; cbn [funs cfuns g0 h0]; auto; splits; auto;
      repeat match goal with |- Forall2 _ _ _ => constructor end; split; try reflexivity; discriminate.
  - split; [discriminate|reflexivity].
Qed.
Fixpoint blk (l : list stmt) : block := match l with [] => BNil | s :: l => BCons s (blk l) end.
Definition ints (l : list Z) : args := fold_right (fun n l => ACons (Lit (LInt n)) l) ANil l.
(** let y = f0(p, 3) * 2; while x < *p && p { *(p + 1) = x; f1(s, y); let q: P* = r; q = x ? q : r; } return -y / 1.5; *)
Definition prog : block := blk
  [SLet 9 None (Bin Mul (Call 0 (ACons (Var 4) (ints [3%Z]))) (Lit (LInt 2)));
   SWhile (Bin Logic (Bin Cmp (Var 0) (Un Deref (Var 4))) (Var 4))
     (blk [SExp (Assign (Un Deref (Bin Add (Var 4) (Lit (LInt 1)))) (Var 0));
           SExp (Call 1 (ACons (Var 2) (ACons (Var 9) ANil)));
           SLet 10 (Some (TPointer (TStruct (bs "P")))) (Var 5);
           SExp (Assign (Var 10) (Tern (Var 0) (Var 10) (Var 5)))]);
   SReturn (Some (Bin Div (Un Neg (Var 9)) (Lit (LFloat false))))].
Example C86_sound_case : same_scope g0 h0 /\ seen_block h0 prog /\ clean_block h0 prog
  /\ passes g0 prog = true /\ wt_block exact h0 prog = true
  /\ passes g0 (blk [SLet 9 (Some TString) (Var 0)]) = false /\ passes g0 (blk [SExp (Call 0 (ints [3; 4]%Z))]) = false
  /\ passes g0 (blk [SExp (Un Deref (Var 0))]) = false /\ passes g0 (blk [SReturn None]) = false.
Proof.
  split; [apply scope0|].
  assert (C : clean_block h0 prog /\ seen_block h0 prog); [|destruct C; splits; auto; vm_compute; reflexivity].
  assert (N0 : next' h0 (SLet 9 None (Bin Mul (Call 0 (ACons (Var 4) (ints [3%Z]))) (Lit (LInt 2)))) = cdeclare h0 9 (CFloat 0)) by reflexivity.
  assert (N1 : next h0 (SLet 9 None (Bin Mul (Call 0 (ACons (Var 4) (ints [3%Z]))) (Lit (LInt 2)))) = cdeclare h0 9 (CFloat 0)) by reflexivity.
  unfold prog, blk. split.
  - rewrite clean_cons, N0. split; [vm_compute; tauto|]. split; [|discriminate].
    rewrite clean_cons. split; [|split; [vm_compute; auto|discriminate]].
    rewrite clean_while. split; [split; [vm_compute; tauto|intros x E; injection E as <-; reflexivity]|].
    rewrite !clean_cons. splits; try discriminate; try exact I; try (vm_compute; tauto).
    vm_compute. splits; auto. intros x E. injection E as <-. split; [reflexivity|]. intros E. discriminate E.
  - rewrite seen_cons, N1. split; [vm_compute; splits; auto; discriminate|].
    assert (Sx : forall g e c, wt lax g e = Some c -> scalar c = true -> is_scalar g e)
      by (intros g e c E S d D; rewrite D in E; injection E as <-; exact S).
    rewrite seen_cons. split.
    + rewrite seen_while. split.
      * cbn [seen]. splits; try (vm_compute; discriminate); eapply Sx; reflexivity.
      * rewrite !seen_cons. splits; try exact I.
        -- cbn [seen_stmt seen lvalue]. splits; auto; vm_compute; discriminate.
        -- cbn [seen_stmt]. rewrite seen_call, !seen_args_cons. splits; try exact I; cbn [seen]; vm_compute; discriminate.
        -- cbn [seen_stmt seen]. split; [vm_compute; discriminate|]. exists (CPtr (CStruct (bs "P"))). split; [reflexivity|discriminate].
        -- cbn [seen_stmt seen lvalue]. splits; auto; vm_compute; discriminate.
    + rewrite seen_cons. split; [|exact I]. cbn [seen_stmt seen]. splits; try (vm_compute; discriminate).
      * exact I. * exact I.
      * intros d E. injection E as <-. reflexivity.
Qed.

(** REFUTED: the checker passes what C refuses: % on floats, ! and && on structs, comparing structs, subtracting pointers to different
    structs, assigning to a number, indexing a number. *)
Theorem C86_operators_refuted g h p q n m : same_scope g h -> vars g p = Some t_f64 -> vars g q = Some (TStruct n) ->
  vars g m = Some (TPointer (TStruct n)) ->
  let x := Var p in let s := Var q in let r := Var m in let one := Lit (LInt 1) in
  Forall (fun e => passes g (BCons (SExp e) BNil) = true /\ wt_block lax h (BCons (SExp e) BNil) = false)
    [Bin Mod x x; Un Not s; Bin Logic s one; Bin Cmp s s; Bin Sub r (Lit LStr); Assign one one; Index one one].
Proof.
  intros (V & _ & _) P Q M x s r one. subst x s r one.
  pose proof (V p) as Vp. pose proof (V q) as Vq. pose proof (V m) as Vm. rewrite P in Vp. rewrite Q in Vq. rewrite M in Vm.
  destruct (cvars h p) as [cp|] eqn:Cp; [|contradiction]. destruct (cvars h q) as [cq|] eqn:Cq; [|contradiction].
  destruct (cvars h m) as [cm|] eqn:Cm; [|contradiction]. destruct Vp as [Vp _], Vq as [Vq _], Vm as [Vm _].
  injection Vp as <-. destruct (struct_in _ _ Vq) as (_ & _ & _ & _ & ->).
  destruct (ptr_inv _ _ Vm) as (d & D & _ & ->). destruct (struct_in _ _ D) as (_ & _ & _ & _ & ->).
  pose proof (type_eq_exact _ _ _ Vq Vq) as E.
  repeat match goal with |- Forall _ _ => constructor end; split; unfold passes; cbn [check_block check_stmt check wt_block wt_stmt wt binary snd];
    rewrite ?P, ?Q, ?M, ?Cp, ?Cq, ?Cm; try reflexivity.
  cbn [compare snd]. rewrite E. reflexivity.
Qed.
(** REFUTED: an assignment operator is not checked at all. *)
Theorem C86_compound_refuted g a b : passes g (BCons (SExp a) BNil) = true -> passes g (BCons (SExp b) BNil) = true ->
  passes g (BCons (SExp (Bin Compound a b)) BNil) = true.
Proof.
  unfold passes. cbn [check_block check_stmt check binary ends]. destruct (check g a) as [ta na], (check g b) as [tb nb]. cbn [snd].
  rewrite !Nat.add_0_r, !Nat.add_0_l. rewrite !Nat.eqb_eq. lia.
Qed.
(** REFUTED: nor is the type of what a function returns. *)
Theorem C86_return_refuted g e : returns g = true -> passes g (BCons (SExp e) BNil) = true ->
  passes g (BCons (SReturn (Some e)) BNil) = true.
Proof.
  unfold passes. intros R. cbn [check_block check_stmt ends]. rewrite R. destruct (check g e) as [t n]. cbn [snd err].
  rewrite !Nat.add_0_r, !Nat.add_0_l. auto.
Qed.
(** REFUTED: anything goes into a void*, and a void* into anything; a pointer to any integer type into a pointer to any other. *)
Theorem C86_void_pointer_refuted g x y z w t j k : vars g x = Some t -> vars g z = Some (TPointer t_void) -> vars g w = Some (TPointer (TIntK j)) ->
  passes g (BCons (SLet y (Some (TPointer t_void)) (Var x)) BNil) = true
  /\ passes g (BCons (SLet y (Some t) (Var z)) BNil) = true
  /\ passes g (BCons (SLet y (Some (TPointer (TIntK k))) (Var w)) BNil) = true.
Proof.
  intros X Y W. unfold passes. cbn [check_block check_stmt check]. rewrite X, Y, W. cbn [place ends].
  assert (compat g (TPointer t_void) t = true) as ->.
  { unfold compat. cbn [is_void_ptr t_void]. rewrite !orb_true_r. reflexivity. }
  assert (compat g t (TPointer t_void) = true) as ->.
  { unfold compat. cbn [is_void_ptr t_void]. rewrite !orb_true_r. reflexivity. }
  auto.
Qed.
(** REFUTED: a shift by 32 to 63 passes when the left operand has 8 bits (kinds 8 to 11): it is an int there. *)
Theorem C86_shift_refuted g x k n : vars g x = Some (TIntK k) -> 8 <= k < 12 -> (32 <= n < 64)%Z ->
  passes g (BCons (SExp (Bin Shift (Var x) (Lit (LInt n)))) BNil) = true.
Proof.
  intros X K N. unfold passes. cbn [check_block check_stmt check binary snd ends]. rewrite X. cbn [bitwise wide_shift is_32 is_integer is_vec orb andb negb t_i32].
  destruct (Z.leb_spec 64 n); [lia|]. destruct (Nat.ltb_spec k 6); [lia|]. rewrite andb_false_r. reflexivity.
Qed.
(** REFUTED: it refuses correct programs: let x: f64 = 1; minus an alias of an integer; if on a float; a string before ?. *)
Theorem C86_refuses_refuted g x y n k op : vars g x = Some (TAlias op n (TIntK k)) ->
  Forall (fun s => passes g (BCons s BNil) = false)
    [SLet y (Some t_f64) (Lit (LInt 1)); SExp (Un Neg (Var x)); SIf (Lit (LFloat false)) BNil BNil;
     SExp (Tern (Lit LStr) (Lit (LInt 1)) (Lit (LInt 2)))].
Proof.
  intros X. repeat match goal with |- Forall _ _ => constructor end; try reflexivity.
  unfold passes. cbn [check_block check_stmt check]. rewrite X. reflexivity.
Qed.
Example C86_refuted_case : vars g0 1 = Some t_f64 /\ vars g0 3 = Some (TStruct (bs "P")) /\ vars g0 5 = Some (TPointer (TStruct (bs "P")))
  /\ returns g0 = true /\ passes g0 (blk [SExp (Bin Compound (Var 0) (Lit (LInt 0)))]) = true
  /\ passes g0 (blk [SReturn (Some (Lit LStr))]) = true /\ wt_block lax h0 (blk [SReturn (Some (Lit LStr))]) = false
  /\ passes g0 (blk [SExp (Bin Div (Var 0) (Lit (LInt 0)))]) = false.
Proof. splits; reflexivity. Qed.

Print Assumptions C86_sound_partial.
Print Assumptions C86_complete_partial.
Print Assumptions C86_operators_refuted.
Print Assumptions C86_compound_refuted.
Print Assumptions C86_return_refuted.
Print Assumptions C86_void_pointer_refuted.
Print Assumptions C86_shift_refuted.
Print Assumptions C86_refuses_refuted.
