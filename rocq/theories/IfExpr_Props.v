(** C85: an if expression has the value of the branch taken. *)
From Verif Require Import Common Range_Model IfExpr_Model IfExpr_Spec IfExpr_Proofs.
Local Open Scope Z_scope.

(** PARTIAL: for every if expression whose branches, at every depth, have one type, defer nothing and are both there, the C code
    takes one branch, does the rest in order and once, and gives that branch's value.
    Missing: branches of different types, without else, with defer (refuted below). *)
Theorem C85_value_partial : forall St atom aty e, typed St atom aty -> plain aty e ->
  exists c, (forall ds, emit e ds = (c, ds)) /\ forall s, cev St atom aty c s = meaning St atom e s.
Proof.
  intros St atom aty e T P. destruct (proj1 (emit_good St atom aty T) e P) as (c & E & _ & V & _). eauto.
Qed.
(** PARTIAL: a function body of such expressions and of its own deferred statements does them in order, and at its end what it
    deferred, last first. *)
Theorem C85_body_partial : forall St atom aty l s, typed St atom aty ->
  Forall (fun x => match x with Do e => plain aty e | Defer _ => True end) l ->
  run_body St atom aty l s = body St atom l [] s.
Proof.
  intros St atom aty l s T F. unfold run_body. rewrite <- (body_good St atom aty T l F [] s).
  destruct (emit_body l []); reflexivity.
Qed.

(** Atoms note that they ran; atom a has the value a and the type i32 up to 9, i64 from 10 on *)
Definition at_ty (a : nat) : cty := mkty true (if (a <? 10)%nat then W32 else W64).
(** if 1 { 5; if 0 { 2 } else { 7; 3 } } else { 4 } *)
Definition e1 := If (Atom 1) (Then (Do (Atom 5)) (Last (If (Atom 0) (Last (Atom 2)) (Else (Then (Do (Atom 7)) (Last (Atom 3)))))))
  (Else (Last (Atom 4))).
Definition small (a : nat) (s : list nat) : res (Z * list nat) := if (a <? 100)%nat then Ok (Z.of_nat a, s ++ [a]) else Panic.
Example C85_value_case : typed (list nat) small at_ty /\ plain at_ty e1
  /\ cev (list nat) small at_ty (fst (emit e1 [])) [] = Ok (3, [1; 5; 0; 7; 3]%nat)
  /\ run_body (list nat) small at_ty [Defer 8; Do e1; Defer 9; Do (Atom 6)] [] = Ok [1; 5; 0; 7; 3; 6; 9; 8]%nat.
Proof.
  splits; try (vm_compute; reflexivity).
  - unfold typed, small. intros a s v s'. destruct (Nat.ltb_spec a 100); [|discriminate]. intros E. inversion E; subst.
    assert (B : lo (at_ty a) <= 0 /\ 100 <= hi (at_ty a)) by (unfold at_ty; destruct (a <? 10)%nat; split; vm_compute; discriminate).
    lia.
  - cbn. splits; auto.
Qed.

(** REFUTED: without else, the value is read although it was never set, whenever the condition is false. *)
Theorem C85_no_else_refuted : forall St atom aty c t s s' ds, typed St atom aty -> plain aty c -> 
  meaning St atom c s = Ok (0, s') ->
  cev St atom aty (fst (emit (If c t NoElse) ds)) s = UB.
Proof.
  intros St atom aty c t s s' ds T P E. destruct (proj1 (emit_good St atom aty T) c P) as (cc & Ec & _ & V & _).
  cbn [emit]. destruct (emit_last t ds) as [ty d1]. rewrite Ec. destruct (emit_block t d1) as [lt d2]. cbn [fst].
  change (cev St atom aty (CIf ty cc lt CNil) s) with
    (do '(x, s) <- cev St atom aty cc s;
     do '(v, s) <- cblock St atom aty (ctype aty ty) (if x =? 0 then CNil else lt) None s;
     match v with Some z => Ok (z, s) | None => UB end).
  rewrite V, E. reflexivity.
Qed.
(** REFUTED: the value of the second branch is converted to the type of the first. *)
Theorem C85_types_refuted : forall St atom aty c a b s s1 s2 v ds,
  atom c s = Ok (0, s1) -> atom b s1 = Ok (v, s2) ->
  let e := If (Atom c) (Last (Atom a)) (Else (Last (Atom b))) in
  meaning St atom e s = Ok (v, s2)
  /\ cev St atom aty (fst (emit e ds)) s = Ok (convert (aty a) v, s2)
  /\ (~ lo (aty a) <= v <= hi (aty a) -> convert (aty a) v <> v).
Proof.
  intros St atom aty c a b s s1 s2 v ds C B e. subst e. splits.
  - cbn. rewrite C. cbn. rewrite B. reflexivity.
  - cbn. rewrite C. cbn. rewrite B. reflexivity.
  - intros H E. apply H. rewrite <- E. unfold convert. destruct (bits_width (aty a)) as (W & P).
    pose proof (Z.mod_pos_bound (v - lo (aty a)) (2 ^ bits (aty a)) P). lia.
Qed.
(** if 0 { 1 } else { 5000000000 } is 705032704 *)
Example C85_types_case :
  let atom a (s : unit) := Ok (match a with 0%nat => 0 | 1%nat => 1 | _ => 5000000000 end, tt) in
  let aty a := if (a <? 2)%nat then c_int else mkty true W64 in
  cev unit atom aty (fst (emit (If (Atom 0) (Last (Atom 1)) (Else (Last (Atom 2)))) [])) tt = Ok (705032704, tt).
Proof. vm_compute. reflexivity. Qed.

(** REFUTED: what a branch defers runs at the end of the function, whether the branch was taken or not. *)
Theorem C85_defer_refuted : forall St atom aty c d a b s,
  let e := If (Atom c) (Then (Defer d) (Last (Atom a))) (Else (Last (Atom b))) in
  run_body St atom aty [Do e] s =
    (do '(x, s) <- atom c s; do '(_, s) <- atom (if x =? 0 then b else a) s; do '(_, s) <- atom d s; Ok s)
  /\ body St atom [Do e] [] s =
    (do '(x, s) <- atom c s; do '(_, s) <- atom (if x =? 0 then b else a) s;
     if x =? 0 then Ok s else do '(_, s) <- atom d s; Ok s).
Proof.
  intros St atom aty c d a b s e. subst e. split.
  - cbn. destruct (atom c s) as [[x s1]| | |]; cbn; auto. destruct (x =? 0); cbn.
    + destruct (atom b s1) as [[y s2]| | |]; cbn; auto.
    + destruct (atom a s1) as [[y s2]| | |]; cbn; auto.
  - cbn. destruct (atom c s) as [[x s1]| | |]; cbn; auto. destruct (x =? 0); cbn.
    + destruct (atom b s1) as [[y s2]| | |]; cbn; auto.
    + destruct (atom a s1) as [[y s2]| | |]; cbn; auto. destruct (atom d s2) as [[z s3]| | |]; cbn; auto.
Qed.
(** REFUTED: and 2^n times, when that branch is the last expression of n branches around it. *)
Fixpoint around (c b : nat) (e : exp) (n : nat) : exp :=
  match n with O => e | S n => If (Atom c) (Last (around c b e n)) (Else (Last (Atom b))) end.
Theorem C85_defer_twice_refuted : forall c d a b n ds,
  snd (emit (around c b (If (Atom c) (Then (Defer d) (Last (Atom a))) (Else (Last (Atom b)))) n) ds) = repeat d (2 ^ n) ++ ds.
Proof.
  intros c d a b n. induction n as [|n IH]; intros ds; [reflexivity|].
  set (x := around c b _ n) in *. cbn [around]. fold x.
  change (emit (If (Atom c) (Last x) (Else (Last (Atom b)))) ds) with
    (let '(ty, ds) := emit x ds in let '(t, ds) := (let '(k, ds) := emit x ds in (CSet k CNil, ds)) in
     (CIf ty (CAtom c) t (CSet (CAtom b) CNil), ds)).
  pose proof (IH ds) as E1. destruct (emit x ds) as [k1 d1]. cbn [snd] in E1.
  pose proof (IH d1) as E2. destruct (emit x d1) as [k2 d2]. cbn [snd] in *. subst.
  rewrite app_assoc, <- repeat_app. f_equal. f_equal. cbn [Nat.pow]. lia.
Qed.
(** REFUTED: the C code is not of the size of the program: each if in the last place of a first branch doubles it. *)
Theorem C85_size_refuted : forall c b a n ds, (2 ^ n <= csize (fst (emit (around c b (Atom a) n) ds)))%nat.
Proof.
  intros c b a n. induction n as [|n IH]; intros ds; [cbn; lia|].
  set (x := around c b _ n) in *. cbn [around]. fold x.
  change (emit (If (Atom c) (Last x) (Else (Last (Atom b)))) ds) with
    (let '(ty, ds) := emit x ds in let '(t, ds) := (let '(k, ds) := emit x ds in (CSet k CNil, ds)) in
     (CIf ty (CAtom c) t (CSet (CAtom b) CNil), ds)).
  pose proof (IH ds) as E1. destruct (emit x ds) as [k1 d1]. cbn [fst] in E1.
  pose proof (IH d1) as E2. destruct (emit x d1) as [k2 d2]. cbn [fst csize csizes Nat.pow] in *. lia.
Qed.

Print Assumptions C85_value_partial.
Print Assumptions C85_body_partial.
Print Assumptions C85_no_else_refuted.
Print Assumptions C85_types_refuted.
Print Assumptions C85_defer_refuted.
Print Assumptions C85_defer_twice_refuted.
Print Assumptions C85_size_refuted.
