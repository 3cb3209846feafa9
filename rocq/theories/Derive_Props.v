(** C78: a derived eq decides equality. *)
From Verif Require Import Common Derive_Model Derive_Spec Derive_Proofs.
Local Open Scope nat_scope.

(** PARTIAL: for every type without arrays and enum payloads, however nested, and all values
    without null strings: == is defined, true exactly on values with the same contents, and
    != is its negation. *)
Theorem C78_eq_partial : forall t v w,
  comparable t -> of_type t v -> of_type t w -> no_null v -> no_null w ->
  exists b, eq_op t v w = Ok b /\ ne_op t v w = Ok (negb b) /\ (b = true <-> same v w).
Proof.
  intros t v w C A B N1 N2. destruct (proj1 derived_ok t v w) as (b & E & H); auto.
  exists b. unfold ne_op. unfold eq_op. rewrite E. auto.
Qed.
(** struct P { x: int; s: string; k: Kind; q: Inner } *)
Definition sample_ty := TStruct (TCons TInt (TCons TStr (TCons (TEnum (TCons (TStruct TNil) (TCons (TStruct TNil) TNil)))
  (TCons (TStruct (TCons TFloat (TCons TPtr TNil))) TNil)))).
Definition sample (x : Z) (k : nat) (a : N) := VStruct (VCons (VInt x) (VCons (VStr (Some (bs "ab"))) (VCons (VEnum k (VStruct VNil))
  (VCons (VStruct (VCons (VFloat (Num 3)) (VCons (VPtr a) VNil))) VNil)))).
Example C78_eq_case : comparable sample_ty /\ of_type sample_ty (sample 5 1 9) /\ no_null (sample 5 1 9)
  /\ eq_op sample_ty (sample 5 1 9) (sample 5 1 9) = Ok true /\ eq_op sample_ty (sample 5 1 9) (sample 5 1 8) = Ok false
  /\ eq_op sample_ty (sample 5 1 9) (sample 5 0 9) = Ok false /\ ne_op sample_ty (sample 5 1 9) (sample 6 1 9) = Ok true.
Proof. cbn. splits; auto. repeat econstructor. Qed.

(** ... so it is an equivalence on values without NaN. *)
Theorem C78_equivalence_partial : forall t u v w,
  comparable t -> of_type t u -> of_type t v -> of_type t w -> no_null u -> no_null v -> no_null w ->
  (no_nan u -> eq_op t u u = Ok true)
  /\ eq_op t u v = eq_op t v u
  /\ (eq_op t u v = Ok true -> eq_op t v w = Ok true -> eq_op t u w = Ok true).
Proof.
  intros t u v w C A1 A2 A3 N1 N2 N3.
  destruct (C78_eq_partial t u u) as (buu & Euu & _ & Huu); auto.
  destruct (C78_eq_partial t u v) as (buv & Euv & _ & Huv); auto.
  destruct (C78_eq_partial t v u) as (bvu & Evu & _ & Hvu); auto.
  destruct (C78_eq_partial t v w) as (bvw & Evw & _ & Hvw); auto.
  destruct (C78_eq_partial t u w) as (buw & Euw & _ & Huw); auto.
  rewrite Euu, Euv, Evu, Evw, Euw. splits.
  - intros F. f_equal. apply Huu. now apply same_refl.
  - f_equal. apply Bool.eq_iff_eq_true. rewrite Huv, Hvu. split; apply same_sym.
  - intros X Y. inversion X; inversion Y; subst. f_equal. apply Huw.
    apply (proj1 same_trans u v); [now apply Huv|now apply Hvw].
Qed.
Example C78_equivalence_case : no_nan (sample 5 1 9).
Proof. cbn. repeat split. Qed.

(** REFUTED for enums with payloads: the payloads are not looked at, in an enum or in a field
    of one. *)
Theorem C78_payload_refuted : forall vs tag p q,
  eq_op (TEnum vs) (VEnum tag p) (VEnum tag q) = Ok true
  /\ eq_op (TStruct (TCons (TEnum vs) TNil)) (VStruct (VCons (VEnum tag p) VNil)) (VStruct (VCons (VEnum tag q) VNil)) = Ok true
  /\ (~ same p q -> ~ same (VEnum tag p) (VEnum tag q)).
Proof.
  intros vs tag p q. unfold eq_op. cbn. rewrite !Nat.eqb_refl. splits; auto.
  intros H X. apply H. now inversion X.
Qed.
(** Shape.Circle(1) == Shape.Circle(2) *)
Example C78_payload_case :
  let t := TEnum (TCons TInt (TCons (TStruct TNil) TNil)) in
  of_type t (VEnum 0 (VInt 1)) /\ of_type t (VEnum 0 (VInt 2))
  /\ eq_op t (VEnum 0 (VInt 1)) (VEnum 0 (VInt 2)) = Ok true /\ ~ same (VInt 1) (VInt 2).
Proof. cbn. splits; auto; try (econstructor; constructor). intros H. inversion H. Qed.

(** REFUTED for arrays: two structs hold their arrays at two places, so a struct with an array
    field is equal to no other struct, not even to its own copy. *)
Theorem C78_array_refuted : forall t a b l m pre1 pre2 fs post1 post2,
  a <> b -> derived_eqs fs pre1 pre2 = Ok true ->
  forall fs', eq_op (TStruct (app_t fs (TCons (TArr t) fs')))
        (VStruct (app_v pre1 (VCons (VArr a l) post1))) (VStruct (app_v pre2 (VCons (VArr b m) post2))) = Ok false.
Proof.
  intros t a b l m pre1 pre2 fs post1 post2 N. unfold eq_op. cbn [derived_eq]. intros E fs'.
  revert pre1 pre2 E. induction fs as [|u fs IH]; intros [|v pre1] [|w pre2] E; try discriminate.
  - cbn. destruct (N.eqb_spec a b); [contradiction|reflexivity].
  - cbn in E |- *. destruct (derived_eq u v w) as [[]| | |]; try discriminate. cbn in *. now apply IH.
Qed.
Example C78_array_case :
  let v a := VStruct (VCons (VInt 1) (VCons (VArr a (VCons (VInt 7) VNil)) VNil)) in
  let t := TStruct (TCons TInt (TCons (TArr TInt) TNil)) in
  eq_op t (v 100%N) (v 200%N) = Ok false /\ same (v 100%N) (v 200%N).
Proof. cbn. split; [reflexivity|repeat constructor]. Qed.

(** REFUTED for null strings: comparing one is undefined behaviour, even with another. *)
Theorem C78_null_refuted : forall s,
  eq_op (TStruct (TCons TStr TNil)) (VStruct (VCons (VStr None) VNil)) (VStruct (VCons (VStr s) VNil)) = UB
  /\ eq_op (TStruct (TCons TStr TNil)) (VStruct (VCons (VStr s) VNil)) (VStruct (VCons (VStr None) VNil)) = UB.
Proof. intros [s|]; split; reflexivity. Qed.

(** PARTIAL: the text of the method is the conjunction of the comparisons of all fields, in
    order, whenever it and each comparison fit the compiler's arrays ... *)
Theorem C78_text_partial : forall fs,
  Forall (fun f => length (cmp_text f) < 256) fs -> length (body_of fs) < 4096 -> eq_body fs = Ok (body_of fs).
Proof. intros fs F L. rewrite eq_body_ok by auto. now rewrite (proj2 (Nat.ltb_lt _ _) L). Qed.
Example C78_text_case :
  eq_body [(bs "x", CmpOp); (bs "k", CmpTag); (bs "in", CmpEq (bs "Inner"))]
  = Ok (bs "return self.x == other.x && self.k.tag == other.k.tag && Inner__eq(&self.in, &other.in);")
  /\ eq_body [] = Ok (bs "return true;").
Proof. split; vm_compute; reflexivity. Qed.
(** ... and REFUTED for every other struct: the compiler writes past one of them. *)
Theorem C78_text_refuted : forall fs,
  Exists (fun f => 256 <= length (cmp_text f)) fs \/ 4096 <= length (body_of fs) -> eq_body fs = UB.
Proof.
  intros fs H. destruct (Exists_dec (fun f => 256 <= length (cmp_text f)) fs) as [E|E].
  { intros f. apply le_dec. }
  - now apply eq_body_ub.
  - destruct H as [H|H]; [contradiction|]. rewrite eq_body_ok.
    + now rewrite (proj2 (Nat.ltb_ge _ _) H).
    + apply Forall_forall. intros f I. destruct (Nat.lt_ge_cases (length (cmp_text f)) 256) as [L|L]; auto.
      exfalso. apply E. apply Exists_exists. eauto.
Qed.
(** A hundred fields with names of a dozen letters *)
Example C78_text_refuted_case : 4096 <= length (body_of (repeat (bs "abcdefghijkl", CmpOp) 100)).
Proof. apply Nat.leb_le. vm_compute. reflexivity. Qed.

Print Assumptions C78_eq_partial.
Print Assumptions C78_equivalence_partial.
Print Assumptions C78_payload_refuted.
Print Assumptions C78_array_refuted.
Print Assumptions C78_null_refuted.
Print Assumptions C78_text_partial.
Print Assumptions C78_text_refuted.
