(** Proofs about the type checker (C86). *)
From Verif Require Import Common Types_Model Check_Model Check_Spec.
Local Open Scope nat_scope.

(** * Equations of the mutual functions *)
Lemma check_call g f l : check g (Call f l) =
  match funs g f with
  | None => (None, 1 + check_args g [] l)
  | Some s => (Some (ret s), (if arg_count l <? required s then 1
                      else if (length (params s) <? arg_count l) && negb (varargs s) then 1 else 0) + check_args g (params s) l)
  end. Proof. reflexivity. Qed.
Lemma check_args_cons g ps e l : check_args g ps (ACons e l) =
  let '(t, n) := check g e in n + place g (hd_error ps) t + check_args g (tl ps) l. Proof. reflexivity. Qed.
Lemma wt_call q g f l : wt q g (Call f l) =
  match cfuns g f with
  | None => None
  | Some s =>
    if (crequired s <=? arg_count l) && ((arg_count l <=? length (cparams s)) || cvarargs s) && wt_args q g (cparams s) l
    then Some (cret s) else None
  end. Proof. reflexivity. Qed.
Lemma wt_args_cons q g ps e l : wt_args q g ps (ACons e l) =
  match wt q g e with
  | Some d => match hd_error ps with Some c => assignable q c d | None => negb (exact d CVoid) end && wt_args q g (tl ps) l
  | None => false
  end. Proof. reflexivity. Qed.
Lemma seen_call g f l : seen g (Call f l) = seen_args g (match cfuns g f with Some s => length (cparams s) | None => 0 end) l.
Proof. reflexivity. Qed.
Lemma seen_args_cons g n e l : seen_args g n (ACons e l) =
  (seen g e /\ (n = 0 -> wt lax g e <> Some CVoid) /\ seen_args g (pred n) l). Proof. reflexivity. Qed.
Lemma clean_call g f l : clean g (Call f l) = clean_args g (match cfuns g f with Some s => cparams s | None => [] end) l.
Proof. reflexivity. Qed.
Lemma clean_args_cons g ps e l : clean_args g ps (ACons e l) =
  (clean g e /\ mixed (hd_error ps) (wt exact g e) = false /\ clean_args g (tl ps) l). Proof. reflexivity. Qed.
Lemma check_if g c a b : check_stmt g (SIf c a b) = (g, cond g c + check_block g false a + check_block g false b).
Proof. reflexivity. Qed.
Lemma check_while g c b : check_stmt g (SWhile c b) = (g, cond g c + check_block g false b). Proof. reflexivity. Qed.
Lemma check_sblock g b : check_stmt g (SBlock b) = (g, check_block g false b). Proof. reflexivity. Qed.
Lemma check_cons g dead s b : check_block g dead (BCons s b) =
  let '(g', n) := check_stmt g s in (if dead then 1 else 0) + n + check_block g' (ends s) b. Proof. reflexivity. Qed.
Lemma wt_if q g c a b : wt_stmt q g (SIf c a b) = if cond_ok q g c && wt_block q g a && wt_block q g b then Some g else None.
Proof. reflexivity. Qed.
Lemma wt_while q g c b : wt_stmt q g (SWhile c b) = if cond_ok q g c && wt_block q g b then Some g else None. Proof. reflexivity. Qed.
Lemma wt_sblock q g b : wt_stmt q g (SBlock b) = if wt_block q g b then Some g else None. Proof. reflexivity. Qed.
Lemma wt_cons q g s b : wt_block q g (BCons s b) = match wt_stmt q g s with Some g' => wt_block q g' b | None => false end.
Proof. reflexivity. Qed.
Lemma seen_if g c a b : seen_stmt g (SIf c a b) = (seen g c /\ seen_block g a /\ seen_block g b). Proof. reflexivity. Qed.
Lemma seen_while g c b : seen_stmt g (SWhile c b) = (seen g c /\ seen_block g b). Proof. reflexivity. Qed.
Lemma seen_sblock g b : seen_stmt g (SBlock b) = seen_block g b. Proof. reflexivity. Qed.
Lemma seen_cons g s b : seen_block g (BCons s b) = (seen_stmt g s /\ seen_block (next g s) b). Proof. reflexivity. Qed.
Lemma clean_if g c a b : clean_stmt g (SIf c a b) = (clean_cond g c /\ clean_block g a /\ clean_block g b). Proof. reflexivity. Qed.
Lemma clean_while g c b : clean_stmt g (SWhile c b) = (clean_cond g c /\ clean_block g b). Proof. reflexivity. Qed.
Lemma clean_sblock g b : clean_stmt g (SBlock b) = clean_block g b. Proof. reflexivity. Qed.
Lemma clean_cons g s b : clean_block g (BCons s b) =
  (clean_stmt g s /\ clean_block (next' g s) b /\ (ends s = true -> b = BNil)). Proof. reflexivity. Qed.

Lemma lax_refl c : lax c c = true.
Proof. induction c; cbn; auto using beq_bytes_refl. Qed.
Lemma lax_sym c : forall d, lax c d = lax d c.
Proof.
  induction c; destruct d; cbn; auto.
  destruct (beq_bytes n n0) eqn:E; [apply beq_bytes_true in E; subst; symmetry; apply beq_bytes_refl|].
  destruct (beq_bytes n0 n) eqn:F; auto. apply beq_bytes_true in F; subst. rewrite beq_bytes_refl in E. discriminate.
Qed.
Lemma lax_trans c : forall d e, lax c d = true -> lax d e = true -> lax c e = true.
Proof.
  induction c; destruct d, e; cbn; auto; try discriminate; eauto.
  intros A B. apply beq_bytes_true in A; apply beq_bytes_true in B; subst. apply beq_bytes_refl.
Qed.
Lemma exact_eq c d : exact c d = true <-> c = d.
Proof. unfold exact. destruct (ct_eq c d); split; auto; discriminate. Qed.

(** * Classes of types *)
Definition is_cptr (c : ct) := match c with CPtr _ => true | _ => false end.
Lemma struct_in n c : cof (TStruct n) = Some c ->
  existsb (beq_bytes n) int_names = false /\ beq_bytes n (bs "char") = false /\ beq_bytes n (bs "str") = false
  /\ beq_bytes n (bs "string") = false /\ c = CStruct n.
Proof.
  cbn [cof]. rewrite existsb_app. destruct (existsb (beq_bytes n) int_names); cbn [orb]; [discriminate|].
  cbn [existsb]. destruct (beq_bytes n (bs "char")), (beq_bytes n (bs "str")), (beq_bytes n (bs "string")); cbn [orb]; try discriminate.
  intros E. injection E as <-. auto.
Qed.
Lemma classes t d : cof t = Some d ->
  is_integer t = is_cint d /\ is_float t = is_cfloat d /\ is_ptr t = is_cptr d /\ resolve t = t /\ is_unknown t = false
  /\ is_vec t = false /\ numeric t = arithmetic d.
Proof.
  destruct t; intros H; try discriminate; try (cbn in H; inversion H; subst; cbn; auto 10; fail).
  - destruct k; inversion H; cbn; auto 10.
  - destruct (struct_in _ _ H) as (A & _ & _ & _ & ->). unfold numeric, arithmetic. cbn [is_integer is_float is_cint is_cfloat].
    rewrite A. auto 10.
  - cbn in H. destruct (cof t) as [[]|]; inversion H; cbn; auto 10.
Qed.
Lemma ptr_inv u c : cof (TPointer u) = Some c -> exists d, cof u = Some d /\ d <> CVoid /\ c = CPtr d.
Proof. cbn. destruct (cof u) as [[]|]; intros E; inversion E; subst; eexists; splits; eauto; discriminate. Qed.
Lemma lax_int c d : lax c d = true -> is_cint c = is_cint d /\ is_cfloat c = is_cfloat d /\ is_cptr c = is_cptr d
  /\ arithmetic c = arithmetic d /\ scalar c = scalar d /\ (c = CVoid <-> d = CVoid).
Proof. destruct c, d; cbn; intros H; try discriminate; splits; auto; split; auto; discriminate. Qed.

Lemma string_ptr u : is_char_ptr (TPointer u) = true -> cof u <> None -> u = TChar.
Proof.
  destruct u; cbn [is_char_ptr]; try discriminate; auto. intros H C. exfalso. apply C.
  destruct (cof (TStruct name)) eqn:E; auto. destruct (struct_in _ _ E) as (_ & A & _). congruence.
Qed.
Lemma not_char_ptr t : is_ptr t = false -> is_char_ptr t = false.
Proof. destruct t; cbn; auto; discriminate. Qed.

Lemma type_eq_step a b : type_eq a b =
  if is_unknown a || is_unknown b then true
  else if is_integer a && is_integer b then true
  else if is_float a && is_float b then true
  else if is_string a && is_char_ptr b then true
  else if is_string b && is_char_ptr a then true
  else match a, b with
  | TStruct n, TStruct m => beq_bytes n m
  | TGeneric n, TGeneric m => beq_bytes n m
  | TAlias true n _, TAlias true m _ => beq_bytes n m
  | TAlias true _ _, TAlias false _ _ => false
  | TAlias false _ x, TAlias _ _ _ => type_eq x b
  | TPointer x, TPointer y => type_eq x y
  | TArray n x, TArray m y => (n =? m)%Z && type_eq x y
  | TVector n x, TVector m y => (n =? m)%Z && type_eq x y
  | TChar, TChar => true
  | TIntK j, TIntK k | TFloatK j, TFloatK k | TPlain j, TPlain k => j =? k
  | TString, TString => true
  | _, _ => false
  end.
Proof. destruct a; reflexivity. Qed.

Lemma type_eq_lax a : forall b c d, cof a = Some c -> cof b = Some d -> type_eq a b = true -> lax c d = true.
Proof.
  induction a; intros b c d A B; rewrite type_eq_step;
    destruct (classes _ _ A) as (Ai & Af & Ap & _ & Au & _); destruct (classes _ _ B) as (Bi & Bf & Bp & _ & Bu & _);
    rewrite Au, Bu, Ai, Bi, Af, Bf; cbn [orb]; clear Au Bu Ai Bi Af Bf.
  all: destruct (is_cint c && is_cint d) eqn:I1; [intros _; destruct c, d; try discriminate; reflexivity|].
  all: destruct (is_cfloat c && is_cfloat d) eqn:F1; [intros _; destruct c, d; try discriminate; reflexivity|].
  all: try discriminate A.
  all: destruct b; try discriminate B; cbn [is_string andb]; try (cbn [is_char_ptr]; discriminate).
  all: try (cbn in A, B; injection A as <-; injection B as <-; discriminate).
  - cbn in A, B. injection A as <-; injection B as <-. reflexivity.
  - (* string, pointer *) destruct (is_char_ptr (TPointer b)) eqn:P; [|discriminate]. intros _.
    destruct (ptr_inv _ _ B) as (x & X & _ & ->). assert (b = TChar) by (apply string_ptr; congruence). subst b.
    cbn in A, X. injection A as <-; injection X as <-. reflexivity.
  - destruct k; [|discriminate]. destruct k0; [|discriminate]. cbn in A, B. injection A as <-; injection B as <-. reflexivity.
  - destruct (struct_in _ _ A) as (_ & _ & _ & _ & ->). destruct (struct_in _ _ B) as (_ & _ & _ & _ & ->). auto.
  - (* pointer, string *) destruct (is_char_ptr (TPointer a)) eqn:P; [|discriminate]. intros _.
    destruct (ptr_inv _ _ A) as (x & X & _ & ->). assert (a = TChar) by (apply string_ptr; congruence). subst a.
    cbn in B, X. injection B as <-; injection X as <-. reflexivity.
  - destruct (ptr_inv _ _ A) as (x & X & _ & ->). destruct (ptr_inv _ _ B) as (y & Y & _ & ->). cbn [lax]. eauto.
Qed.
Lemma type_eq_exact a : forall b c, cof a = Some c -> cof b = Some c -> type_eq a b = true.
Proof.
  induction a; intros b c A B; rewrite type_eq_step;
    destruct (classes _ _ A) as (Ai & Af & Ap & _ & Au & _); destruct (classes _ _ B) as (Bi & Bf & Bp & _ & Bu & _);
    rewrite Au, Bu, Ai, Bi, Af, Bf; cbn [orb]; clear Au Bu.
  all: destruct (is_cint c) eqn:I1; cbn [andb]; [reflexivity|].
  all: destruct (is_cfloat c) eqn:F1; cbn [andb]; [reflexivity|].
  all: try discriminate A; try (cbn in A; injection A as <-; discriminate I1); try (cbn in A; injection A as <-; discriminate F1).
  - (* string *) cbn in A. injection A as <-. destruct b; try discriminate B; try reflexivity.
    + cbn in B. destruct k; discriminate B.
    + destruct (struct_in _ _ B) as (_ & _ & _ & _ & E). discriminate E.
    + destruct (ptr_inv _ _ B) as (x & X & _ & E). injection E as <-.
      destruct b; try discriminate X; try reflexivity; exfalso.
      * destruct k; discriminate X.
      * destruct (struct_in _ _ X) as (_ & _ & _ & _ & E). discriminate E.
      * destruct (ptr_inv _ _ X) as (? & _ & _ & E). discriminate E.
  - destruct k; [|discriminate]. cbn in A. injection A as <-. destruct b; try discriminate B.
    + destruct k; [reflexivity|discriminate].
    + destruct (struct_in _ _ B) as (_ & _ & _ & _ & E). discriminate E.
    + destruct (ptr_inv _ _ B) as (x & X & _ & E). discriminate E.
  - destruct (struct_in _ _ A) as (_ & _ & _ & _ & ->). destruct b; try discriminate B.
    + cbn in B. destruct k; discriminate.
    + destruct (struct_in _ _ B) as (_ & _ & _ & _ & E). injection E as <-. cbn [is_string andb]. apply beq_bytes_refl.
    + destruct (ptr_inv _ _ B) as (x & X & _ & E). discriminate E.
  - destruct (ptr_inv _ _ A) as (x & X & _ & ->). destruct b; try discriminate B.
    + cbn in B. injection B as <-. cbn [is_string andb]. 
      destruct a; try discriminate X; try reflexivity; exfalso.
      * destruct k; discriminate X.
      * destruct (struct_in _ _ X) as (_ & _ & _ & _ & E). discriminate E.
      * destruct (ptr_inv _ _ X) as (? & _ & _ & E). discriminate E.
    + cbn in B. destruct k; discriminate.
    + destruct (struct_in _ _ B) as (_ & _ & _ & _ & E). discriminate E.
    + destruct (ptr_inv _ _ B) as (y & Y & _ & E). injection E as <-. cbn [is_string andb]. eauto.
Qed.

Lemma name_is_no t c n : cof t = Some c -> In n [bs "str"; bs "string"] -> name_is t n = false.
Proof.
  intros C H. destruct t; try reflexivity; try discriminate C. unfold name_is, tname.
  destruct (struct_in _ _ C) as (_ & _ & A & B & _). destruct H as [<-|[<-|[]]]; auto.
Qed.
Lemma alias_no g a b c : cof a = Some c -> alias_of g a b = false.
Proof. destruct a; try reflexivity. discriminate. Qed.
Lemma void_ptr_no a c : cof a = Some c -> is_void_ptr a = false.
Proof. destruct a; try reflexivity. intros H. destruct (ptr_inv _ _ H) as (x & X & N & _). destruct a; try reflexivity.
  cbn in X. destruct k; [|discriminate]. injection X as <-. congruence. Qed.
Lemma array_no a b c : cof b = Some c ->
  match a, b with TPointer a, TArray _ b => type_eq a b || (is_char_type a && is_char_type b) | _, _ => false end = false.
Proof. destruct a, b; try reflexivity. discriminate. Qed.
Lemma string_cof t c : cof t = Some c -> is_string t = true -> c = CPtr (CInt 0).
Proof. destruct t; try discriminate. cbn. congruence. Qed.
Lemma compat_frag g a b c d : cof a = Some c -> cof b = Some d ->
  compat g a b = type_eq a b || (is_string a && is_string b) || (is_cint c && is_cint d) || (is_cfloat c && is_cfloat d).
Proof.
  intros A B. unfold compat. rewrite (alias_no _ _ _ _ A), (alias_no _ _ _ _ B), (void_ptr_no _ _ A), (void_ptr_no _ _ B),
    (array_no _ _ _ B), (name_is_no _ _ (bs "str") A), (name_is_no _ _ (bs "string") B) by (cbn; auto).
  destruct (classes _ _ A) as (-> & -> & _). destruct (classes _ _ B) as (-> & -> & _). rewrite !orb_false_r. reflexivity.
Qed.
Lemma compat_lax g a b c d : cof a = Some c -> cof b = Some d -> compat g a b = true -> lax c d = true.
Proof.
  intros A B. rewrite (compat_frag _ _ _ _ _ A B). intros H.
  apply orb_prop in H; destruct H as [H|H]; [apply orb_prop in H; destruct H as [H|H]; [apply orb_prop in H; destruct H as [H|H]|]|].
  - eapply type_eq_lax; eauto.
  - apply andb_prop in H. destruct H as [P Q]. rewrite (string_cof _ _ A P), (string_cof _ _ B Q). reflexivity.
  - destruct c, d; try discriminate; reflexivity.
  - destruct c, d; try discriminate; reflexivity.
Qed.
Lemma compat_exact g a b c : cof a = Some c -> cof b = Some c -> compat g a b = true.
Proof. intros A B. rewrite (compat_frag _ _ _ _ _ A B), (type_eq_exact _ _ _ A B). reflexivity. Qed.
Lemma compat_num g a b c d : cof a = Some c -> cof b = Some d ->
  (is_cint c && is_cint d) || (is_cfloat c && is_cfloat d) = true -> compat g a b = true.
Proof.
  intros A B H. rewrite (compat_frag _ _ _ _ _ A B). apply orb_prop in H. destruct H as [H|H]; rewrite H, ?orb_true_r; auto.
Qed.

(** * Soundness *)
Definition rel (t : ty) (c : ct) : Prop := exists d, cof t = Some d /\ lax d c = true.
Definition funs_ok (g : env) (h : cenv) : Prop :=
  forall f, match funs g f, cfuns h f with
            | Some s, Some s' => Forall2 value_type (params s) (cparams s') /\ required s = crequired s'
                                 /\ varargs s = cvarargs s' /\ cof (ret s) = Some (cret s')
            | None, None => True
            | _, _ => False
            end.
Definition scope (R : ty -> ct -> Prop) (g : env) (h : cenv) : Prop :=
  (forall x, match vars g x, cvars h x with Some t, Some c => R t c /\ c <> CVoid | None, None => True | _, _ => False end)
  /\ funs_ok g h /\ (returns g = true <-> cresult h <> CVoid).

Lemma rel_classes t c : rel t c ->
  is_integer t = is_cint c /\ is_float t = is_cfloat c /\ is_ptr t = is_cptr c /\ resolve t = t /\ is_unknown t = false
  /\ is_vec t = false /\ numeric t = arithmetic c.
Proof.
  intros (d & D & L). destruct (classes _ _ D) as (A & B & C & E & F & G & H).
  destruct (lax_int _ _ L) as (<- & <- & <- & <- & _). splits; auto.
Qed.
Lemma assignable_lax c d : lax c d = true -> c <> CVoid -> assignable lax c d = true.
Proof. destruct c, d; cbn; auto; congruence. Qed.
Lemma assignable_lax_l c d e : lax c d = true -> assignable lax c e = assignable lax d e.
Proof.
  destruct c, d; cbn [lax]; try discriminate; intros H; try (destruct e; reflexivity).
  - destruct e; try reflexivity. cbn [assignable].
    destruct (lax c e) eqn:X, (lax d e) eqn:Y; auto; exfalso.
    + rewrite (lax_trans d c e) in Y; [discriminate| |auto]. rewrite lax_sym; auto.
    + rewrite (lax_trans c d e) in X; [discriminate|auto|auto].
  - apply beq_bytes_true in H. subst. reflexivity.
Qed.
Lemma Forall2_len {A B} (R : A -> B -> Prop) l m : Forall2 R l m -> length l = length m.
Proof. induction 1; cbn; congruence. Qed.

Lemma arg_sound g p a c d : value_type p c -> rel a d -> compat g p a = true -> assignable lax c d = true.
Proof.
  intros [P N] (x & X & L) C. apply assignable_lax; auto. eapply lax_trans; [|exact L]. eapply compat_lax; eauto.
Qed.

Scheme exp_mind := Induction for exp Sort Prop with args_mind := Induction for args Sort Prop.
Combined Scheme exp_args_ind from exp_mind, args_mind.
Scheme stmt_mind := Induction for stmt Sort Prop with block_mind := Induction for block Sort Prop.
Combined Scheme stmt_block_ind from stmt_mind, block_mind.

Lemma rel_cof t c : cof t = Some c -> rel t c.
Proof. intros H. exists c. auto using lax_refl. Qed.
Lemma rel_ptr t c : rel t c -> is_cptr c = true ->
  (t = TString /\ exists k, c = CPtr (CInt k)) \/ exists u d, t = TPointer u /\ c = CPtr d /\ rel u d /\ d <> CVoid.
Proof.
  intros (x & X & L) P. destruct c as [| |d| |]; try discriminate P. destruct x as [| |x| |]; try discriminate L. cbn [lax] in L.
  destruct t; try discriminate X.
  - left. split; auto. cbn in X. injection X as <-. destruct d; try discriminate L. eauto.
  - destruct k; discriminate X.
  - destruct (struct_in _ _ X) as (_ & _ & _ & _ & E). discriminate E.
  - right. destruct (ptr_inv _ _ X) as (y & Y & N & E). injection E as <-. exists t, d. splits; auto; [exists x; auto|].
    intros ->. apply N. apply (lax_int _ _ L). reflexivity.
Qed.

Ltac sp := repeat match goal with
  | H : _ + _ = 0 |- _ => apply Nat.eq_add_0 in H; destruct H
  end.

Lemma un_sound o t c u : rel t c -> unary o (Some t) = (u, 0) -> (o = Not -> scalar c = true) ->
  exists u' d, u = Some u' /\ un o c = Some d /\ rel u' d.
Proof.
  intros R H S. destruct (rel_classes _ _ R) as (Ri & Rf & Rp & Rr & Ru & _ & Rn). unfold unary in H. destruct o.
  - injection H as <-. exists t_bool, (CInt 1). cbn [un]. rewrite S by auto. splits; auto. exists (CInt 7). auto.
  - rewrite Rn in H. destruct (arithmetic c) eqn:A; [|discriminate H]. injection H as <-. exists t, (both c c). cbn [un]. rewrite A.
    splits; auto. destruct R as (d & D & L). exists d. split; auto. destruct d, c; try discriminate; reflexivity.
  - rewrite Ru, Rr in H. assert (P : is_cptr c = true).
    { rewrite <- Rp. destruct t; try discriminate H; reflexivity. }
    destruct (rel_ptr _ _ R P) as [(-> & k & ->)|(w & d & -> & -> & W & _)]; injection H as <-.
    + exists TChar, (CInt k). splits; auto. exists (CInt 0). auto.
    + exists w, d. splits; auto.
  - rewrite Ri in H. destruct (is_cint c) eqn:A; [|discriminate H]. injection H as <-. destruct c; try discriminate A.
    exists t, (CInt 1). splits; auto. destruct R as (d & D & L). exists d. split; auto. destruct d; try discriminate; reflexivity.
Qed.
Lemma rel_int t c k : rel t c -> is_cint c = true -> rel t (CInt k).
Proof. intros (d & D & L) I. exists d. split; auto. destruct d, c; try discriminate; reflexivity. Qed.
Lemma arith_sound o ta tb c d u : In o [Add; Sub; Mul; Div; Mod] -> rel ta c -> rel tb d -> arith o (Some ta) (Some tb) = (u, 0) ->
  (o = Mod -> is_cfloat c = false /\ is_cfloat d = false) -> 
  (o = Sub -> forall x y, c = CPtr x -> d = CPtr y -> lax x y = true) ->
  exists u' e, u = Some u' /\ bin lax o c d = Some e /\ rel u' e.
Proof.
  intros O Ra Rb H M S.
  destruct (rel_classes _ _ Ra) as (Ai & Af & Ap & Ar & Au & Av & An).
  destruct (rel_classes _ _ Rb) as (Bi & Bf & Bp & Br & Bu & Bv & Bn).
  unfold arith in H. rewrite Ar, Br, Ap, Bp, An, Bn, Ai, Bi, Af, Bf, Au, Bu, Av, Bv in H. rewrite !orb_false_r in H. cbn [orb] in H.
  assert (I7 : rel t_isize (CInt 1)) by (exists (CInt 8); auto).
  assert (F2 : rel t_f64 (CFloat 0)) by (exists (CFloat 2); auto).
  assert (KI : is_cint c = true -> rel ta (CInt 1)) by (apply rel_int; auto).
  destruct O as [<-|[<-|[<-|[<-|[<-|[]]]]]]; destruct c, d; cbn in H; try discriminate H; injection H as <-;
    try (specialize (M eq_refl); destruct M; discriminate);
    try (rewrite (S eq_refl _ _ eq_refl eq_refl)); cbn; 
    try (rewrite (S eq_refl _ _ eq_refl eq_refl)); eauto 10.
Qed.
Lemma bit_sound ta tb c d u : rel ta c -> rel tb d -> bitwise (Some ta) (Some tb) = (u, 0) ->
  exists u', u = Some u' /\ is_cint c && is_cint d = true /\ rel u' (CInt 1).
Proof.
  intros Ra Rb H.
  destruct (rel_classes _ _ Ra) as (Ai & _ & _ & _ & _ & Av & _). destruct (rel_classes _ _ Rb) as (Bi & _ & _ & _ & _ & Bv & _).
  unfold bitwise in H. rewrite Ai, Bi, Av, Bv in H. rewrite !orb_false_r in H. cbn [orb] in H.
  destruct (is_cint c) eqn:C, (is_cint d) eqn:D; cbn in H; try discriminate H. injection H as <-. exists ta. splits; auto.
  eapply rel_int; eauto.
Qed.
Lemma cmp_sound ta tb c d u : rel ta c -> rel tb d -> scalar c = true -> compare (Some ta) (Some tb) = (u, 0) ->
  u = Some t_bool /\ bin lax Cmp c d = Some (CInt 1).
Proof.
  intros Ra Rb Sc H.
  destruct (rel_classes _ _ Ra) as (Ai & Af & Ap & Ar & Au & Av & An).
  destruct (rel_classes _ _ Rb) as (Bi & Bf & Bp & Br & Bu & Bv & Bn).
  unfold compare in H. rewrite Au, Bu, An, Bn in H. rewrite !orb_false_r in H. injection H as <- H. split; auto.
  destruct (type_eq ta tb) eqn:E.
  - destruct Ra as (x & X & Lx), Rb as (y & Y & Ly). pose proof (type_eq_lax _ _ _ _ X Y E) as L.
    assert (L' : lax c d = true). { eapply lax_trans; [|exact Ly]. eapply lax_trans; [|exact L]. rewrite lax_sym; auto. }
    destruct c, d; try discriminate; cbn in L' |- *; try rewrite L'; auto.
  - cbn [orb] in H. destruct (arithmetic c && arithmetic d) eqn:P; [|discriminate H].
    destruct c, d; try discriminate P; reflexivity.
Qed.
Lemma branches_lax c d : lax c d = true -> exists e, branches lax c d = Some e /\ lax c e = true.
Proof.
  destruct c, d; cbn; try discriminate; eauto; intros H; rewrite H; eexists; split; eauto; cbn; auto using lax_refl, beq_bytes_refl.
Qed.

Section Sound.
Variables (g : env) (h : cenv).
Hypothesis Sc : scope rel g h.

Lemma sound :
  (forall e, seen h e -> forall o, check g e = (o, 0) ->
     exists t c, o = Some t /\ wt lax h e = Some c /\ rel t c /\ (lvalue e = true -> c <> CVoid))
  /\ (forall l ps cps, Forall2 value_type ps cps -> seen_args h (length cps) l -> check_args g ps l = 0 ->
        wt_args lax h cps l = true).
Proof.
  destruct Sc as (Vs & Fs & _). apply exp_args_ind.
  - intros l _ o H. destruct l; injection H as <-; eexists; eexists; splits; try reflexivity; try discriminate; eexists; split; reflexivity.
  - intros x S o H. cbn [check] in H. injection H as <-. cbn [seen] in S. specialize (Vs x). cbn [wt].
    destruct (vars g x), (cvars h x); try contradiction; try congruence. destruct Vs. eauto 10.
  - intros t S o H. cbn [seen] in S. destruct S as (u & c & -> & D & _). cbn in H. injection H as <-.
    exists u, c. splits; auto using rel_cof. discriminate.
  - intros o e IH S r H. cbn [check] in H. destruct (check g e) as [t n] eqn:E. destruct (unary o t) as [u m] eqn:U.
    injection H as <- H. sp. subst.
    assert (Se : seen h e) by (destruct o; cbn [seen] in S; tauto).
    destruct (IH Se _ eq_refl) as (t' & c & -> & W & R & _).
    destruct (un_sound _ _ _ _ R U) as (u' & d & -> & D & R').
    { intros ->. cbn [seen] in S. destruct S as [_ S]. apply S. exact W. }
    exists u', d. cbn [wt]. rewrite W. splits; auto. intros L. destruct o; try discriminate L.
    destruct c as [| |x| |]; try discriminate D. cbn in D. injection D as ->.
    destruct (rel_ptr _ _ R eq_refl) as [(_ & k & E')|(? & ? & _ & E' & _ & N)]; injection E' as ->; [discriminate|auto].
  - intros o a IHa b IHb S r H. cbn [check] in H. destruct (check g a) as [ta na]. destruct (check g b) as [tb nb].
    destruct (binary o ta tb b) as [t n] eqn:B. injection H as <- H. sp. subst.
    cbn [seen] in S. destruct S as (Sa & Sb & S).
    destruct (IHa Sa _ eq_refl) as (ta' & c & -> & Wa & Ra & _). destruct (IHb Sb _ eq_refl) as (tb' & d & -> & Wb & Rb & _).
    cbn [wt]. rewrite Wa, Wb.
    cut (exists t0 c0, t = Some t0 /\ bin lax o c d = Some c0 /\ rel t0 c0).
    { intros (t0 & c0 & X1 & X2 & X3). exists t0, c0. splits; auto. discriminate. }
    assert (Ar : In o [Add; Sub; Mul; Div; Mod] -> forall u, arith o (Some ta') (Some tb') = (u, 0) ->
                 exists u' e, u = Some u' /\ bin lax o c d = Some e /\ rel u' e).
    { intros O u U. apply (arith_sound o ta' tb' c d u); auto.
      - intros ->. destruct S as [S1 S2]. split; auto.
      - intros -> x y -> ->. apply S; auto. }
    destruct o; cbn [binary] in B.
    + apply Ar; cbn; auto.
    + apply Ar; cbn; auto.
    + apply Ar; cbn; auto.
    + destruct (arith Div (Some ta') (Some tb')) as [u m] eqn:U. injection B as <- B. sp. subst m.
      apply Ar; cbn; auto.
    + destruct (arith Mod (Some ta') (Some tb')) as [u m] eqn:U. injection B as <- B. sp. subst m.
      apply Ar; cbn; auto 10.
    + destruct (cmp_sound _ _ _ _ _ Ra Rb (S _ Wa) B) as (-> & X). rewrite X. exists t_bool, (CInt 1). splits; auto. exists (CInt 7); auto.
    + injection B as <-. destruct S as [S1 S2]. cbn [bin]. rewrite (S1 _ Wa), (S2 _ Wb).
      exists t_bool, (CInt 1). splits; auto. exists (CInt 7); auto.
    + destruct (bit_sound _ _ _ _ _ Ra Rb B) as (u & -> & X & Y). cbn [bin]. rewrite X. eauto.
    + destruct (bitwise (Some ta') (Some tb')) as [u m] eqn:U. injection B as <- B. sp. subst m.
      destruct (bit_sound _ _ _ _ _ Ra Rb U) as (u' & -> & X & Y). cbn [bin]. rewrite X. eauto.
    + contradiction.
  - intros a IHa b IHb S r H. cbn [check] in H. destruct (check g a) as [ta na]. destruct (check g b) as [tb nb].
    injection H as <- H. sp. subst. cbn [seen] in S. destruct S as (Sa & Sb & L).
    destruct (IHa Sa _ eq_refl) as (ta' & c & -> & Wa & Ra & N). destruct (IHb Sb _ eq_refl) as (tb' & d & -> & Wb & Rb & _).
    cbn [wt]. rewrite Wa, Wb, L. cbn [andb]. specialize (N L).
    match goal with P : place _ _ _ = 0 |- _ => unfold place in P; destruct (compat g ta' tb') eqn:C; [clear P|discriminate P] end.
    assert (A : lax c d = true).
    { destruct Ra as (x & X & Lx), Rb as (y & Y & Ly). pose proof (compat_lax _ _ _ _ _ X Y C).
      eapply lax_trans; [|exact Ly]. eapply lax_trans; [|eassumption]. rewrite lax_sym; auto. }
    rewrite (assignable_lax _ _ A N). exists ta', c. splits; auto.
  - intros f l IH S o H. rewrite check_call in H. specialize (Fs f). rewrite seen_call in S. rewrite wt_call.
    destruct (funs g f) as [s|], (cfuns h f) as [s'|]; try contradiction; [|discriminate H].
    destruct Fs as (F1 & F2 & F3 & F4). injection H as <- H. sp.
    rewrite (IH _ _ F1 S) by auto. pose proof (Forall2_len _ _ _ F1) as Len. rewrite <- F2, <- F3, <- Len.
    destruct (Nat.ltb_spec (arg_count l) (required s)); [discriminate|].
    destruct (Nat.ltb_spec (length (params s)) (arg_count l)); destruct (varargs s); cbn [andb negb] in *; try discriminate;
      repeat match goal with |- context [?x <=? ?y] => destruct (Nat.leb_spec x y); try lia end; cbn [andb orb];
      exists (ret s), (cret s'); splits; auto using rel_cof; discriminate.
  - intros a IHa i IHi S r H. cbn [check] in H. destruct (check g a) as [ta na]. destruct (check g i) as [ti ni].
    injection H as <- H. sp. subst. cbn [seen] in S. destruct S as (Sa & Si & P).
    destruct (IHa Sa _ eq_refl) as (ta' & c & -> & Wa & Ra & _). destruct (IHi Si _ eq_refl) as (ti' & d & -> & Wi & Ri & _).
    cbn [wt]. rewrite Wa, Wi. destruct (P _ Wa) as (x & ->).
    destruct (rel_classes _ _ Ri) as (Ii & _). rewrite Ii in *. destruct d; try discriminate.
    destruct (rel_ptr _ _ Ra eq_refl) as [(-> & k' & E)|(w & z & -> & E & Rz & Nz)]; injection E as ->.
    + exists t_int, (CInt k'). splits; auto; [exists (CInt 2); auto|discriminate].
    + exists w, z. splits; auto.
  - intros c IHc a IHa b IHb S r H. cbn [check] in H. destruct (check g c) as [tc nc]. destruct (check g a) as [ta na].
    destruct (check g b) as [tb nb]. cbn [seen] in S. destruct S as (Sc' & Sa & Sb).
    assert (nc = 0 /\ na = 0 /\ nb = 0) as (-> & -> & ->).
    { destruct ta, tb; [destruct (compat g t t0)| | |]; injection H as _ H; sp; auto; discriminate. }
    destruct (IHc Sc' _ eq_refl) as (tc' & x & -> & Wc & Rc & _).
    destruct (IHa Sa _ eq_refl) as (ta' & y & -> & Wa & Ra & _). destruct (IHb Sb _ eq_refl) as (tb' & z & -> & Wb & Rb & _).
    destruct (compat g ta' tb') eqn:C; [|discriminate]. injection H as <- H. cbn [wt]. rewrite Wc, Wa, Wb.
    assert (scalar x = true) as ->.
    { destruct (rel_classes _ _ Rc) as (Ci & _ & Cp & _). rewrite Ci in H.
      destruct (is_cint x) eqn:X; [destruct x; try discriminate X; reflexivity|]. cbn [orb] in H.
      destruct tc'; try discriminate H. cbn in Cp. destruct x; try discriminate Cp. reflexivity. }
    destruct Ra as (p & P & Lp), Rb as (q & Q & Lq). pose proof (compat_lax _ _ _ _ _ P Q C) as L.
    destruct (branches_lax y z) as (e & Eb & Le).
    { eapply lax_trans; [|exact Lq]. eapply lax_trans; [|exact L]. rewrite lax_sym; auto. }
    exists ta', e. splits; auto; [|discriminate]. exists p. split; auto. apply (lax_trans p y e); auto.
  - reflexivity.
  - intros e IHe l IHl ps cps F S H. rewrite check_args_cons in H. destruct (check g e) as [t n] eqn:E. sp. subst.
    rewrite seen_args_cons in S. destruct S as (Se & Sv & Sl). destruct (IHe Se _ eq_refl) as (t' & c & -> & W & R & _).
    rewrite wt_args_cons, W. destruct F as [|p q ps cps V F].
    + cbn [hd_error tl] in *. rewrite (IHl [] []) by auto.
      unfold exact. destruct (ct_eq c CVoid); auto. subst. exfalso. apply Sv; auto.
    + cbn [hd_error tl length pred place] in *. destruct (compat g p t') eqn:C; [|discriminate].
      rewrite (arg_sound _ _ _ _ _ V R C). apply (IHl ps cps); auto.
Qed.
End Sound.

Lemma rel_scalar t c : rel t c -> is_integer (resolve t) || is_ptr (resolve t) = true -> scalar c = true.
Proof.
  intros R. destruct (rel_classes _ _ R) as (A & _ & B & C & _). rewrite C, A, B. destruct c; auto; discriminate.
Qed.
Lemma cond_sound g h e : scope rel g h -> seen h e -> cond g e = 0 -> cond_ok lax h e = true.
Proof.
  intros Sc S H. unfold cond in H. destruct (check g e) as [t n] eqn:E. sp. subst.
  destruct (proj1 (sound g h Sc) e S _ E) as (t' & c & -> & W & R & _). unfold cond_ok. rewrite W. eapply rel_scalar; eauto.
  destruct (is_integer (resolve t') || is_ptr (resolve t')); auto. discriminate.
Qed.
Lemma declare_scope (R : ty -> ct -> Prop) g h x t c : scope R g h -> R t c -> c <> CVoid -> scope R (declare g x (Some t)) (cdeclare h x c).
Proof.
  intros (V & F & T) H N. split; [|split; auto]. intros y. cbn. destruct (y =? x); auto. apply V.
Qed.
Lemma stmt_sound :
  (forall s g h, scope rel g h -> seen_stmt h s -> snd (check_stmt g s) = 0 ->
     exists h', wt_stmt lax h s = Some h' /\ scope rel (fst (check_stmt g s)) h')
  /\ (forall b g h dead, scope rel g h -> seen_block h b -> check_block g dead b = 0 -> wt_block lax h b = true).
Proof.
  apply stmt_block_ind.
  - intros e g h Sc S H. cbn [check_stmt snd fst wt_stmt seen_stmt] in *. destruct (check g e) as [t n] eqn:E. cbn [snd] in H. subst.
    destruct (proj1 (sound g h Sc) e S _ E) as (t' & c & -> & W & R & _). rewrite W. eauto.
  - intros x t e g h Sc S H. cbn [check_stmt wt_stmt seen_stmt] in *. destruct (check g e) as [te n] eqn:E. cbn [snd fst] in *. sp. subst.
    destruct S as [Se St]. destruct (proj1 (sound g h Sc) e Se _ E) as (t' & d & -> & W & R & _). rewrite W in *.
    destruct t as [t|].
    + destruct St as (c & D & N). rewrite D. cbn [place] in *. destruct (compat g t t') eqn:C; [|discriminate].
      rewrite (arg_sound g t t' c d) by (auto; split; auto).
      exists (cdeclare h x c). split; [destruct c; congruence|]. apply declare_scope; auto using rel_cof.
    + assert (N : d <> CVoid) by congruence. rewrite (assignable_lax d d) by (auto using lax_refl).
      exists (cdeclare h x d). split; [destruct d; congruence|]. apply declare_scope; auto.
  - intros c a IHa b IHb g h Sc S H. rewrite check_if in *. rewrite seen_if in S. rewrite wt_if. cbn [snd fst] in *. destruct S as (S1 & S2 & S3). sp.
    rewrite (cond_sound g h), (IHa g h false), (IHb g h false) by auto. cbn. eauto.
  - intros c b IHb g h Sc S H. rewrite check_while in *. rewrite seen_while in S. rewrite wt_while. cbn [snd fst] in *. destruct S as (S1 & S2). sp.
    rewrite (cond_sound g h), (IHb g h false) by auto. cbn. eauto.
  - intros e g h Sc S H. cbn [check_stmt snd fst wt_stmt seen_stmt] in *. destruct e as [e|].
    + destruct S as [Se Sr]. destruct (check g e) as [t n] eqn:E. cbn [snd] in H. sp. subst.
      destruct (proj1 (sound g h Sc) e Se _ E) as (t' & d & -> & W & R & _). rewrite W, (Sr _ W). eauto.
    + destruct Sc as (V & F & T). exists h. destruct (cresult h) eqn:C; try (destruct (returns g); [discriminate H|];
        exfalso; assert (false = true) by (apply T; discriminate); discriminate).
      split; auto. split; [auto|split; auto]. rewrite C. auto.
  - intros g h Sc _ _. cbn. eauto.
  - intros b IHb g h Sc S H. rewrite check_sblock in *. rewrite seen_sblock in S. rewrite wt_sblock. cbn [snd fst] in *. rewrite (IHb g h false) by auto. eauto.
  - reflexivity.
  - intros s IHs b IHb g h dead Sc S H. rewrite check_cons in H. rewrite wt_cons. rewrite seen_cons in S. destruct S as [S1 S2].
    destruct (check_stmt g s) as [g' n] eqn:E. sp. subst n.
    destruct (IHs g h Sc S1) as (h' & W & Sc'); [rewrite E; auto|]. rewrite W. unfold next in S2. rewrite W in S2.
    rewrite E in Sc'. eapply IHb; eauto.
Qed.

(** * Completeness *)
(** the same class of number, or the same C type *)
Definition like (c d : ct) : Prop := c = d \/ (is_cint c = true /\ is_cint d = true) \/ (is_cfloat c = true /\ is_cfloat d = true).
Definition crel (t : ty) (c : ct) : Prop := exists d, cof t = Some d /\ like d c.
Lemma like_classes c d : like c d -> is_cint c = is_cint d /\ is_cfloat c = is_cfloat d /\ is_cptr c = is_cptr d
  /\ arithmetic c = arithmetic d /\ scalar c = scalar d.
Proof. intros [->|[[A B]|[A B]]]; auto; destruct c, d; try discriminate; auto. Qed.
Lemma crel_classes t c : crel t c ->
  is_integer t = is_cint c /\ is_float t = is_cfloat c /\ is_ptr t = is_cptr c /\ resolve t = t /\ is_unknown t = false
  /\ is_vec t = false /\ numeric t = arithmetic c.
Proof.
  intros (d & D & L). destruct (classes _ _ D) as (A & B & C & E & F & G & H).
  destruct (like_classes _ _ L) as (<- & <- & <- & <- & _). splits; auto.
Qed.
Lemma crel_cof t c : cof t = Some c -> crel t c.
Proof. intros H. exists c. split; auto. left; auto. Qed.
Lemma crel_int t c k : crel t c -> is_cint c = true -> crel t (CInt k).
Proof. intros (d & D & L) H. exists d. split; auto. right. left. destruct (like_classes _ _ L) as (A & _). split; [congruence|reflexivity]. Qed.
Lemma crel_float t c k : crel t c -> is_cfloat c = true -> crel t (CFloat k).
Proof. intros (d & D & L) H. exists d. split; auto. right. right. destruct (like_classes _ _ L) as (_ & A & _). split; [congruence|reflexivity]. Qed.
Lemma crel_ptr t x : crel t (CPtr x) -> cof t = Some (CPtr x).
Proof. intros (d & D & [->|[[_ A]|[_ A]]]); auto; discriminate. Qed.
Lemma crel_void t : crel t CVoid -> cof t = Some CVoid.
Proof. intros (d & D & [->|[[_ A]|[_ A]]]); auto; discriminate. Qed.
Lemma crel_struct t n : crel t (CStruct n) -> cof t = Some (CStruct n).
Proof. intros (d & D & [->|[[_ A]|[_ A]]]); auto; discriminate. Qed.

Lemma compat_like g a b c d : crel a c -> crel b d -> like c d -> compat g a b = true.
Proof.
  intros (x & X & Lx) (y & Y & Ly) L.
  destruct (like_classes _ _ Lx) as (Xi & Xf & _). destruct (like_classes _ _ Ly) as (Yi & Yf & _).
  destruct L as [<-|[[A B]|[A B]]]; [|eapply compat_num; eauto; rewrite Xi, Yi, A, B; auto
    |eapply compat_num; eauto; rewrite Xf, Yf, A, B; apply orb_true_r].
  destruct (is_cint c) eqn:I1; [eapply compat_num; eauto; rewrite Xi, Yi; auto|].
  destruct (is_cfloat c) eqn:F1; [eapply compat_num; eauto; rewrite Xf, Yf; apply orb_true_r|].
  destruct Lx as [->|[[_ A]|[_ A]]]; try congruence. destruct Ly as [->|[[_ A]|[_ A]]]; try congruence.
  eapply compat_exact; eauto.
Qed.
Lemma assign_like c d : assignable exact c d = true -> mixed (Some c) (Some d) = false -> like c d.
Proof.
  destruct c, d; cbn; intros A M; try discriminate.
  - right; left; auto.
  - right; right; auto.
  - apply exact_eq in A. subst. left; auto.
  - apply beq_bytes_true in A. subst. left; auto.
Qed.
Lemma branch_like c d e : branches exact c d = Some e -> mixed (Some c) (Some d) = false -> like c d /\ like c e.
Proof.
  destruct c, d; cbn; intros A M; try discriminate.
  - injection A as <-. split; right; left; auto.
  - injection A as <-. split; right; right; auto.
  - destruct (exact c d) eqn:X; [|discriminate]. injection A as <-. apply exact_eq in X. subst. split; left; auto.
  - destruct (beq_bytes n n0) eqn:X; [|discriminate]. injection A as <-. apply beq_bytes_true in X. subst. split; left; auto.
  - injection A as <-. split; left; auto.
Qed.
Lemma un_complete o t c d : crel t c -> un o c = Some d -> exists u, unary o (Some t) = (Some u, 0) /\ crel u d.
Proof.
  intros R H. destruct (crel_classes _ _ R) as (Ri & Rf & Rp & Rr & Ru & _ & Rn). unfold unary. destruct o; cbn [un] in H.
  - destruct (scalar c); [|discriminate]. injection H as <-. exists t_bool. split; auto. exists (CInt 7). split; auto. right; left; auto.
  - destruct (arithmetic c) eqn:A; [|discriminate]. injection H as <-. rewrite Rn. exists t. split; auto.
    unfold both. destruct (is_cint c) eqn:I1; [eapply crel_int; eauto|eapply crel_float; eauto; destruct c; try discriminate; auto].
  - destruct c; try discriminate. injection H as <-. rewrite Ru, Rr. apply crel_ptr in R. destruct t; try discriminate R.
    + exists TChar. split; auto. cbn in R. injection R as <-. apply crel_cof. reflexivity.
    + destruct k; discriminate R.
    + destruct (struct_in _ _ R) as (_ & _ & _ & _ & E). discriminate E.
    + exists t. split; auto. destruct (ptr_inv _ _ R) as (x & X & _ & E). injection E as <-. apply crel_cof. auto.
  - destruct c; try discriminate. injection H as <-. rewrite Ri. exists t. split; auto. eapply crel_int; eauto.
Qed.
Lemma arith_complete o ta tb c d e : In o [Add; Sub; Mul; Div; Mod] -> crel ta c -> crel tb d -> bin exact o c d = Some e ->
  exists u, arith o (Some ta) (Some tb) = (Some u, 0) /\ crel u e.
Proof.
  intros O Ra Rb H.
  destruct (crel_classes _ _ Ra) as (Ai & Af & Ap & Ar & Au & Av & An).
  destruct (crel_classes _ _ Rb) as (Bi & Bf & Bp & Br & Bu & Bv & Bn).
  unfold arith. rewrite Ar, Br, Ap, Bp, An, Bn, Ai, Bi, Af, Bf, Au, Bu, Av, Bv. rewrite !orb_false_r. cbn [orb].
  assert (I7 : crel t_isize (CInt 1)) by (exists (CInt 8); split; auto; right; left; auto).
  assert (F2 : crel t_f64 (CFloat 0)) by (exists (CFloat 2); split; auto; right; right; auto).
  assert (KI : is_cint c = true -> crel ta (CInt 1)) by (apply crel_int; auto).
  destruct O as [<-|[<-|[<-|[<-|[<-|[]]]]]]; destruct c, d; cbn in H; try discriminate H;
    try (match type of H with (if ?b then _ else _) = _ => destruct b; [|discriminate H] end); injection H as <-; cbn; eauto 10.
Qed.
Lemma bit_complete ta tb c d : crel ta c -> crel tb d -> is_cint c && is_cint d = true ->
  exists u, bitwise (Some ta) (Some tb) = (Some u, 0) /\ crel u (CInt 1).
Proof.
  intros Ra Rb H. apply andb_prop in H. destruct H as [P Q].
  destruct (crel_classes _ _ Ra) as (Ai & _ & _ & _ & _ & Av & _). destruct (crel_classes _ _ Rb) as (Bi & _ & _ & _ & _ & Bv & _).
  unfold bitwise. rewrite Ai, Bi, Av, Bv, P, Q. cbn. exists ta. split; auto. eapply crel_int; eauto.
Qed.
Lemma cmp_complete ta tb c d e : crel ta c -> crel tb d -> bin exact Cmp c d = Some e ->
  compare (Some ta) (Some tb) = (Some t_bool, 0) /\ e = CInt 1.
Proof.
  intros Ra Rb H.
  destruct (crel_classes _ _ Ra) as (Ai & Af & Ap & Ar & Au & Av & An).
  destruct (crel_classes _ _ Rb) as (Bi & Bf & Bp & Br & Bu & Bv & Bn).
  unfold compare. rewrite Au, Bu, An, Bn. rewrite !orb_false_r. cbn [bin] in H.
  destruct (arithmetic c && arithmetic d) eqn:P.
  - rewrite orb_true_r. destruct c, d; try discriminate P; injection H as <-; auto.
  - destruct c, d; try discriminate H. destruct (exact c d) eqn:X; [|discriminate H]. apply exact_eq in X. subst. injection H as <-.
    rewrite (type_eq_exact ta tb (CPtr d)) by (apply crel_ptr; auto). auto.
Qed.

Section Complete.
Variables (g : env) (h : cenv).
Hypothesis Sc : scope crel g h.
Lemma complete :
  (forall e, clean h e -> forall c, wt exact h e = Some c -> exists t, check g e = (Some t, 0) /\ crel t c)
  /\ (forall l ps cps, Forall2 value_type ps cps -> clean_args h cps l -> wt_args exact h cps l = true -> check_args g ps l = 0).
Proof.
  destruct Sc as (Vs & Fs & _). apply exp_args_ind.
  - intros l _ c H. destruct l; injection H as <-; eexists; (split; [reflexivity|]).
    + exists (CInt 1). split; auto. left; auto.
    + exists (CFloat 2). split; auto. right; right; auto.
    + apply crel_cof. reflexivity.
    + exists (CInt 0). split; auto. right; left; auto.
  - intros x _ c H. cbn [wt check] in *. specialize (Vs x). rewrite H in Vs. destruct (vars g x); [|contradiction]. destruct Vs. eauto.
  - intros t C c H. cbn [clean] in C. destruct C as (u & c' & -> & D & _). cbn in H. exists u. split; auto using crel_cof.
  - intros o e IH C d H. cbn [clean wt check] in *. destruct (wt exact h e) as [c|]; [|discriminate].
    destruct (IH C _ eq_refl) as (t & -> & R). destruct (un_complete _ _ _ _ R H) as (u & -> & U). eauto.
  - intros o a IHa b IHb C e H. cbn [clean wt check] in *. destruct C as (Ca & Cb & C).
    destruct (wt exact h a) as [c|]; [|discriminate]. destruct (wt exact h b) as [d|]; [|discriminate].
    destruct (IHa Ca _ eq_refl) as (ta & -> & Ra). destruct (IHb Cb _ eq_refl) as (tb & -> & Rb).
    cut (exists t, binary o (Some ta) (Some tb) b = (Some t, 0) /\ crel t e).
    { intros (t & -> & R). eauto. }
    assert (B7 : crel t_bool (CInt 1)) by (exists (CInt 7); split; auto; right; left; auto).
    destruct o; cbn [binary].
    + apply (arith_complete Add ta tb c d); cbn; auto.
    + apply (arith_complete Sub ta tb c d); cbn; auto.
    + apply (arith_complete Mul ta tb c d); cbn; auto.
    + destruct (arith_complete Div ta tb c d e) as (u & -> & R); cbn; auto. 
      assert (zero_lit b = false) as ->; [|eauto].
      destruct b as [[n|z| |]| | | | | | | |]; auto. cbn. destruct (Z.eqb_spec n 0); auto. contradiction.
    + destruct (arith_complete Mod ta tb c d e) as (u & -> & R); cbn; auto 10. 
      assert (zero_lit b = false) as ->; [|eauto].
      destruct b as [[n|z| |]| | | | | | | |]; auto. cbn. destruct (Z.eqb_spec n 0); auto. contradiction.
    + destruct (cmp_complete _ _ _ _ _ Ra Rb H) as (-> & ->). eauto.
    + cbn [bin] in H. destruct (scalar c && scalar d); [|discriminate]. injection H as <-. eauto.
    + cbn [bin] in H. destruct (is_cint c && is_cint d) eqn:I1; [|discriminate]. injection H as <-. eapply bit_complete; eauto.
    + cbn [bin] in H. destruct (is_cint c && is_cint d) eqn:I1; [|discriminate]. injection H as <-.
      destruct (bit_complete _ _ _ _ Ra Rb I1) as (u & -> & R).
      assert (wide_shift (Some ta) b = false) as ->; [|eauto].
      destruct b as [[n|z| |]| | | | | | | |]; auto. cbn. destruct (Z.leb_spec 64 n); [lia|]. destruct (Z.leb_spec 32 n); [lia|]. auto.
    + discriminate H.
  - intros a IHa b IHb C e H. cbn [clean wt check] in *. destruct C as (Ca & Cb & C).
    destruct (wt exact h a) as [c|]; [|discriminate]. destruct (wt exact h b) as [d|]; [|discriminate].
    destruct (IHa Ca _ eq_refl) as (ta & -> & Ra). destruct (IHb Cb _ eq_refl) as (tb & -> & Rb).
    destruct (lvalue a); [|discriminate]. destruct (assignable exact c d) eqn:A; [|discriminate]. injection H as <-.
    cbn [place]. rewrite (compat_like g ta tb c d) by (auto using assign_like). eauto.
  - intros f l IH C c H. rewrite clean_call in C. rewrite wt_call in H. rewrite check_call. specialize (Fs f).
    destruct (funs g f) as [s|], (cfuns h f) as [s'|]; try contradiction; [|discriminate H].
    destruct Fs as (F1 & F2 & F3 & F4). rewrite <- F2, <- F3 in H. pose proof (Forall2_len _ _ _ F1) as Len. rewrite <- Len in H.
    destruct (Nat.leb_spec (required s) (arg_count l)); [|discriminate]. destruct (wt_args exact h (cparams s') l) eqn:W; [|rewrite andb_false_r in H; discriminate].
    rewrite (IH _ _ F1 C W). exists (ret s).
    destruct (Nat.leb_spec (arg_count l) (length (params s))); destruct (varargs s); cbn in H; try discriminate H; injection H as <-;
      repeat match goal with |- context [?x <? ?y] => destruct (Nat.ltb_spec x y); try lia end; cbn; auto using crel_cof.
  - intros a IHa i IHi C e H. cbn [clean wt check] in *. destruct C as (Ca & Ci).
    destruct (wt exact h a) as [[| |x| |]|]; try discriminate. destruct (wt exact h i) as [[]|]; try discriminate. injection H as <-.
    destruct (IHa Ca _ eq_refl) as (ta & -> & Ra). destruct (IHi Ci _ eq_refl) as (ti & -> & Ri).
    destruct (crel_classes _ _ Ri) as (-> & _). cbn. apply crel_ptr in Ra. destruct ta; try discriminate Ra.
    + exists t_int. split; auto. cbn in Ra. injection Ra as <-. exists (CInt 2). split; auto. right; left; auto.
    + destruct k0; discriminate Ra.
    + destruct (struct_in _ _ Ra) as (_ & _ & _ & _ & E). discriminate E.
    + exists ta. split; auto. destruct (ptr_inv _ _ Ra) as (y & Y & _ & E). injection E as <-. apply crel_cof. auto.
  - intros c IHc a IHa b IHb C e H. cbn [clean wt check] in *. destruct C as (Cc & Ca & Cb & M & Fc).
    destruct (wt exact h c) as [x|]; [|discriminate]. destruct (wt exact h a) as [y|]; [|discriminate].
    destruct (wt exact h b) as [z|]; [|discriminate].
    destruct (IHc Cc _ eq_refl) as (tc & -> & Rc). destruct (IHa Ca _ eq_refl) as (ta & -> & Ra). destruct (IHb Cb _ eq_refl) as (tb & -> & Rb).
    destruct (scalar x) eqn:Sx; [|discriminate]. destruct (branch_like _ _ _ H M) as [L Le].
    rewrite (compat_like g ta tb y z) by auto.
    assert (is_integer tc || match tc with TPointer _ => true | _ => false end = true) as ->.
    { destruct (crel_classes _ _ Rc) as (-> & _ & Cp & _). destruct (Fc _ eq_refl) as [Fx Nx]. destruct x; try discriminate; auto.
      apply crel_ptr in Rc. destruct tc; try discriminate Cp; auto. cbn in Rc. congruence. }
    exists ta. split; auto. destruct Ra as (p & P & Lp). exists p. split; auto.
    destruct Lp as [->|[[A B]|[A B]]]; auto; destruct Le as [<-|[[A' B']|[A' B']]]; unfold like; auto;
      destruct p, y, e; try discriminate; cbn; auto.
  - reflexivity.
  - intros e IHe l IHl ps cps F C H. rewrite clean_args_cons in C. rewrite wt_args_cons in H. rewrite check_args_cons.
    destruct C as (Ce & M & Cl). destruct (wt exact h e) as [d|]; [|discriminate].
    destruct (IHe Ce _ eq_refl) as (t & -> & R). apply andb_prop in H. destruct H as [H1 H2].
    destruct F as [|p q ps cps V F]; cbn [hd_error tl place] in *.
    + rewrite (IHl [] []); auto.
    + rewrite (compat_like g p t q d); [|apply crel_cof; apply V|auto|apply assign_like; auto]. rewrite (IHl ps cps); auto.
Qed.
End Complete.

Lemma cond_complete g h e : scope crel g h -> clean_cond h e -> cond_ok exact h e = true -> cond g e = 0.
Proof.
  intros Sc [C F] H. unfold cond_ok in H. destruct (wt exact h e) as [c|] eqn:W; [|discriminate].
  destruct (proj1 (complete g h Sc) e C _ W) as (t & E & R). unfold cond. rewrite E.
  destruct (crel_classes _ _ R) as (Ri & _ & Rp & Rr & _). rewrite Rr, Ri, Rp. specialize (F _ eq_refl).
  destruct c; try discriminate; reflexivity.
Qed.
Lemma stmt_complete :
  (forall s g h, scope crel g h -> clean_stmt h s -> forall h', wt_stmt exact h s = Some h' ->
     snd (check_stmt g s) = 0 /\ scope crel (fst (check_stmt g s)) h')
  /\ (forall b g h dead, scope crel g h -> clean_block h b -> wt_block exact h b = true -> (dead = true -> b = BNil) ->
        check_block g dead b = 0).
Proof.
  apply stmt_block_ind.
  - intros e g h Sc C h' H. cbn [check_stmt snd fst wt_stmt clean_stmt] in *. destruct (wt exact h e) as [c|] eqn:W; [|discriminate].
    injection H as <-. destruct (proj1 (complete g h Sc) e C _ W) as (t & -> & R). auto.
  - intros x t e g h Sc C h' H. cbn [check_stmt wt_stmt clean_stmt] in *. destruct C as [Ce Ct].
    destruct (wt exact h e) as [d|] eqn:W; [|discriminate]. destruct (proj1 (complete g h Sc) e Ce _ W) as (te & -> & R).
    destruct t as [t|].
    + destruct (cof t) as [c|] eqn:D; [|discriminate]. cbn [place fst snd].
      assert (A : assignable exact c d = true /\ h' = cdeclare h x c /\ c <> CVoid).
      { destruct c; try discriminate H; destruct (assignable exact _ d); try discriminate H; injection H as <-; splits; auto; discriminate. }
      destruct A as (A & -> & N). rewrite (compat_like g t te c d) by (auto using crel_cof, assign_like).
      split; auto. apply declare_scope; auto using crel_cof.
    + cbn [place fst snd]. assert (A : h' = cdeclare h x d /\ d <> CVoid).
      { destruct d; try discriminate H; destruct (assignable exact _ _); try discriminate H; injection H as <-; splits; auto; discriminate. }
      destruct A as (-> & N). split; auto. apply declare_scope; auto.
  - intros c a IHa b IHb g h Sc C h' H. rewrite clean_if in C. rewrite wt_if in H. rewrite check_if. cbn [snd fst].
    destruct C as (C1 & C2 & C3). destruct (cond_ok exact h c) eqn:A1; [|discriminate]. destruct (wt_block exact h a) eqn:A2; [|discriminate].
    destruct (wt_block exact h b) eqn:A3; [|discriminate]. injection H as <-. split; auto.
    rewrite (cond_complete g h), (IHa g h), (IHb g h); auto; discriminate.
  - intros c b IHb g h Sc C h' H. rewrite clean_while in C. rewrite wt_while in H. rewrite check_while. cbn [snd fst].
    destruct C as (C1 & C2). destruct (cond_ok exact h c) eqn:A1; [|discriminate]. destruct (wt_block exact h b) eqn:A3; [|discriminate].
    injection H as <-. split; auto. rewrite (cond_complete g h), (IHb g h); auto; discriminate.
  - intros e g h Sc C h' H. cbn [check_stmt snd fst wt_stmt clean_stmt] in *. destruct e as [e|].
    + destruct (wt exact h e) as [d|] eqn:W; [|discriminate]. destruct (proj1 (complete g h Sc) e C _ W) as (te & -> & R).
      destruct (assignable exact (cresult h) d) eqn:A; [|discriminate]. injection H as <-. split; auto.
      destruct Sc as (_ & _ & T). assert (returns g = true) as ->; auto. apply T. intros E. rewrite E in A. destruct d; discriminate.
    + destruct (cresult h) eqn:E; try discriminate. injection H as <-. split; auto.
      destruct Sc as (_ & _ & T). destruct (returns g); auto. exfalso. apply T; auto.
  - intros g h Sc _ h' H. cbn in *. injection H as <-. auto.
  - intros b IHb g h Sc C h' H. rewrite clean_sblock in C. rewrite wt_sblock in H. rewrite check_sblock. cbn [snd fst].
    destruct (wt_block exact h b) eqn:A3; [|discriminate]. injection H as <-. split; auto. apply (IHb g h); auto. discriminate.
  - reflexivity.
  - intros s IHs b IHb g h dead Sc C H D. rewrite clean_cons in C. rewrite wt_cons in H. rewrite check_cons.
    destruct C as (C1 & C2 & C3). destruct (wt_stmt exact h s) as [h'|] eqn:W; [|discriminate].
    destruct (IHs g h Sc C1 _ W) as [N S']. destruct (check_stmt g s) as [g' n]. cbn [snd fst] in *. subst n.
    unfold next' in C2. rewrite W in C2. rewrite (IHb g' h') by auto. destruct dead; [|reflexivity]. discriminate (D eq_refl).
Qed.
Lemma same_scope_lax g h : same_scope g h -> scope rel g h.
Proof.
  intros (V & F & T). split; [|split; auto]. intros x. specialize (V x). destruct (vars g x), (cvars h x); auto.
  destruct V. split; auto using rel_cof.
Qed.
Lemma same_scope_exact g h : same_scope g h -> scope crel g h.
Proof.
  intros (V & F & T). split; [|split; auto]. intros x. specialize (V x). destruct (vars g x), (cvars h x); auto.
  destruct V. split; auto using crel_cof.
Qed.
