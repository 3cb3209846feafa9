From Verif Require Import Common Rx_Model Rx_Spec.
Local Open Scope Z_scope.

(** ** Blanks *)
Definition sq (p : bytes) : bytes := filter (fun c => negb (space c)) p.
Lemma sq_skip p : sq (skip_sp p) = sq p.
Proof. induction p as [|x p IH]; auto. cbn [skip_sp sq filter]. destruct (space x) eqn:E; cbn [negb]; auto. unfold sq. cbn [filter]. now rewrite E. Qed.
Lemma skip_nil p : skip_sp p = [] -> sq p = [].
Proof. intros E. now rewrite <- sq_skip, E. Qed.
Lemma skip_cons p x r : skip_sp p = x :: r -> space x = false /\ sq p = x :: sq r.
Proof.
  intros E. assert (H : space x = false).
  { revert E. induction p as [|y p IH]; [discriminate|]. cbn [skip_sp]. destruct (space y) eqn:S0; auto. intros E. injection E as <- <-. auto. }
  split; auto. rewrite <- sq_skip, E. unfold sq. cbn [filter]. now rewrite H.
Qed.
Lemma skip_sq p : skip_sp (sq p) = sq p.
Proof.
  induction p as [|x p IH]; auto. unfold sq in *. cbn [filter]. destruct (space x) eqn:E; cbn [negb]; auto.
  cbn [skip_sp]. now rewrite E.
Qed.
Lemma sq_cons x r : space x = false -> sq (x :: r) = x :: sq r.
Proof. intros E. unfold sq. cbn [filter]. now rewrite E. Qed.
Lemma sq_cons_sp x r : space x = true -> sq (x :: r) = sq r.
Proof. intros E. unfold sq. cbn [filter]. now rewrite E. Qed.
Lemma sq_len p : (length (sq p) <= length p)%nat.
Proof. unfold sq. induction p as [|x p IH]; cbn [filter]; [auto|]. destruct (negb (space x)); cbn [length]; lia. Qed.
Lemma skip_len p : (length (skip_sp p) <= length p)%nat.
Proof. induction p as [|x p IH]; cbn [skip_sp]; auto. destruct (space x); cbn [length]; lia. Qed.
Lemma sq_idem p : sq (sq p) = sq p.
Proof. rewrite <- (sq_skip p). induction p as [|x p IH]; auto. cbn [skip_sp]. destruct (space x) eqn:E; auto. rewrite sq_cons by auto.
  rewrite sq_cons by auto. rewrite <- (sq_skip p). now rewrite IH. Qed.

Lemma scan_sq p : match scan_class p with
  | Some (a, b) => scan_class (sq p) = Some (sq a, sq b) /\ (length a + S (length b) = length p)%nat
  | None => scan_class (sq p) = None end.
Proof.
  induction p as [|x p IH]; [reflexivity|]. cbn [scan_class]. destruct (N.eqb_spec x 93) as [->|NE].
  - rewrite sq_cons by reflexivity. cbn [scan_class]. now rewrite N.eqb_refl.
  - destruct (scan_class p) as [[a b]|].
    + destruct IH as [IH L]. split; [|cbn [length]; lia]. destruct (space x) eqn:E.
      * rewrite !sq_cons_sp by auto. auto.
      * rewrite !sq_cons by auto. cbn [scan_class]. apply N.eqb_neq in NE. now rewrite NE, IH.
    + destruct (space x) eqn:E; [rewrite sq_cons_sp by auto; auto|]. rewrite sq_cons by auto. cbn [scan_class]. apply N.eqb_neq in NE. now rewrite NE, IH.
Qed.

Lemma dash_cases (l : bytes) {A} (f : bytes -> A) g :
  (exists r, l = 45%N :: r /\ match l with 45%N :: r => f r | _ => g end = f r) \/
  ((forall r, l <> 45%N :: r) /\ match l with 45%N :: r => f r | _ => g end = g).
Proof.
  destruct l as [|x l]; [right; split; [discriminate|reflexivity]|].
  destruct (N.eq_dec x 45) as [->|NE]; [left; eauto|]. right. split; [congruence|].
  destruct x as [|q]; auto. repeat (destruct q as [q|q|]; auto). congruence.
Qed.
Lemma tests_sq n : forall m p, (length p <= n)%nat -> (length (sq p) <= m)%nat -> tests n p = tests m (sq p).
Proof.
  induction n as [|n IH]; intros m p L L2.
  - destruct p; [|cbn in L; lia]. destruct m; reflexivity.
  - destruct p as [|x r]; [destruct m; reflexivity|]. cbn [length] in L.
    destruct (space x) eqn:E; [rewrite sq_cons_sp in * by auto; cbn [tests]; rewrite E; apply IH; lia|].
    rewrite sq_cons in * by auto. cbn [length] in L2. destruct m as [|m]; [lia|].
    assert (IHr : tests n r = tests m (sq r)) by (apply IH; lia).
    cbn [tests]. rewrite E. rewrite skip_sq. pose proof (skip_len r) as SL.
    destruct (skip_sp r) as [|y r2] eqn:Sr.
    + rewrite (skip_nil _ Sr) in *. now rewrite IHr.
    + destruct (skip_cons _ _ _ Sr) as [_ Q]. rewrite Q in *. cbn [length] in SL, L2.
      destruct (N.eq_dec y 45) as [->|NE].
      * rewrite skip_sq. pose proof (skip_len r2) as SL2. destruct (skip_sp r2) as [|e r3] eqn:Sr2.
        -- rewrite (skip_nil _ Sr2) in *. now rewrite IHr.
        -- destruct (skip_cons _ _ _ Sr2) as [_ Q2]. rewrite Q2 in *. cbn [length] in *. f_equal. apply IH; lia.
      * destruct (dash_cases (y :: r2) (fun r2 => match skip_sp r2 with e :: r3 => TRange x e :: tests n r3 | [] => TChar x :: tests n r end) (TChar x :: tests n r)) as [(r' & F & _)|[_ ->]]; [congruence|].
        destruct (dash_cases (y :: sq r2) (fun z => match skip_sp z with e :: r3 => TRange x e :: tests m r3 | [] => TChar x :: tests m (y :: sq r2) end) (TChar x :: tests m (y :: sq r2))) as [(r' & F & _)|[_ ->]]; [congruence|].
        now rewrite IHr.
Qed.

Definition class_body' (l : bytes) : bool * bytes :=
  match l with x :: r => if (x =? 94)%N then (true, skip_sp r) else (false, l) | [] => (false, []) end.
Lemma class_body_eq l : class_body l = class_body' (skip_sp l).
Proof.
  unfold class_body, class_body'. destruct (skip_sp l) as [|x r]; auto.
  destruct (N.eqb_spec x 94) as [->|NE]; auto. destruct x as [|q]; auto. repeat (destruct q as [q|q|]; auto). congruence.
Qed.
Lemma class_body_sq l : class_body (sq l) = (fst (class_body l), sq (snd (class_body l))).
Proof.
  rewrite !class_body_eq. unfold class_body'. rewrite skip_sq. destruct (skip_sp l) as [|x r] eqn:E.
  - now rewrite (skip_nil _ E).
  - destruct (skip_cons _ _ _ E) as [Sx ->]. destruct (x =? 94)%N; cbn [fst snd].
    + now rewrite skip_sq, sq_skip.
    + now rewrite sq_cons.
Qed.
Lemma class_body_len l : (length (snd (class_body l)) <= length l)%nat.
Proof.
  rewrite class_body_eq. unfold class_body'. pose proof (skip_len l). destruct (skip_sp l) as [|x r]; auto.
  destruct (x =? 94)%N; cbn [snd]; auto. pose proof (skip_len r). cbn [length] in *. lia.
Qed.
Definition quantifier' (l : bytes) : option quant :=
  match l with x :: _ => if (x =? 43)%N then Some Plus else if (x =? 42)%N then Some Star else None | [] => None end.
Lemma quantifier_eq l : quantifier l = quantifier' (skip_sp l).
Proof.
  unfold quantifier, quantifier'. destruct (skip_sp l) as [|x r]; auto.
  destruct (N.eqb_spec x 43) as [->|NE]; auto. destruct (N.eqb_spec x 42) as [->|NE2]; auto.
  destruct x as [|q]; auto. repeat (destruct q as [q|q|]; auto); congruence.
Qed.
Definition after_q (after : bytes) : bytes := match quantifier after with Some _ => tl (skip_sp after) | None => after end.
Lemma after_q_sq l : quantifier (sq l) = quantifier l /\ after_q (sq l) = sq (after_q l) /\ (length (after_q l) <= length l)%nat.
Proof.
  unfold after_q. rewrite !quantifier_eq. unfold quantifier'. rewrite skip_sq. pose proof (skip_len l) as SL. destruct (skip_sp l) as [|x r] eqn:E.
  - rewrite (skip_nil _ E). auto.
  - destruct (skip_cons _ _ _ E) as [_ ->]. cbn [length] in SL.
    assert (Q : sq l = x :: sq r) by (destruct (skip_cons _ _ _ E) as [_ Q]; exact Q).
    destruct (x =? 43)%N; [cbn [tl]; splits; auto; lia|]. destruct (x =? 42)%N; [cbn [tl]; splits; auto; lia|]. splits; auto.
Qed.

Definition class_stmt (inside after : bytes) : rstmt :=
  RClass (quantifier after) (fst (class_body inside)) (tests (length (snd (class_body inside))) (snd (class_body inside))).
Lemma emit_eq n x r : emit (S n) (x :: r) =
  if space x then emit n r else if (x =? 94)%N then emit n r else if (x =? 36)%N then REnd :: emit n r
  else if (x =? 91)%N then
    match scan_class r with None => [] | Some (inside, after) => class_stmt inside after :: emit n (after_q after) end
  else if (x =? 46)%N then RAny :: emit n r else RLit x :: emit n r.
Proof.
  cbn [emit]. destruct (space x); auto. destruct (x =? 94)%N; auto. destruct (x =? 36)%N; auto. destruct (x =? 91)%N; auto.
  destruct (scan_class r) as [[i a]|]; auto. unfold class_stmt, after_q. destruct (class_body i); reflexivity.
Qed.
Lemma emit_dot n r : emit (S n) (46%N :: r) = RAny :: emit n r. Proof. now rewrite emit_eq. Qed.
Lemma emit_hat n r : emit (S n) (94%N :: r) = emit n r. Proof. now rewrite emit_eq. Qed.
Lemma class_stmt_sq i a : class_stmt (sq i) (sq a) = class_stmt i a.
Proof.
  unfold class_stmt. rewrite class_body_sq. cbn [fst snd]. destruct (after_q_sq a) as [-> _].
  f_equal. symmetry. apply tests_sq; auto.
Qed.
Lemma emit_sq n : forall m p, (length p <= n)%nat -> (length (sq p) <= m)%nat -> emit n p = emit m (sq p).
Proof.
  induction n as [|n IH]; intros m p L L2.
  - destruct p; [|cbn in L; lia]. destruct m; reflexivity.
  - destruct p as [|x r]; [destruct m; reflexivity|]. cbn [length] in L. rewrite emit_eq.
    destruct (space x) eqn:E; [rewrite sq_cons_sp in * by auto; apply IH; lia|].
    rewrite sq_cons in * by auto. cbn [length] in L2. destruct m as [|m]; [lia|]. rewrite emit_eq, E.
    assert (IHr : emit n r = emit m (sq r)) by (apply IH; lia).
    destruct (x =? 94)%N; auto. destruct (x =? 36)%N; [now rewrite IHr|]. destruct (x =? 91)%N; [|destruct (x =? 46)%N; now rewrite IHr].
    pose proof (scan_sq r) as K. destruct (scan_class r) as [[i a]|].
    + destruct K as [K KL]. rewrite K, class_stmt_sq. f_equal. destruct (after_q_sq a) as (_ & Q & QL). rewrite Q. apply IH; [lia|].
      pose proof (scan_sq (sq r)) as K2. rewrite K in K2. destruct K2 as [_ K2].
      destruct (after_q_sq (sq a)) as (_ & _ & QL2). rewrite Q in QL2. lia.
    + now rewrite K.
Qed.
Lemma sq_rev p : sq (rev p) = rev (sq p).
Proof.
  unfold sq. induction p as [|x p IH]; auto. cbn [rev]. rewrite filter_app, IH. cbn [filter]. destruct (negb (space x)); cbn [rev]; auto.
  now rewrite app_nil_r.
Qed.
Lemma sq_trim p : sq (trim p) = sq p.
Proof. unfold trim. now rewrite sq_rev, sq_skip, sq_rev, sq_skip, rev_involutive. Qed.
Lemma transpile_sq b n : (length (sq b) <= n)%nat -> regex_transpile b = emit n (sq b).
Proof. intros L. unfold regex_transpile. rewrite <- sq_trim. apply emit_sq; auto. now rewrite sq_trim. Qed.

(** ** The statements of a written pattern *)
Definition conv_elem (e : elem) : test := match e with Ch c => TChar c | Rg a b => TRange a b end.
Definition conv_set (q : option quant) (s : set) : rstmt := RClass q (excluded s) (map conv_elem (elems s)).
Definition conv (i : item) : rstmt :=
  match i with Lit c => RLit c | Any => RAny | One s => conv_set None s | Many s => conv_set (Some Star) s | Some' s => conv_set (Some Plus) s end.

Lemma plain_sp c : ~ blank c -> space c = false.
Proof. unfold blank, space. intros H. destruct (N.leb_spec 9 c), (N.leb_spec c 13), (N.eqb_spec c 32); cbn; auto; exfalso; apply H; lia. Qed.
Lemma tests_show es : Forall ok_elem es -> forall n, (length (flat_map show_elem es) <= n)%nat ->
  tests n (flat_map show_elem es) = map conv_elem es.
Proof.
  induction 1 as [|e es E F IH]; intros n L; [destruct n; reflexivity|].
  cbn [flat_map map] in *. rewrite app_length in L. destruct e as [c|a b]; cbn [show_elem length conv_elem app] in *.
  - destruct E as (_ & B & K). destruct n as [|n]; [lia|]. cbn [tests]. rewrite (plain_sp _ B).
    assert (NX : forall r, skip_sp (flat_map show_elem es) <> 45%N :: r).
    { destruct F as [|e' es' E' F']; [discriminate|]. intros r.
      assert (P : exists x q, flat_map show_elem (e' :: es') = x :: q /\ plain_in_set x).
      { destruct e' as [c'|a' b']; cbn [flat_map show_elem app]; eexists _, _; (split; [reflexivity|]); cbn in E'; tauto. }
      destruct P as (x & q & -> & (_ & Bx & Kx)). cbn [skip_sp]. rewrite (plain_sp _ Bx). intros Z0. injection Z0 as -> ->. apply Kx. vm_compute. tauto. }
    destruct (dash_cases (skip_sp (flat_map show_elem es)) (fun r2 => match skip_sp r2 with e :: r3 => TRange c e :: tests n r3 | [] => TChar c :: tests n (flat_map show_elem es) end) (TChar c :: tests n (flat_map show_elem es))) as [(r & Q & _)|[_ ->]].
    + now apply NX in Q.
    + rewrite IH by lia. reflexivity.
  - destruct E as ((_ & Ba & _) & (_ & Bb & _)). destruct n as [|n]; [lia|]. cbn [tests]. rewrite (plain_sp _ Ba).
    cbn [skip_sp]. change (space 45) with false. cbv iota. cbn [skip_sp]. rewrite (plain_sp _ Bb). rewrite IH by lia. reflexivity.
Qed.
Lemma scan_show a r : ~ In 93%N a -> scan_class (a ++ 93%N :: r) = Some (a, r).
Proof.
  induction a as [|x a IH]; intros H; cbn [app scan_class]; [now rewrite N.eqb_refl|].
  destruct (N.eqb_spec x 93); [subst; exfalso; apply H; now left|]. rewrite IH by (intros Q; apply H; now right). reflexivity.
Qed.
Lemma elems_no_close es : Forall ok_elem es -> ~ In 93%N (flat_map show_elem es).
Proof.
  induction 1 as [|e es E F IH]; [intros []|]. cbn [flat_map]. intros Q. apply in_app_or in Q. destruct Q as [Q|Q]; auto.
  assert (P : forall c, plain_in_set c -> c <> 93%N) by (intros c (_ & _ & K) ->; apply K; vm_compute; tauto).
  destruct e as [c|a b]; cbn in E, Q.
  - destruct Q as [Q|[]]. now apply (P c).
  - destruct E as [E1 E2]. destruct Q as [Q|[Q|[Q|[]]]]; [now apply (P a)|discriminate|now apply (P b)].
Qed.
Definition set_text (s : set) : bytes := (if excluded s then bs "^" else []) ++ flat_map show_elem (elems s).
Lemma set_stmt s after : Forall ok_elem (elems s) ->
  class_stmt (set_text s) after = RClass (quantifier after) (excluded s) (map conv_elem (elems s)).
Proof.
  intros F. assert (K : class_body (set_text s) = (excluded s, flat_map show_elem (elems s))).
  { rewrite class_body_eq. unfold set_text. destruct s as [ex es]; cbn [excluded elems] in *.
    assert (SK : skip_sp (flat_map show_elem es) = flat_map show_elem es /\ forall r, flat_map show_elem es <> 94%N :: r).
    { destruct F as [|e es E F]; [split; [reflexivity|discriminate]|].
      assert (P : exists x q, flat_map show_elem (e :: es) = x :: q /\ plain_in_set x).
      { destruct e as [c'|a' b']; cbn [flat_map show_elem app]; eexists _, _; (split; [reflexivity|]); cbn in E; tauto. }
      destruct P as (x & q & -> & (_ & Bx & Kx)). cbn [skip_sp]. rewrite (plain_sp _ Bx). split; auto.
      intros r Q. injection Q as -> ->. apply Kx. vm_compute. tauto. }
    destruct SK as [SK NC]. destruct ex; cbn [app].
    - change (bs "^" ++ flat_map show_elem es) with (94%N :: flat_map show_elem es). cbn [skip_sp]. change (space 94) with false. cbv iota.
      unfold class_body'. rewrite N.eqb_refl. now rewrite SK.
    - rewrite SK. unfold class_body'. destruct (flat_map show_elem es) as [|x r] eqn:E; auto.
      destruct (N.eqb_spec x 94); [subst; exfalso; now apply (NC r)|reflexivity]. }
  unfold class_stmt. rewrite K. cbn [fst snd]. rewrite tests_show; auto.
Qed.
Lemma emit_set s q r n : Forall ok_elem (elems s) ->
  emit (S n) (show_set s ++ q ++ r) = RClass (quantifier (q ++ r)) (excluded s) (map conv_elem (elems s)) :: emit n (after_q (q ++ r)).
Proof.
  intros F. assert (E : show_set s ++ q ++ r = 91%N :: set_text s ++ 93%N :: q ++ r).
  { unfold show_set, set_text. change (bs "[") with [91%N]. change (bs "]") with [93%N].
    rewrite <- !app_assoc. reflexivity. }
  rewrite E, emit_eq. change (space 91) with false. change (91 =? 94)%N with false. change (91 =? 36)%N with false. rewrite N.eqb_refl. cbv iota.
  rewrite scan_show.
  - now rewrite set_stmt.
  - unfold set_text. intros Q. apply in_app_or in Q. destruct Q as [Q|Q]; [|now apply elems_no_close in Q].
    destruct (excluded s); vm_compute in Q; intuition discriminate.
Qed.

(** What follows is no quantifier *)
Definition starts_plain (r : bytes) : Prop := skip_sp r = r /\ quantifier' r = None.
Lemma next_plain l (e : bool) : Forall ok_item l -> starts_plain (flat_map show_item l ++ (if e then bs "$" else [])).
Proof.
  destruct 1 as [|i l I F].
  - destruct e; split; reflexivity.
  - assert (P : exists x q, flat_map show_item (i :: l) = x :: q /\ space x = false /\ x <> 43%N /\ x <> 42%N).
    { destruct i as [c| |s|s|s]; cbn [flat_map show_item]; eexists _, _; (split; [reflexivity|]); try (splits; [reflexivity|discriminate|discriminate]).
      destruct I as (_ & B & K). splits; [now apply plain_sp| |]; intros ->; apply K; vm_compute; tauto. }
    destruct P as (x & q & -> & Sx & N1 & N2). cbn [app]. split.
    + cbn [skip_sp]. now rewrite Sx.
    + unfold quantifier'. apply N.eqb_neq in N1, N2. now rewrite N1, N2.
Qed.
Lemma emit_items l : forall (e : bool) n, Forall ok_item l -> (length (flat_map show_item l ++ (if e then bs "$" else [])) <= n)%nat ->
  emit n (flat_map show_item l ++ (if e then bs "$" else [])) = map conv l ++ (if e then [REnd] else []).
Proof.
  induction l as [|i l IH]; intros e n F L.
  - destruct e; [|destruct n; reflexivity]. destruct n as [|n]; [cbn in L; lia|]. destruct n; reflexivity.
  - inversion_clear F as [|? ? I F']. cbn [flat_map map] in *. rewrite <- app_assoc in *. rewrite app_length in L.
    set (rest := flat_map show_item l ++ (if e then bs "$" else [])) in *.
    assert (SP : starts_plain rest) by (apply next_plain; auto).
    assert (SL : forall s, (2 <= length (show_set s))%nat).
    { intros s. unfold show_set. rewrite !app_length. cbn [length]. change (length (bs "[")) with 1%nat. change (length (bs "]")) with 1%nat. lia. }
    destruct i as [c| |s|s|s]; cbn [show_item conv] in *.
    + destruct I as (_ & B & K). destruct n as [|n]; [cbn in L; lia|]. cbn [app]. rewrite emit_eq, (plain_sp _ B).
      assert (NK : c <> 94%N /\ c <> 36%N /\ c <> 91%N /\ c <> 46%N) by (splits; intros ->; apply K; vm_compute; tauto).
      destruct NK as (N1 & N2 & N3 & N4). apply N.eqb_neq in N1, N2, N3, N4. rewrite N1, N2, N3, N4.
      f_equal. apply IH; auto. cbn [length] in L. unfold rest in L. lia.
    + destruct n as [|n]; [cbn in L; lia|]. change (bs "." ++ rest) with (46%N :: rest). rewrite emit_dot. cbn [app].
      f_equal. apply IH; auto. change (length (bs ".")) with 1%nat in L. unfold rest in L. lia.
    + specialize (SL s). destruct n as [|n]; [lia|]. change (show_set s ++ rest) with (show_set s ++ [] ++ rest). rewrite emit_set by auto. cbn [app].
      destruct SP as [SK SQ]. unfold after_q. rewrite quantifier_eq, SK, SQ. unfold conv_set. f_equal. apply IH; auto. unfold rest in L. lia.
    + specialize (SL s). rewrite app_length in L. destruct n as [|n]; [lia|]. rewrite <- app_assoc. rewrite emit_set by auto.
      change (quantifier (bs "*" ++ rest)) with (Some Star). change (after_q (bs "*" ++ rest)) with rest. unfold conv_set. cbn [app]. f_equal.
      apply IH; auto. unfold rest in L. lia.
    + specialize (SL s). rewrite app_length in L. destruct n as [|n]; [lia|]. rewrite <- app_assoc. rewrite emit_set by auto.
      change (quantifier (bs "+" ++ rest)) with (Some Plus). change (after_q (bs "+" ++ rest)) with rest. unfold conv_set. cbn [app]. f_equal.
      apply IH; auto. unfold rest in L. lia.
Qed.
Definition code (p : pattern) : list rstmt := map conv (items p) ++ (if to_end p then [REnd] else []).
Lemma emit_show src p : Forall ok_item (items p) -> laid_out src (show p) -> regex_transpile src = code p.
Proof.
  intros F L. assert (E : sq src = show p) by exact L. rewrite (transpile_sq src (length (show p))) by now rewrite E. rewrite E.
  unfold show, code. destruct (from_start p); cbn [app].
  - assert (G : forall x, bs "^" ++ x = 94%N :: x) by reflexivity. rewrite !G. cbn [length]. rewrite emit_hat. now apply emit_items.
  - now apply emit_items.
Qed.
Lemma quotable_spec c : ~ In c (bs "'\") -> quotable c = true.
Proof.
  unfold quotable. intros H. destruct (N.eqb_spec c 39), (N.eqb_spec c 92); subst; cbn; auto; exfalso; apply H; vm_compute; tauto.
Qed.
Lemma code_c p : Forall ok_item (items p) -> forallb c_stmt (code p) = true.
Proof.
  intros F. unfold code. rewrite forallb_app. apply andb_true_iff. split; [|destruct (to_end p); reflexivity].
  apply forallb_forall. intros x Q. apply in_map_iff in Q. destruct Q as (i & <- & Q). rewrite Forall_forall in F. specialize (F i Q).
  assert (S0 : forall q s, Forall ok_elem (elems s) -> c_stmt (conv_set q s) = true).
  { intros q s G. cbn. apply forallb_forall. intros t T. apply in_map_iff in T. destruct T as (e & <- & T). rewrite Forall_forall in G. specialize (G e T).
    assert (P : forall c, plain_in_set c -> quotable c = true).
    { intros c (_ & _ & K). apply quotable_spec. intros X. apply K. vm_compute in X |- *. tauto. }
    destruct e; cbn in *; [auto|]. destruct G. now rewrite !P. }
  destruct i as [c| |s|s|s]; cbn [conv]; auto. cbn in F |- *. destruct F as (_ & _ & K). apply quotable_spec. intros X. apply K. vm_compute in X |- *. tauto.
Qed.

(** ** Matching *)
Lemma schar_eq a b : (a < 256)%N -> (b < 256)%N -> (schar a =? schar b) = (a =? b)%N.
Proof.
  unfold schar. intros A B. destruct (N.ltb_spec a 128), (N.ltb_spec b 128), (N.eqb_spec a b), (Z.eqb_spec (if (a <? 128)%N then Z.of_N a else Z.of_N a - 256) 0); subst;
  match goal with |- (?x =? ?y) = _ => destruct (Z.eqb_spec x y); auto; lia end.
Qed.
Lemma schar_le a c : (a < 128)%N -> (c < 256)%N -> schar a <= schar c <-> (a <= c < 128)%N.
Proof. unfold schar. intros A C. destruct (N.ltb_spec a 128), (N.ltb_spec c 128); lia. Qed.
Lemma schar_ge c b : (b < 128)%N -> (c < 128)%N -> schar c <= schar b <-> (c <= b)%N.
Proof. unfold schar. intros A C. destruct (N.ltb_spec b 128), (N.ltb_spec c 128); lia. Qed.
Lemma test_spec e c : ok_elem e -> (c < 256)%N -> test_holds c (conv_elem e) = true <-> in_elem c e.
Proof.
  intros E C. destruct e as [x|a b]; cbn in *.
  - destruct E as [E _]. rewrite schar_eq by lia. apply N.eqb_eq.
  - destruct E as ([E1 _] & [E2 _]). rewrite andb_true_iff, !Z.leb_le, schar_le by lia. split.
    + intros [A B]. rewrite schar_ge in B by lia. lia.
    + intros [A B]. split; [lia|]. rewrite schar_ge by lia. lia.
Qed.
Lemma matched_spec s c : Forall ok_elem (elems s) -> (c < 256)%N -> matched (excluded s) (map conv_elem (elems s)) c = true <-> in_set s c.
Proof.
  intros F C. assert (K : existsb (test_holds c) (map conv_elem (elems s)) = true <-> Exists (in_elem c) (elems s)).
  { induction F as [|e es E F IH]; cbn [map existsb].
    - split; [discriminate|intros X; inversion X].
    - rewrite orb_true_iff, IH, Exists_cons, test_spec by auto. reflexivity. }
  unfold matched, in_set. destruct (excluded s).
  - rewrite negb_true_iff. rewrite <- K. destruct (existsb _ _); split; auto; congruence.
  - exact K.
Qed.
Lemma exec_one q inv l c t : (c =? 0)%N = false -> exec (RClass None inv l :: q) (c :: t) = if matched inv l c then exec q t else Ok false.
Proof. intros E. cbn [exec deref hd adv bind]. now rewrite E. Qed.

(** The longest run of characters of a set *)
Lemma eat_spec s t : Forall ok_elem (elems s) -> c_text t -> forall some,
  exists w r, t = w ++ r /\ Forall (in_set s) w /\ (forall c r', r = c :: r' -> ~ in_set s c) /\
    eat (excluded s) (map conv_elem (elems s)) t some = (some || negb (match w with [] => true | _ => false end), r).
Proof.
  intros F. induction t as [|c t IH]; intros [NZ B] some.
  - exists [], []. splits; auto; [discriminate|]. cbn. now rewrite orb_false_r.
  - inversion_clear B as [|? ? B1 B2]. assert (T : c_text t) by (split; auto; intros X; apply NZ; now right).
    pose proof (matched_spec s c F B1) as M0. cbn [eat]. destruct (matched (excluded s) (map conv_elem (elems s)) c).
    + destruct (IH T true) as (w & r & -> & W & R & E). exists (c :: w), r. splits; auto.
      * constructor; auto. now apply M0.
      * rewrite E. cbn. now rewrite orb_true_r.
    + exists [], (c :: t). splits; auto.
      * intros c' r' Q. injection Q as <- <-. intros X. apply M0 in X. discriminate.
      * cbn. now rewrite orb_false_r.
Qed.
Lemma c_text_app a b : c_text (a ++ b) -> c_text b.
Proof. intros [A B]. split; [intros X; apply A; apply in_or_app; now right|]. apply Forall_app in B. tauto. Qed.
Lemma many_words s w l r : Forall (in_set s) w -> Word l r -> Word (Many s :: l) (w ++ r).
Proof. induction 1; intros W; cbn [app]; [now apply W_stop|]. apply W_more; auto. Qed.

Definition Acc (l : list item) (e : bool) (t : bytes) : Prop := exists w b, t = w ++ b /\ Word l w /\ (e = true -> b = []).
Lemma acc_matches l e t : Matches (rest_of l e) t <-> Acc l e t.
Proof.
  unfold Matches, Acc, rest_of. cbn [items from_start to_end]. split.
  - intros (a & w & b & -> & W & A & B). rewrite (A eq_refl). cbn [app]. eauto 6.
  - intros (w & b & -> & W & B). exists [], w, b. splits; auto.
Qed.
Lemma exec_sound l : forall (e : bool) t, Forall ok_item l -> c_text t ->
  exec (map conv l ++ (if e then [REnd] else [])) t = Ok true -> Acc l e t.
Proof.
  induction l as [|i l IH]; intros e t F T E.
  - destruct e; cbn [map app exec] in E.
    + destruct t as [|c t]; [exists [], []; splits; auto; constructor|]. cbn [deref hd] in E. destruct (N.eqb_spec c 0) as [->|_]; [|discriminate].
      exfalso. destruct T as [T _]. apply T. now left.
    + exists [], t. splits; auto; [constructor|discriminate].
  - inversion_clear F as [|? ? I F']. specialize (IH e). cbn [map app] in E.
    assert (NZ : forall c t', t = c :: t' -> (c =? 0)%N = false /\ c_text t' /\ (c < 256)%N).
    { intros c t' ->. destruct T as [T1 T2]. inversion_clear T2. splits; auto.
      - apply N.eqb_neq. intros ->. apply T1. now left.
      - split; auto. intros X. apply T1. now right. }
    destruct i as [c| |s|s|s]; cbn [conv] in E.
    + cbn [exec] in E. destruct t as [|x t].
      * cbn [deref hd] in E. destruct (0 =? c)%N; discriminate.
      * cbn [deref hd adv bind] in E. destruct (N.eqb_spec x c) as [->|_]; [|discriminate]. destruct (NZ _ _ eq_refl) as (_ & T' & _).
        destruct (IH _ F' T' E) as (w & b & -> & W & B). exists (c :: w), b. splits; auto. now constructor.
    + cbn [exec] in E. destruct t as [|x t]; [discriminate|]. destruct (NZ _ _ eq_refl) as (Z0 & T' & _). cbn [deref hd adv bind] in E. rewrite Z0 in E.
      destruct (IH _ F' T' E) as (w & b & -> & W & B). exists (x :: w), b. splits; auto. now constructor.
    + destruct t as [|x t]; [discriminate|]. destruct (NZ _ _ eq_refl) as (Z0 & T' & B0). unfold conv_set in E. rewrite exec_one in E by auto.
      pose proof (matched_spec s x I B0) as M0. destruct (matched _ _ x); [|discriminate].
      destruct (IH _ F' T' E) as (w & b & -> & W & B). exists (x :: w), b. splits; auto. constructor; auto. now apply M0.
    + unfold conv_set in E. cbn [exec] in E. destruct (eat_spec s t I T false) as (w & r & -> & W & R & Q). rewrite Q in E.
      destruct (IH _ F' (c_text_app _ _ T) E) as (w' & b & -> & W' & B). exists (w ++ w'), b. rewrite app_assoc. splits; auto. now apply many_words.
    + unfold conv_set in E. cbn [exec] in E. destruct (eat_spec s t I T false) as (w & r & -> & W & R & Q). rewrite Q in E.
      destruct w as [|c w]; [discriminate|]. cbn [orb negb] in E. inversion_clear W.
      destruct (IH _ F' (c_text_app _ _ T) E) as (w' & b & -> & W' & B). exists (c :: w ++ w'), b. split; [now rewrite app_comm_cons, app_assoc|]. split; auto.
      constructor; auto. now apply many_words.
Qed.
Lemma many_inv s l w : Word (Many s :: l) w -> exists a r, w = a ++ r /\ Forall (in_set s) a /\ Word l r.
Proof.
  intros H. remember (Many s :: l) as il eqn:E. revert E. induction H; intros E; try discriminate; injection E as -> ->.
  - exists [], w. auto.
  - destruct (IHWord eq_refl) as (a & r & -> & A & R). exists (c :: a), r. splits; auto.
Qed.
(** Of two splits with the first part in the set, the first part of the longest ends last. *)
Lemma longest s (w : bytes) : forall r a q, w ++ r = a ++ q -> Forall (in_set s) a -> (forall c r', r = c :: r' -> ~ in_set s c) ->
  exists a', w = a ++ a' /\ q = a' ++ r.
Proof.
  induction w as [|x w IH]; intros r a q E A R.
  - destruct a as [|y a]; [exists []; auto|]. cbn in E. exfalso. inversion_clear A. now apply (R y (a ++ q)).
  - destruct a as [|y a]; [exists (x :: w); auto|]. cbn [app] in E. injection E as -> E. inversion_clear A.
    destruct (IH _ _ _ E H0 R) as (a' & -> & ->). exists a'. auto.
Qed.
Lemma acc_drop l e s : (forall c t, in_set s c -> Acc l e (c :: t) -> Acc l e t) ->
  forall a t, Forall (in_set s) a -> Acc l e (a ++ t) -> Acc l e t.
Proof. intros G. induction a as [|c a IH]; intros t A X; auto. inversion_clear A. apply IH; auto. now apply (G c). Qed.
Definition Greedy (l : list item) (e : bool) : Prop :=
  forall a s r, (l = a ++ Many s :: r \/ l = a ++ Some' s :: r) -> forall c t, in_set s c -> Acc r e (c :: t) -> Acc r e t.
Lemma exec_complete l : forall (e : bool) t, Forall ok_item l -> c_text t -> Greedy l e -> Acc l e t ->
  exec (map conv l ++ (if e then [REnd] else [])) t = Ok true.
Proof.
  induction l as [|i l IH]; intros e t F T G (w & b & -> & W & B).
  - inversion W; subst. destruct e; cbn [map app exec]; auto. rewrite (B eq_refl). reflexivity.
  - inversion_clear F as [|? ? I F']. specialize (IH e).
    assert (G' : Greedy l e).
    { intros a s r Q. apply (G (i :: a)). destruct Q as [-> | ->]; auto. }
    assert (NZ : forall c t', w ++ b = c :: t' -> (c =? 0)%N = false /\ c_text t' /\ (c < 256)%N).
    { intros c t' Q. rewrite Q in T. destruct T as [T1 T2]. inversion_clear T2. splits; auto.
      - apply N.eqb_neq. intros ->. apply T1. now left.
      - split; auto. intros X. apply T1. now right. }
    cbn [map app]. destruct i as [c| |s|s|s]; cbn [conv].
    + inversion W; subst. cbn [app exec deref hd adv bind]. rewrite N.eqb_refl. destruct (NZ _ _ eq_refl) as (_ & T' & _).
      apply IH; auto. exists w0, b. auto.
    + inversion W; subst. cbn [app exec deref hd adv bind]. destruct (NZ _ _ eq_refl) as (Z0 & T' & _). rewrite Z0. apply IH; auto. exists w0, b. auto.
    + inversion W; subst. destruct (NZ _ _ eq_refl) as (Z0 & T' & B0). cbn [app]. unfold conv_set. rewrite exec_one by auto.
      match goal with X : in_set s c |- _ => apply (matched_spec s c I B0) in X; rewrite X end. apply IH; auto. exists w0, b. auto.
    + apply many_inv in W. destruct W as (a & q & -> & A & Wq). unfold conv_set. cbn [exec].
      destruct (eat_spec s _ I T false) as (u & r & Q & U & R & E). rewrite E. rewrite Q in T. rewrite <- app_assoc in Q. symmetry in Q.
      destruct (longest s u r a (q ++ b) Q A R) as (a' & -> & Q2).
      apply IH; auto; [now apply c_text_app in T|].
      apply (acc_drop l e s) with (a := a').
      * apply (G [] s l). now left.
      * apply Forall_app in U. tauto.
      * rewrite <- Q2. exists q, b. auto.
    + inversion W; subst. rename w0 into w1.
      match goal with X : Word (Many s :: l) _ |- _ => apply many_inv in X; destruct X as (a & q & -> & A & Wq) end.
      unfold conv_set. cbn [exec].
      destruct (eat_spec s _ I T false) as (u & r & Q & U & R & E). rewrite E. rewrite Q in T. symmetry in Q.
      assert (Q1 : u ++ r = (c :: a) ++ q ++ b) by (rewrite Q; cbn [app]; now rewrite <- app_assoc).
      destruct (longest s u r (c :: a) (q ++ b) Q1 (Forall_cons _ H1 A) R) as (a' & -> & Q2). cbn [app orb negb].
      apply IH; auto; [now apply c_text_app in T|].
      apply (acc_drop l e s) with (a := a').
      * apply (G [] s l). now right.
      * apply Forall_app in U. tauto.
      * rewrite <- Q2. exists q, b. auto.
Qed.

(** ** No statement leaves the text *)
Lemma exec_ok p : ~ In (RLit 0) p -> forall t, ~ In 0%N t -> exists b, exec p t = Ok b.
Proof.
  assert (EQ : forall inv l t some, exists a, snd (eat inv l t some) = skipn a t).
  { intros inv l. induction t as [|c t IH]; intros some; [now exists 0%nat|]. cbn [eat]. destruct (matched inv l c).
    - destruct (IH true) as [a ->]. now exists (S a).
    - now exists 0%nat. }
  induction p as [|i p IH]; intros NL t NZ; [eexists; reflexivity|].
  assert (NL' : ~ In (RLit 0) p) by (intros X; apply NL; now right). specialize (IH NL').
  assert (H : forall c r, t = c :: r -> exists b, exec p r = Ok b) by (intros c r ->; apply IH; intros X; apply NZ; now right).
  destruct i as [| |x|[q|] inv l]; cbn [exec].
  - destruct (deref t =? 0)%N; eauto.
  - destruct t as [|c t]; cbn [deref hd adv bind]; [eexists; reflexivity|]. destruct (c =? 0)%N; eauto.
  - destruct t as [|c t]; cbn [deref hd adv bind].
    + destruct (N.eqb_spec 0 x) as [<-|]; [|eauto]. exfalso. apply NL. now left.
    + destruct (c =? x)%N; eauto.
  - specialize (EQ inv l t false). destruct (eat inv l t false) as [some c]. cbn [snd] in EQ. destruct EQ as [a ->].
    assert (NZ' : ~ In 0%N (skipn a t)) by (intros X; apply NZ; rewrite <- (firstn_skipn a t); apply in_or_app; now right).
    destruct q, some; eauto.
  - destruct t as [|c t]; cbn [deref hd adv bind]; [eexists; reflexivity|]. destruct (c =? 0)%N; eauto. destruct (matched _ _ _); eauto.
Qed.

Lemma scan_parts p : forall a b, scan_class p = Some (a, b) -> p = a ++ 93%N :: b.
Proof.
  induction p as [|x p IH]; intros a b E; [discriminate|]. cbn [scan_class] in E. destruct (N.eqb_spec x 93) as [->|_].
  - injection E as <- <-. reflexivity.
  - destruct (scan_class p) as [[a' b']|]; [|discriminate]. injection E as <- <-. now rewrite (IH a' b' eq_refl).
Qed.
Lemma skip_in p x : In x (skip_sp p) -> In x p.
Proof. induction p as [|y p IH]; auto. cbn [skip_sp]. destruct (space y); auto. intros H. right. auto. Qed.
Lemma after_in a x : In x (after_q a) -> In x a.
Proof.
  unfold after_q. destruct (quantifier a); auto. intros H. apply skip_in. destruct (skip_sp a); [contradiction|]. now right.
Qed.
Lemma emit_nz n : forall p, ~ In 0%N p -> ~ In (RLit 0) (emit n p).
Proof.
  induction n as [|n IH]; intros p NZ; [intros []|]. destruct p as [|x r]; [intros []|]. rewrite emit_eq.
  assert (R : ~ In (RLit 0) (emit n r)) by (apply IH; intros X; apply NZ; now right).
  destruct (space x); auto. destruct (x =? 94)%N; auto. destruct (x =? 36)%N; [intros [X|X]; [discriminate|auto]|].
  destruct (x =? 91)%N.
  - destruct (scan_class r) as [[i a]|] eqn:E; [|intros []]. apply scan_parts in E. intros [X|X]; [discriminate|]. revert X. apply IH.
    intros X. apply after_in in X. apply NZ. right. rewrite E. apply in_or_app. right. now right.
  - destruct (x =? 46)%N; intros [X|X]; try discriminate; auto. injection X as ->. apply NZ. now left.
Qed.
Lemma trim_in p x : In x (trim p) -> In x p.
Proof. unfold trim. intros H. apply in_rev in H. apply skip_in in H. apply in_rev in H. now apply skip_in. Qed.
