From Verif Require Import Common Tuple_Model Tuple_Spec.
Open Scope nat_scope.

Lemma join_cons s t u l : join s (t :: u :: l) = t ++ s ++ join s (u :: l).
Proof. reflexivity. Qed.
(** ** Pieces *)
Lemma pieces_cons a b r : pieces (a :: b :: r) = if (a =? 95)%N && (b =? 95)%N then [] :: pieces r else cons_hd a (pieces (b :: r)).
Proof. reflexivity. Qed.
Lemma pieces_not_nil s : pieces s <> [].
Proof.
  destruct s as [|a [|b r]]; try (cbn; discriminate). rewrite pieces_cons. destruct (_ && _); [discriminate|].
  destruct (pieces (b :: r)); cbn; discriminate.
Qed.
Lemma plain_tail a t : plain (a :: t) -> plain t.
Proof. intros P (x & y & E). apply P. exists (a :: x), y. cbn [app]. now rewrite E. Qed.
Lemma plain_pair a b t : plain (a :: b :: t) -> (a =? 95)%N && (b =? 95)%N = false.
Proof.
  intros P. destruct (N.eqb_spec a 95) as [->|]; auto. destruct (N.eqb_spec b 95) as [->|]; auto.
  exfalso. apply P. exists [], (t ++ bs "_"). reflexivity.
Qed.
Lemma plain_last a : plain [a] -> a <> 95%N.
Proof. intros P ->. apply P. exists [], []. reflexivity. Qed.
Lemma pieces_plain t : plain t -> pieces t = [t].
Proof.
  induction t as [|a t IH]; intros P; auto. destruct t as [|b t]; auto.
  rewrite pieces_cons, (plain_pair _ _ _ P), IH by (eapply plain_tail; eauto). reflexivity.
Qed.
Lemma pieces_sep t rest : plain t -> pieces (t ++ sep ++ rest) = t :: pieces rest.
Proof.
  induction t as [|a t IH]; intros P; [reflexivity|].
  destruct t as [|b t].
  - cbn [app]. change (sep ++ rest) with (95%N :: 95%N :: rest). rewrite pieces_cons.
    destruct (N.eqb_spec a 95) as [->|N]; [destruct (plain_last _ P eq_refl)|]. cbn [andb]. reflexivity.
  - change ((a :: b :: t) ++ sep ++ rest) with (a :: b :: t ++ sep ++ rest). rewrite pieces_cons, (plain_pair _ _ _ P).
    change (b :: t ++ sep ++ rest) with ((b :: t) ++ sep ++ rest). rewrite IH by (eapply plain_tail; eauto). reflexivity.
Qed.
Lemma pieces_join ts : ts <> [] -> Forall plain ts -> pieces (join sep ts) = ts.
Proof.
  induction ts as [|t ts IH]; intros N F; [congruence|]. inversion F as [|? ? P F' ]; subst. destruct ts as [|u ts].
  - now apply pieces_plain.
  - cbn [join]. rewrite pieces_sep by auto. f_equal. apply IH; auto; discriminate.
Qed.
Lemma len_cons_hd a l : l <> [] -> length (cons_hd a l) = length l.
Proof. destruct l; cbn; congruence. Qed.
Lemma np_pos s : 1 <= length (pieces s).
Proof. pose proof (pieces_not_nil s). destruct (pieces s); [congruence|cbn; lia]. Qed.
(** at most one piece more, and never fewer, with one byte more in front *)
Lemma np_step n : forall s c, length s <= n -> length (pieces s) <= length (pieces (c :: s)) <= 1 + length (pieces s).
Proof.
  induction n as [|n IH]; intros s c L.
  - destruct s; [cbn; lia|cbn in L; lia].
  - destruct s as [|b r]; [cbn; lia|]. rewrite pieces_cons. cbn [length] in L. destruct (_ && _) eqn:E.
    + cbn [length]. pose proof (IH r b ltac:(lia)). lia.
    + rewrite len_cons_hd by apply pieces_not_nil. lia.
Qed.
Lemma np_app_r a : forall b, length (pieces b) <= length (pieces (a ++ b)).
Proof. induction a as [|c a IH]; intros b; cbn [app]; [lia|]. pose proof (np_step _ (a ++ b) c (le_n _)). pose proof (IH b). lia. Qed.
(** separators add up *)
Lemma np_app n : forall a b, length a <= n -> length (pieces a) + length (pieces b) <= 1 + length (pieces (a ++ b)).
Proof.
  induction n as [|n IH]; intros a b L.
  - destruct a; [|cbn in L; lia]. cbn [app pieces length]. lia.
  - destruct a as [|c a]; [cbn [app pieces length]; lia|]. destruct a as [|d a].
    + cbn [app]. pose proof (np_step _ b c (le_n _)). change (length (pieces [c])) with 1. lia.
    + cbn [app length] in *. rewrite !pieces_cons. destruct (_ && _).
      * cbn [length]. pose proof (IH a b ltac:(lia)). lia.
      * rewrite !len_cons_hd by apply pieces_not_nil. pose proof (IH (d :: a) b ltac:(cbn; lia)) as H. cbn [app] in H. lia.
Qed.
Lemma np_add a b : length (pieces a) + length (pieces b) <= 1 + length (pieces (a ++ b)).
Proof. eapply np_app. apply le_n. Qed.
Lemma np_occurs t : occurs sep t -> 2 <= length (pieces t).
Proof.
  intros (a & b & ->). pose proof (np_add a (sep ++ b)) as H. pose proof (np_pos a). change (sep ++ b) with (95%N :: 95%N :: b) in *.
  rewrite (pieces_cons 95 95) in H. rewrite N.eqb_refl in H. cbn [andb length] in H. pose proof (np_pos b). lia.
Qed.
Lemma np_sep a b : length (pieces a) + length (pieces b) <= length (pieces (a ++ sep ++ b)).
Proof.
  pose proof (np_add a (sep ++ b)) as H. change (sep ++ b) with (95%N :: 95%N :: b) in *. rewrite (pieces_cons 95 95) in H.
  rewrite N.eqb_refl in H. cbn [andb length] in H. lia.
Qed.
Lemma np_join ts : ts <> [] -> length ts <= length (pieces (join sep ts)).
Proof.
  induction ts as [|t ts IH]; intros N; [congruence|]. destruct ts as [|u ts]; [apply np_pos|].
  rewrite join_cons. pose proof (np_sep t (join sep (u :: ts))). pose proof (np_pos t). specialize (IH ltac:(discriminate)). cbn [length] in *. lia.
Qed.
Lemma np_join_more ts t : In t ts -> occurs sep t -> length ts < length (pieces (join sep ts)).
Proof.
  induction ts as [|u ts IH]; intros I O; [destruct I|]. destruct ts as [|w ts].
  - destruct I as [->|[]]. cbn [join length]. apply np_occurs in O. lia.
  - rewrite join_cons. pose proof (np_sep u (join sep (w :: ts))) as H. pose proof (np_pos u). destruct I as [->|I].
    + apply np_occurs in O. pose proof (np_join (w :: ts) ltac:(discriminate)). cbn [length] in *. lia.
    + specialize (IH I O). cbn [length] in *. lia.
Qed.

(** ** Signatures *)
Lemma sig_from_cons cap sig t u ts : sig_from cap sig (t :: u :: ts) = do sig <- strcat cap sig t; do sig <- strcat cap sig sep; sig_from cap sig (u :: ts).
Proof. reflexivity. Qed.
Lemma strcat_ok cap a b : length a + length b + 1 <= cap -> strcat cap a b = Ok (a ++ b).
Proof. intros H. unfold strcat. destruct (Nat.leb_spec (length a + length b + 1) cap); [reflexivity|lia]. Qed.
Lemma strcat_ub cap a b : cap < length a + length b + 1 -> strcat cap a b = UB.
Proof. intros H. unfold strcat. destruct (Nat.leb_spec (length a + length b + 1) cap); [lia|reflexivity]. Qed.
Lemma sig_from_ok cap ts : forall sig, length sig + length (join sep ts) + 1 <= cap -> sig_from cap sig ts = Ok (sig ++ join sep ts).
Proof.
  induction ts as [|t ts IH]; intros sig L; [cbn [sig_from join]; now rewrite app_nil_r|]. destruct ts as [|u ts].
  - cbn [join sig_from] in *. rewrite strcat_ok by lia. reflexivity.
  - rewrite join_cons, !app_length in L. change (length sep) with 2 in L. rewrite sig_from_cons, strcat_ok by lia. cbn [bind].
    rewrite strcat_ok by (rewrite app_length; change (length sep) with 2; lia). cbn [bind].
    rewrite IH by (rewrite !app_length; change (length sep) with 2; lia). rewrite join_cons. now rewrite <- !app_assoc.
Qed.
Lemma sig_from_ub cap ts : forall sig, length sig + 1 <= cap -> cap < length sig + length (join sep ts) + 1 -> sig_from cap sig ts = UB.
Proof.
  induction ts as [|t ts IH]; intros sig L0 L; [cbn [join length] in L; lia|]. destruct ts as [|u ts].
  - cbn [join sig_from] in *. rewrite strcat_ub by lia. reflexivity.
  - rewrite join_cons, !app_length in L. change (length sep) with 2 in L. rewrite sig_from_cons.
    destruct (Nat.leb_spec (length sig + length t + 1) cap); [|rewrite strcat_ub by lia; reflexivity]. rewrite strcat_ok by lia. cbn [bind].
    destruct (Nat.leb_spec (length sig + length t + 2 + 1) cap); [|rewrite strcat_ub by (rewrite app_length; change (length sep) with 2; lia); reflexivity].
    rewrite strcat_ok by (rewrite app_length; change (length sep) with 2; lia). cbn [bind].
    apply IH; rewrite !app_length; change (length sep) with 2; lia.
Qed.
Lemma sig_variant_ok ts : forall sig, length sig <= 508 -> sig_variant_rest sig ts <> UB /\ forall r, sig_variant_rest sig ts = Ok r -> r = sig ++ concat (map (fun t => sep ++ t) ts).
Proof.
  induction ts as [|t ts IH]; intros sig L; cbn [sig_variant_rest map concat].
  - split; [discriminate|]. intros r H. injection H as <-. now rewrite app_nil_r.
  - unfold strcat at 1 3. change (length sep) with 2. destruct (Nat.leb_spec (length sig + 2 + 1) 512); [|lia]. cbn [bind].
    rewrite app_length. change (length sep) with 2. destruct (Nat.ltb_spec 510 (length sig + 2 + length t + 2)); [split; discriminate|].
    unfold strcat. rewrite app_length. change (length sep) with 2. destruct (Nat.leb_spec (length sig + 2 + length t + 1) 512); [|lia]. cbn [bind].
    destruct (IH ((sig ++ sep) ++ t) ltac:(rewrite !app_length; change (length sep) with 2; lia)) as [U R]. split; auto.
    intros r E. rewrite (R r E). now rewrite <- !app_assoc.
Qed.
Lemma join_concat t ts : join sep (t :: ts) = t ++ concat (map (fun t => sep ++ t) ts).
Proof. revert t. induction ts as [|u ts IH]; intros t; [cbn; now rewrite app_nil_r|]. change (join sep (t :: u :: ts)) with (t ++ sep ++ join sep (u :: ts)). rewrite IH. cbn [map concat]. now rewrite <- !app_assoc. Qed.

Lemma register_in used sig : In sig (register used sig) /\ (forall s, In s used -> In s (register used sig)) /\ (NoDup used -> NoDup (register used sig)).
Proof.
  unfold register. destruct (existsb (beq_bytes sig) used) eqn:E.
  - apply existsb_exists in E as (x & I & B). apply beq_bytes_true in B. subst x. auto.
  - split; [now left|]. split; [now right|]. intros N. constructor; auto. intros I.
    assert (existsb (beq_bytes sig) used = true); [|congruence]. apply existsb_exists. exists sig. split; auto. apply beq_bytes_refl.
Qed.

(** ** Literals *)
Lemma literal_rest_ok (es : list elem) : forall (ts : list bytes) (code : bytes) (first : bool),
  map simple es = map Some ts -> Forall (fun t => length t <= 255) ts ->
  length code + length (if first then join (bs ", ") ts else concat (map (fun t => bs ", " ++ t) ts)) + 2 <= 4096 ->
  literal_rest code first es = Ok (code ++ (if first then join (bs ", ") ts else concat (map (fun t => bs ", " ++ t) ts)) ++ bs "}").
Proof.
  induction es as [|e es IH]; intros ts code first M F L; destruct ts as [|t ts]; try discriminate.
  - cbn [literal_rest]. unfold strcat. destruct first; cbn [join map concat length] in *; change (length (bs "}")) with 1; (destruct (Nat.leb_spec (length code + 1 + 1) 4096); [reflexivity|lia]).
  - cbn [map] in M. injection M as M1 M. inversion F as [|? ? Ft F']; subst. cbn [literal_rest].
    assert (Ec : elem_code e = Ok t).
    { destruct e; cbn [simple] in M1; try discriminate; injection M1 as M1; subst t; cbn [elem_code]; unfold sprintf256;
      try (match goal with |- (if (length ?t + 1 <=? 256) then _ else _) = _ => destruct (Nat.leb_spec (length t + 1) 256); [reflexivity|lia] end). reflexivity. }
    rewrite Ec. 
    assert (J : forall t, join (bs ", ") (t :: ts) = t ++ concat (map (fun t => bs ", " ++ t) ts)).
    { clear. induction ts as [|u ts IH]; intros t; [cbn; now rewrite app_nil_r|]. change (join (bs ", ") (t :: u :: ts)) with (t ++ bs ", " ++ join (bs ", ") (u :: ts)). rewrite IH. cbn [map concat]. now rewrite <- !app_assoc. }
    destruct first.
    + rewrite J in *. rewrite app_length in L. cbn [bind]. unfold strcat at 1. destruct (Nat.leb_spec (length code + length t + 1) 4096); [|lia]. cbn [bind].
      rewrite (IH ts (code ++ t) false M F') by (rewrite app_length; lia). now rewrite <- !app_assoc.
    + cbn [map concat] in *. rewrite !app_length in L. unfold strcat at 1. change (length (bs ", ")) with 2 in *.
      destruct (Nat.leb_spec (length code + 2 + 1) 4096); [|lia]. cbn [bind].
      unfold strcat at 1. rewrite app_length. change (length (bs ", ")) with 2. destruct (Nat.leb_spec (length code + 2 + length t + 1) 4096); [|lia]. cbn [bind].
      rewrite (IH ts ((code ++ bs ", ") ++ t) false M F') by (rewrite !app_length; change (length (bs ", ")) with 2; lia). now rewrite <- !app_assoc.
Qed.

(** ** Typed literals *)
Lemma element_ok e : forall d k b rest, closed d e -> (k = KComma \/ k = KRp) ->
  element (Z.of_nat d) (e ++ Tok k b :: rest) = (text e, Tok k b :: rest).
Proof.
  induction e as [|[k0 b0] e IH]; intros d k b rest C K.
  - cbn [closed] in C. subst d. cbn [app element tk_kind text map concat]. destruct K as [-> | ->]; reflexivity.
  - cbn [app element tk_kind tk_text closed] in *.
    assert (G : (Z.of_nat d =? 0)%Z && match k0 with KComma | KRp => true | _ => false end = false).
    { destruct k0; rewrite ?andb_false_r; auto; destruct d; try contradiction; reflexivity. }
    rewrite G. destruct k0.
    + replace (Z.of_nat d + 1)%Z with (Z.of_nat (S d)) by lia. rewrite (IH (S d) k b rest C K). reflexivity.
    + destruct d; [contradiction|]. replace (Z.of_nat (S d) - 1)%Z with (Z.of_nat d) by lia. rewrite (IH d k b rest C K). reflexivity.
    + destruct d; [contradiction|]. rewrite (IH (S d) k b rest C K). reflexivity.
    + rewrite (IH d k b rest C K). reflexivity.
Qed.
Definition add (c s : bytes) : bytes := match c with [] => s | _ => c ++ bs ", " ++ s end.
Lemma put_ok c cap s : 128 <= cap -> length c + 1 <= cap -> length s <= 123 -> exists cap', put c cap s = Ok (add c s, cap') /\ 128 <= cap' /\ length (add c s) + 1 <= cap'.
Proof.
  intros C L S. unfold put. set (cap' := if cap <? length c + length s + 5 then cap * 2 else cap).
  assert (H : length c + length s + 5 <= cap' /\ cap <= cap') by (unfold cap'; destruct (Nat.ltb_spec cap (length c + length s + 5)); lia).
  exists cap'. destruct c as [|x c]; unfold add.
  - cbn [bind]. unfold strcat. cbn [length app] in *. destruct (Nat.leb_spec (0 + length s + 1) cap'); [|lia]. cbn [bind]. split; [reflexivity|]. lia.
  - unfold strcat at 1. change (length (bs ", ")) with 2. destruct (Nat.leb_spec (length (x :: c) + 2 + 1) cap'); [|lia]. cbn [bind].
    unfold strcat. rewrite app_length. change (length (bs ", ")) with 2. destruct (Nat.leb_spec (length (x :: c) + 2 + length s + 1) cap'); [|lia]. cbn [bind].
    rewrite <- app_assoc. split; [reflexivity|]. rewrite !app_length. change (length (bs ", ")) with 2. lia.
Qed.
Lemma head_not e : closed 0 e -> e <> [] -> match e with Tok KRp _ :: _ | Tok KComma _ :: _ => False | _ => True end.
Proof. intros C N. destruct e as [|[[] b] e]; cbn in *; auto. Qed.
Lemma typed_step fuel c cap e k b rest : closed 0 e -> e <> [] -> (k = KComma \/ k = KRp) ->
  typed_loop (S fuel) c cap (e ++ Tok k b :: rest) = do '(c, cap) <- put c cap (text e); typed_loop fuel c cap (Tok k b :: rest).
Proof.
  intros C N K. pose proof (element_ok e 0 k b rest C K) as E. change (Z.of_nat 0) with 0%Z in E. pose proof (head_not e C N) as H.
  destruct e as [|[k0 b0] e]; [congruence|]. cbn [typed_loop app] in *. destruct k0; try contradiction; rewrite E; reflexivity.
Qed.
Fixpoint adds (c : bytes) (l : list bytes) : bytes := match l with [] => c | s :: r => adds (add c s) r end.
Lemma typed_ok comma rp after es : forall c cap fuel, Forall (closed 0) es -> Forall (fun e => e <> []) es -> Forall (fun e => length (text e) <= 123) es ->
  128 <= cap -> length c + 1 <= cap -> 2 * length es + 1 <= fuel ->
  typed_loop fuel c cap (written comma rp es ++ after) = Ok (adds c (map text es), after).
Proof.
  induction es as [|e es IH]; intros c cap fuel C N L Hc Hl Hf.
  - destruct fuel; [cbn in Hf; lia|]. reflexivity.
  - inversion C as [|? ? C1 C']; inversion N as [|? ? N1 N']; inversion L as [|? ? L1 L']; subst. cbn [length] in Hf.
    destruct fuel as [|fuel]; [lia|]. destruct (put_ok c cap (text e) Hc Hl L1) as (cap' & P & Hc' & Hl').
    destruct es as [|e2 es].
    + cbn [written]. rewrite <- app_assoc. cbn [app]. rewrite (typed_step fuel c cap e KRp rp after C1 N1 (or_intror eq_refl)), P. cbn [bind map adds].
      destruct fuel; [lia|]. reflexivity.
    + change (written comma rp (e :: e2 :: es)) with (e ++ Tok KComma comma :: written comma rp (e2 :: es)). rewrite <- app_assoc. cbn [app].
      rewrite (typed_step fuel c cap e KComma comma _ C1 N1 (or_introl eq_refl)), P. cbn [bind].
      destruct fuel as [|fuel]; [lia|].
      change (typed_loop (S fuel) (add c (text e)) cap' (Tok KComma comma :: written comma rp (e2 :: es) ++ after)) with (typed_loop fuel (add c (text e)) cap' (written comma rp (e2 :: es) ++ after)).
      rewrite (IH (add c (text e)) cap' fuel C' N' L' Hc' Hl') by (cbn [length] in *; lia). reflexivity.
Qed.
Lemma adds_join l : forall c, c <> [] -> adds c l = join (bs ", ") (c :: l).
Proof.
  induction l as [|s l IH]; intros c N; [reflexivity|]. cbn [adds]. unfold add at 1. destruct c as [|x c]; [congruence|].
  rewrite IH by discriminate. destruct l as [|u l]; [reflexivity|]. change (join (bs ", ") ((x :: c) :: s :: u :: l)) with ((x :: c) ++ bs ", " ++ s ++ bs ", " ++ join (bs ", ") (u :: l)).
  change (join (bs ", ") (((x :: c) ++ bs ", " ++ s) :: u :: l)) with (((x :: c) ++ bs ", " ++ s) ++ bs ", " ++ join (bs ", ") (u :: l)). now rewrite <- !app_assoc.
Qed.
(** at the end of the file the loop goes on for ever *)
Lemma typed_eof fuel : forall c cap, 5 <= cap -> length c + 1 <= cap -> typed_loop fuel c cap [] = Fuel.
Proof.
  induction fuel as [|fuel IH]; intros c cap H L; auto. cbn [typed_loop element].
  unfold put. set (cap' := if cap <? length c + length (@nil N) + 5 then cap * 2 else cap). assert (G : length c + 5 <= cap' /\ 5 <= cap') by (unfold cap'; cbn [length]; destruct (Nat.ltb_spec cap (length c + 0 + 5)); lia).
  destruct c as [|x c].
  - cbn [bind]. unfold strcat. cbn [length]. destruct (Nat.leb_spec (0 + 0 + 1) cap'); [|lia]. cbn [bind]. apply IH; cbn; lia.
  - unfold strcat at 1. change (length (bs ", ")) with 2. destruct (Nat.leb_spec (length (x :: c) + 2 + 1) cap'); [|lia]. cbn [bind].
    unfold strcat. rewrite app_length. change (length (bs ", ")) with 2. cbn [length] in *. destruct (Nat.leb_spec (S (length c) + 2 + 0 + 1) cap'); [|lia]. cbn [bind].
    apply IH; [lia|]. rewrite !app_length. change (length (bs ", ")) with 2. cbn [length]. lia.
Qed.
Lemma typed_eof2 fuel c cap e : closed 0 e -> e <> [] -> length (text e) <= 123 -> 128 <= cap -> length c + 1 <= cap -> typed_loop fuel c cap e = Fuel.
Proof.
  intros C N L Hc Hl. destruct fuel as [|fuel]; auto.
  assert (E : forall e d, closed d e -> element (Z.of_nat d) e = (text e, [])).
  { clear. induction e as [|[k b] e IH]; intros d C; [reflexivity|]. cbn [element tk_kind tk_text closed] in *.
    assert (G : (Z.of_nat d =? 0)%Z && match k with KComma | KRp => true | _ => false end = false).
    { destruct k; rewrite ?andb_false_r; auto; destruct d; try contradiction; reflexivity. }
    rewrite G. destruct k.
    - replace (Z.of_nat d + 1)%Z with (Z.of_nat (S d)) by lia. now rewrite (IH (S d) C).
    - destruct d; [contradiction|]. replace (Z.of_nat (S d) - 1)%Z with (Z.of_nat d) by lia. now rewrite (IH d C).
    - destruct d; [contradiction|]. now rewrite (IH (S d) C).
    - now rewrite (IH d C). }
  specialize (E e 0 C). change (Z.of_nat 0) with 0%Z in E. destruct (put_ok c cap (text e) Hc Hl L) as (cap' & P & Hc' & Hl').
  pose proof (head_not e C N) as H. destruct e as [|[k0 b0] e]; [congruence|]. cbn [typed_loop]. destruct k0; try contradiction; rewrite E, P; cbn [bind]; apply typed_eof; lia.
Qed.

(** ** Order *)
Lemma order_refuted l : forall declared sig p, In (ITuple sig) l -> In p (pieces sig) -> ~ In p declared ->
  (forall t, p <> bs "Slice_" ++ t) -> (forall t, p <> bs "Tuple_" ++ t) -> (forall n l1 l2, l = l1 ++ ITypedef n :: l2 -> ~ In (ITuple sig) l2) ->
  ~ in_order declared l.
Proof.
  induction l as [|i l IH]; intros declared sig p I P D S T O H; [destruct I|]. destruct I as [->|I].
  - cbn in H. destruct H as [F _]. rewrite Forall_forall in F. apply D. auto.
  - assert (O' : forall n l1 l2, l = l1 ++ ITypedef n :: l2 -> ~ In (ITuple sig) l2) by (intros n l1 l2 E; apply (O n (i :: l1) l2); cbn; now rewrite E).
    destruct i; cbn in H.
    + destruct H as [_ H]. refine (IH _ sig p I P _ S T O' H). intros [X|X]; [symmetry in X; now apply S in X|auto].
    + destruct H as [_ H]. refine (IH _ sig p I P _ S T O' H). intros [X|X]; [symmetry in X; now apply T in X|auto].
    + apply (O name [] l eq_refl I).
Qed.
Lemma order_ok slices tuples structs : forall declared, Forall (fun t => In t declared) slices -> Forall (fun s => Forall (fun t => In t declared) (pieces s)) tuples ->
  in_order declared (emission slices tuples structs).
Proof.
  assert (M : forall l d d', (forall x, In x d -> In x d') -> in_order d l -> in_order d' l).
  { induction l as [|[t|s|n] l IH]; intros d d' S H; cbn in *; auto.
    - destruct H. split; auto. eapply IH; [|eassumption]. intros x [->|X]; [now left|right; auto].
    - destruct H as [F H]. split; [eapply Forall_impl; [|exact F]; auto|]. eapply IH; [|eassumption]. intros x [->|X]; [now left|right; auto].
    - eapply IH; [|eassumption]. intros x [->|X]; [now left|right; auto]. }
  assert (E3 : forall l d, in_order d (map ITypedef l)) by (induction l; intros; cbn; auto).
  intros d F1 F2. unfold emission.
  assert (F1' : Forall (fun t => In t d) (rev slices)) by (apply Forall_forall; intros x X; rewrite <- in_rev in X; rewrite Forall_forall in F1; auto).
  clear F1. induction (rev slices) as [|t l IH].
  - cbn [map app]. clear F1'. induction F2 as [|s l P F IH]; cbn [map app in_order]; [apply E3|]. split; auto. eapply M; [|exact IH]. intros x X. now right.
  - inversion F1'; subst. cbn [map app in_order]. split; auto. eapply M; [|apply IH; auto]. intros x X. now right.
Qed.

(** ** Destructuring *)
Lemma destructure_ok {V} names : forall (env : list (bytes * V)) vs, length names <= length vs ->
  destructure env names vs = Some (rev (combine names vs) ++ env).
Proof.
  induction names as [|n ns IH]; intros env vs L; [reflexivity|]. destruct vs as [|v vs]; [cbn in L; lia|].
  cbn [destructure combine rev]. rewrite IH by (cbn in L; lia). now rewrite <- app_assoc.
Qed.
