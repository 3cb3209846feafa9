From Verif Require Import Common Async_Model Async_Spec.
Local Open Scope nat_scope.

(** ** Lists *)
Lemma nth_replace {A} (l : list A) i n (a : A) : nth_error (replace i a l) n = if n =? i then option_map (fun _ => a) (nth_error l n) else nth_error l n.
Proof.
  revert i n. induction l as [|b l IH]; intros i n; [destruct i, n; cbn; try reflexivity; destruct (n =? i); reflexivity|].
  destruct i, n; cbn; try reflexivity. apply IH.
Qed.
Lemma length_replace {A} (l : list A) i (a : A) : length (replace i a l) = length l.
Proof. revert i. induction l; intros [|i]; cbn; auto. Qed.
Lemma nth_same {A} (l : list A) i (a b : A) : nth_error l i = Some b -> nth_error (replace i a l) i = Some a.
Proof. intros H. now rewrite nth_replace, Nat.eqb_refl, H. Qed.
Lemma nth_other {A} (l : list A) i n (a : A) : n <> i -> nth_error (replace i a l) n = nth_error l n.
Proof. intros H. rewrite nth_replace. destruct (Nat.eqb_spec n i); [contradiction|reflexivity]. Qed.
Lemma nth_lt {A} (l : list A) i a : nth_error l i = Some a -> i < length l.
Proof. intros H. apply nth_error_Some. congruence. Qed.
Lemma nth_new {A} (l : list A) (a : A) : nth_error (l ++ [a]) (length l) = Some a.
Proof. rewrite nth_error_app2 by lia. now rewrite Nat.sub_diag. Qed.
Lemma nth_app {A} (l : list A) (a b : A) i : nth_error (l ++ [a]) i = Some b -> nth_error l i = Some b \/ (i = length l /\ b = a).
Proof.
  intros H. destruct (Nat.lt_ge_cases i (length l)) as [L|L]; [rewrite nth_error_app1 in H by lia; auto|].
  rewrite nth_error_app2 in H by lia. destruct (i - length l) as [|k] eqn:E; cbn in H; [|destruct k; discriminate]. injection H as <-. right. split; [lia|reflexivity].
Qed.
Lemma nth_old {A} (l : list A) (a b : A) i : nth_error l i = Some b -> nth_error (l ++ [a]) i = Some b.
Proof. intros H. rewrite nth_error_app1; [assumption|]. eapply nth_lt; eauto. Qed.

(** ** Numbers *)
Lemma wrap_signed b z : (0 < b)%Z -> (- 2 ^ (b - 1) <= z < 2 ^ (b - 1))%Z -> wrap b true z = z.
Proof.
  intros B H. unfold wrap. cbn [andb]. assert (E : (2 ^ b = 2 * 2 ^ (b - 1))%Z) by (rewrite <- Z.pow_succ_r by lia; f_equal; lia).
  rewrite E. destruct (Z.lt_ge_cases z 0) as [L|L].
  - assert (M : (z mod (2 * 2 ^ (b - 1)) = z + 2 * 2 ^ (b - 1))%Z).
    { symmetry. apply (Z.mod_unique_pos _ _ (-1)); lia. }
    rewrite M. destruct (Z.leb_spec (2 ^ (b - 1)) (z + 2 * 2 ^ (b - 1))); lia.
  - rewrite Z.mod_small by lia. destruct (Z.leb_spec (2 ^ (b - 1)) z); lia.
Qed.
Lemma wrap_unsigned b z : (0 <= z < 2 ^ b)%Z -> wrap b false z = z.
Proof. intros H. unfold wrap. cbn [andb]. now apply Z.mod_small. Qed.
Lemma wrap_wrap z : (0 <= z < 2 ^ 64)%Z -> wrap 64 false (wrap 64 true z) = z.
Proof.
  intros H. unfold wrap. cbn [andb]. rewrite (Z.mod_small z) by assumption.
  destruct (Z.leb_spec (2 ^ (64 - 1)) z); [|now apply Z.mod_small]. symmetry. apply (Z.mod_unique_pos _ _ (-1)); lia.
Qed.

Section Proofs.
Variable decl : bytes -> ckind.
Variable addr : nat -> Z.
Variable round : Z -> Z.
Notation kind_of := (kind_of decl).
Notation from_long := (from_long addr round).

Lemma same_kind_refl k : same_kind k k = true.
Proof. destruct k; cbn; rewrite ?Z.eqb_refl, ?Bool.eqb_reflx, ?beq_bytes_refl; reflexivity. Qed.
Lemma star n : existsb (N.eqb (ch "*")) n = false <-> ~ In (ch "*") n.
Proof.
  split.
  - intros H I. assert (E : existsb (N.eqb (ch "*")) n = true) by (apply existsb_exists; exists (ch "*"); split; [assumption|apply N.eqb_refl]). congruence.
  - intros H. destruct (existsb (N.eqb (ch "*")) n) eqn:E; [|reflexivity]. apply existsb_exists in E as (x & I & Q). apply N.eqb_eq in Q. subst x. contradiction.
Qed.
Lemma not_named n l : ~ In n l -> existsb (beq_bytes n) l = false.
Proof.
  intros H. destruct (existsb (beq_bytes n) l) eqn:E; [|reflexivity]. apply existsb_exists in E as (x & I & Q). apply beq_bytes_true in Q. subst x. contradiction.
Qed.
(** Every name in [l] begins with a reserved prefix or is reserved *)
Definition prefixes := [bs "uint"; bs "int"; bs "i8"; bs "u8"; bs "i16"; bs "u16"; bs "i32"; bs "u32"; bs "i64"; bs "u64"; bs "f32"; bs "f64"; bs "i128"; bs "u128"].
Definition reserved := [bs "bool"; bs "char"; bs "float"; bs "double"; bs "long"; bs "usize"; bs "isize"; bs "byte"; bs "rune"; bs "size_t"; bs "ptrdiff_t"; bs "ssize_t";
          bs "void"; bs "string"; bs "__int128"; bs "unsigned __int128"; bs "unsigned int"].
Lemma ordinary_not n l : ordinary n -> forallb (fun x => existsb (fun p => is_prefix p x) prefixes || existsb (beq_bytes x) reserved) l = true -> ~ In n l.
Proof.
  intros (P & R & _) H I. rewrite forallb_forall in H. specialize (H n I). apply orb_true_iff in H as [H|H].
  - apply existsb_exists in H as (p & I1 & H). apply is_prefix_spec in H as (r & ->). now apply (P p r I1).
  - apply existsb_exists in H as (x & I1 & H). apply beq_bytes_true in H. subst x. now apply R.
Qed.
Lemma ordinary_prefix n : ordinary n -> existsb (fun p => is_prefix p n) scalar_prefixes = false.
Proof.
  intros (P & _). destruct (existsb _ _) eqn:E; [|reflexivity]. apply existsb_exists in E as (p & I & H). apply is_prefix_spec in H as (r & ->). now destruct (P p r I).
Qed.
Lemma not_beq n x : n <> x -> beq_bytes n x = false.
Proof. intros H. now destruct (beq_bytes_spec n x). Qed.
Lemma ordinary_modes n b : ordinary n -> decl n = KStruct n -> runner_mode n = Boxed /\ await_type b (TStruct n) = n /\ await_mode n = Boxed.
Proof.
  intros O D.
  assert (V : n <> bs "void") by (intros ->; destruct O as (_ & R & _); apply R; cbn; auto 20).
  assert (T : n <> bs "string") by (intros ->; destruct O as (_ & R & _); apply R; cbn; auto 20).
  assert (I : is_struct_return_type n = true).
  { unfold is_struct_return_type. rewrite (ordinary_prefix n O). rewrite not_named; [reflexivity|]. apply ordinary_not; [assumption|reflexivity]. }
  splits.
  - unfold runner_mode. now rewrite (not_beq _ _ V), I.
  - unfold await_type. destruct b; [|reflexivity]. cbn [type_to_string]. unfold variable_type. rewrite not_named; [reflexivity|]. apply ordinary_not; [assumption|reflexivity].
  - unfold await_mode. destruct O as (_ & _ & N). apply star in N. now rewrite (not_beq _ _ V), (not_beq _ _ T), N, I.
Qed.

(** What happens to a result of a supported type *)
Inductive way (r : ty) : Prop :=
| w_void : r = TVoid -> runner_mode (type_to_string r) = Nothing -> (forall b, await_mode (await_type b r) = Nothing) -> way r
| w_box : runner_mode (type_to_string r) = Boxed ->
    (forall b, await_mode (await_type b r) = Boxed /\ same_kind (kind_of (type_to_string r)) (kind_of (await_type b r)) = true) -> way r
| w_long : runner_mode (type_to_string r) = AsLong ->
    (forall v, has_type r v -> exists z, to_long v = Ok (WNum z) /\
     forall b, (b = true -> forall z, v = VInt z -> int_range r <> None -> (-2147483648 <= z <= 2147483647)%Z) ->
     (await_mode (await_type b r) = AsLong /\ from_long (kind_of (await_type b r)) (WNum z) = Ok v) \/
     (await_mode (await_type b r) = AsPointer /\ VPtr (wrap 64 false z) = v)) -> way r.
Lemma supported_way r : supported decl r -> way r.
Proof.
  intros [|t [lo hi] H|t H|n O D|t H].
  - apply w_void; [reflexivity|reflexivity|]. intros []; reflexivity.
  - assert (M : runner_mode (type_to_string t) = AsLong) by (destruct t; try discriminate H; reflexivity).
    apply w_long; [assumption|]. intros v T.
    assert (exists z, v = VInt z /\ (lo <= z <= hi)%Z) as (z & -> & R).
    { destruct t; try discriminate H; destruct v; cbn [has_type] in T; try contradiction T; rewrite H in T; eauto. }
    exists (wrap 64 true z). split; [reflexivity|]. intros b B. left.
    assert (B' : b = true -> (-2147483648 <= z <= 2147483647)%Z) by (intros E; apply (B E z eq_refl); congruence).
    destruct b.
    + specialize (B' eq_refl).
      assert (W : wrap 64 true z = z) by (apply wrap_signed; lia).
      destruct t; try discriminate H; (split; [reflexivity|]); injection H as <- <-; cbn [Async_Model.from_long number]; rewrite W;
        try (change (kind_of (await_type true _)) with (KInt 32 true); cbn [Async_Model.from_long number]; rewrite wrap_signed by lia; reflexivity).
      * change (kind_of (await_type true TBool)) with KBool. cbn. destruct (Z.eqb_spec z 0); do 2 f_equal; lia.
      * change (kind_of (await_type true TChar)) with (KInt 8 true). cbn [Async_Model.from_long number]. rewrite wrap_signed by lia. reflexivity.
    + destruct t; try discriminate H; (split; [reflexivity|]); injection H as <- <-;
        match goal with |- Async_Model.from_long _ _ ?k _ = _ => let k' := eval cbv in k in change k with k' end; cbn [Async_Model.from_long number];
        try (rewrite (wrap_signed 64 z) by lia; rewrite wrap_signed by lia; reflexivity);
        try (rewrite (wrap_signed 64 z) by lia; rewrite wrap_unsigned by lia; reflexivity);
        try (rewrite wrap_wrap by lia; reflexivity).
      rewrite (wrap_signed 64 z) by lia. destruct (Z.eqb_spec z 0); do 2 f_equal; lia.
  - apply w_box; destruct H as [<-|[<-|[<-|[]]]]; [reflexivity|reflexivity|reflexivity| | |]; intros []; split; reflexivity.
  - apply w_box; [apply (ordinary_modes n true O D)|]. intros b. destruct (ordinary_modes n b O D) as (_ & -> & M). split; [assumption|apply same_kind_refl].
  - apply w_long.
    + repeat (destruct H as [<-|H]; [reflexivity|]). destruct H.
    + intros v T. assert (exists a, v = VPtr a /\ (0 <= a < 2 ^ 64)%Z) as (a & -> & A) by (destruct v; cbn in T; try contradiction; eauto).
      exists (wrap 64 true a). split; [reflexivity|]. intros b _. right. split; [|now rewrite wrap_wrap].
      repeat (destruct H as [<-|H]; [destruct b; reflexivity|]). destruct H.
Qed.

(** ** The machine and the ideal *)
Notation step := (Async_Model.step decl addr round). Notation run := (Async_Model.run decl addr round).
(** The block that belongs to a call *)
Definition own (t : task) (f : future) : option nat :=
  match answer f with
  | None => args t
  | Some _ => if taken f then None else match result t with Some (WBlock b) => Some b | _ => None end
  end.
Record linked (h : list block) (t : task) (f : future) : Prop := mklinked {
  l_ret : ret t = rtype f;
  l_supported : supported decl (rtype f);
  l_thread : thread t = true;
  l_joined : joined t = taken f;
  l_passed : passed t = if running f then Some (given f) else None;
  l_state : match answer f with
    | None => result t = None /\ taken f = false /\ exists p, args t = Some p /\ nth_error h p = Some (Args (given f))
    | Some v => running f = true /\ has_type (rtype f) v /\ exists w, result t = Some w /\
        (taken f = false -> match runner_mode (type_to_string (rtype f)) with
          | Nothing => w = WNum 0
          | Boxed => exists b, w = WBlock b /\ nth_error h b = Some (Box (type_to_string (rtype f)) v)
          | _ => to_long v = Ok w
          end)
    end }.
Record inv (o : nat -> nat) (s : state) (x : ideal) : Prop := mkinv {
  i_length : length (tasks s) = length (futures x);
  i_outs : outs s = seen x;
  i_rows : forall i t f, nth_error (tasks s) i = Some t -> nth_error (futures x) i = Some f ->
    linked (heap s) t f /\ forall p, own t f = Some p -> o p = i /\ p < length (heap s);
  i_leaks : forall p b, nth_error (heap s) p = Some b -> b = Gone \/ exists i t f, nth_error (tasks s) i = Some t /\ nth_error (futures x) i = Some f /\ own t f = Some p }.

(** A heap that still has what [f] needs *)
Lemma linked_heap h h' t f : linked h t f -> (forall p, own t f = Some p -> nth_error h' p = nth_error h p) -> linked h' t f.
Proof.
  intros [L1 L2 L3 L4 L5 L6] H. split; auto. unfold own in H. destruct (answer f) as [v|].
  - destruct L6 as (Q1 & Q2 & w & Q3 & Q4). splits; auto. exists w. split; [assumption|]. intros T. specialize (Q4 T).
    destruct (runner_mode _); auto. destruct Q4 as (b & -> & Q4). exists b. split; [reflexivity|]. rewrite T, Q3 in H. now rewrite (H b eq_refl).
  - destruct L6 as (Q1 & Q2 & p & Q3 & Q4). splits; auto. exists p. split; [assumption|]. now rewrite (H p Q3).
Qed.
(** One call changes; the heap changes only at blocks no other call owns *)
Lemma inv_update o o' s x i t f t' f' h' outs' :
  inv o s x -> nth_error (tasks s) i = Some t -> nth_error (futures x) i = Some f -> outs' = outs' ->
  linked h' t' f' -> (forall p, own t' f' = Some p -> o' p = i /\ p < length h') ->
  length (heap s) <= length h' ->
  (forall p, p < length (heap s) -> o p <> i -> nth_error h' p = nth_error (heap s) p /\ o' p = o p) ->
  (forall p b, nth_error h' p = Some b -> b <> Gone -> own t' f' = Some p \/ (nth_error (heap s) p = Some b /\ own t f <> Some p)) ->
  inv o' (mkst h' (replace i t' (tasks s)) outs') (mkideal (replace i f' (futures x)) outs').
Proof.
  intros [I1 I2 I3 I4] Ht Hf _ L O Le Keep New. split; cbn [tasks futures heap outs seen].
  - now rewrite !length_replace.
  - reflexivity.
  - intros n tn fn. rewrite !nth_replace. destruct (Nat.eqb_spec n i) as [->|N].
    + rewrite Ht, Hf. cbn. intros [= <-] [= <-]. split; assumption.
    + intros E1 E2. destruct (I3 n tn fn E1 E2) as (Ln & On). split.
      * apply (linked_heap (heap s)); [assumption|]. intros p P. destruct (On p P) as [O1 O2]. apply Keep; [assumption|congruence].
      * intros p P. destruct (On p P) as [O1 O2]. destruct (Keep p O2) as [_ ->]; [congruence|]. split; [assumption|lia].
  - intros p b E. assert (D : b = Gone \/ b <> Gone) by (destruct b; auto; right; discriminate). destruct D as [|D]; [now left|]. right.
    destruct (New p b E D) as [P|[P1 P2]].
    + exists i, t', f'. splits; [eapply nth_same; eauto|eapply nth_same; eauto|assumption].
    + destruct (I4 p b P1) as [|(n & tn & fn & E1 & E2 & E3)]; [contradiction|]. exists n, tn, fn.
      assert (n <> i) by (intros ->; congruence). rewrite !nth_other by assumption. auto.
Qed.
Lemma init_inv : inv (fun _ => 0) init (mkideal [] []).
Proof. split; cbn; auto; intros [|i]; discriminate. Qed.
Lemma ty_dec_own (o1 o2 : option nat) : {o1 = o2} + {o1 <> o2}.
Proof. repeat decide equality. Qed.

Lemma step_inv o s x e : inv o s x -> proper decl e x -> exists o' s', step e s = Ok s' /\ inv o' s' (ideal_step e x).
Proof.
  intros I P. pose proof I as [I1 I2 I3 I4]. destruct e as [r vs m c|i|i v m|variable i]; cbn [Async_Model.step ideal_step proper] in *.
  - destruct P as (U & -> & ->). unfold call. set (n := length (heap s)). exists (fun p => if p =? n then length (tasks s) else o p).
    eexists. split; [reflexivity|]. split; cbn [tasks futures heap outs seen].
    + rewrite !app_length. cbn. lia.
    + assumption.
    + intros k t f E1 E2. apply nth_app in E1 as [E1|[-> ->]].
      * rewrite nth_error_app1 in E2 by (rewrite <- I1; eapply nth_lt; eauto). destruct (I3 k t f E1 E2) as [L O]. split.
        -- apply (linked_heap (heap s)); [assumption|]. intros p Hp. destruct (O p Hp). now apply nth_error_app1.
        -- intros p Hp. destruct (O p Hp) as [O1 O2]. rewrite app_length. destruct (Nat.eqb_spec p n); [subst n; lia|]. split; [assumption|lia].
      * rewrite I1, nth_new in E2. injection E2 as <-. split.
        -- split; cbn; auto. splits; auto. exists n. split; [reflexivity|]. apply nth_new.
        -- intros p [= <-]. rewrite Nat.eqb_refl, app_length. split; [reflexivity|cbn; subst n; lia].
    + intros p b E. apply nth_app in E as [E|[-> ->]].
      * destruct (I4 p b E) as [|(k & t & f & E1 & E2 & E3)]; [now left|]. right. exists k, t, f. splits; auto using nth_old.
      * right. exists (length (tasks s)). do 2 eexists. splits; [apply nth_new|rewrite I1; apply nth_new|reflexivity].
  - unfold begin. destruct (nth_error (tasks s) i) as [t|] eqn:Ht.
    2: { exists o, s. split; [reflexivity|]. apply nth_error_None in Ht. rewrite I1 in Ht. apply nth_error_None in Ht. now rewrite Ht. }
    destruct (nth_error (futures x) i) as [f|] eqn:Hf; [|apply nth_error_None in Hf; apply nth_lt in Ht; lia].
    destruct (I3 i t f Ht Hf) as [L O]. destruct L as [L1 L2 L3 L4 L5 L6]. destruct t as [r th a ps w j], f as [r' vs ru an ta]. cbn in L1, L2, L3, L4, L5, L6. subst.
    destruct ru.
    + exists o, s. split; [reflexivity|assumption].
    + destruct an as [v|]; [destruct L6 as (D & _); discriminate D|]. destruct L6 as (-> & -> & p & -> & Hp). rewrite Hp. cbn [bind]. exists o. eexists. split; [reflexivity|].
      rewrite <- I2. eapply inv_update; eauto.
      * split; cbn; auto. splits; auto. exists p. auto.
      * intros q b E1 E2. destruct (ty_dec_own (own (mktask r' true (Some p) None None false) (mkfuture r' vs false None false)) (Some q)) as [|N]; [now left|]. right. auto.
  - destruct P as [-> P]. unfold finish. destruct (nth_error (tasks s) i) as [t|] eqn:Ht.
    2: { exists o, s. split; [reflexivity|]. apply nth_error_None in Ht. rewrite I1 in Ht. apply nth_error_None in Ht. now rewrite Ht. }
    destruct (nth_error (futures x) i) as [f|] eqn:Hf; [|apply nth_error_None in Hf; apply nth_lt in Ht; lia].
    destruct (I3 i t f Ht Hf) as [L O]. specialize (P f eq_refl). destruct L as [L1 L2 L3 L4 L5 L6]. destruct t as [r th a ps w j], f as [r' vs ru an ta]. cbn in P, L1, L2, L3, L4, L5, L6. subst.
    destruct ru; [|exists o, s; split; [reflexivity|assumption]].
    destruct an as [v'|]; [destruct L6 as (_ & _ & w' & -> & _); exists o, s; split; [reflexivity|assumption]|].
    destruct L6 as (-> & -> & p & -> & Hp). destruct (O p eq_refl) as [Op Lp].
    assert (Fin : forall w, runner_mode (type_to_string r') <> Boxed -> match runner_mode (type_to_string r') with Nothing => w = WNum 0 | Boxed => False | _ => to_long v = Ok w end ->
              match w with WBlock _ => False | _ => True end ->
              exists o' s', (do h <- release (Some p) (heap s); Ok (mkst h (replace i (mktask r' true (Some p) (Some vs) (Some w) false) (tasks s)) (outs s))) = Ok s' /\
              inv o' s' (mkideal (replace i (mkfuture r' vs true (Some v) false) (futures x)) (seen x))).
    { intros w N M B. unfold release. rewrite Hp. cbn [bind]. exists o. eexists. split; [reflexivity|]. rewrite <- I2. eapply inv_update; eauto.
      - split; cbn; auto. splits; auto. exists w. split; [reflexivity|]. intros _. destruct (runner_mode _); auto. contradiction.
      - unfold own. cbn. destruct w; [discriminate|contradiction].
      - rewrite length_replace. lia.
      - intros q Q1 Q2. split; [|reflexivity]. apply nth_other. intros ->. now apply Q2.
      - intros q b. rewrite nth_replace. destruct (Nat.eqb_spec q p) as [->|Nq]; [rewrite Hp; cbn; congruence|]. intros Q1 Q2. right. split; [assumption|]. cbn. congruence. }
    destruct (supported_way r' L2) as [E M W|M W|M W]; rewrite M in *.
    + apply Fin; [discriminate|reflexivity|exact Logic.I].
    + unfold release. rewrite nth_error_app1 by assumption. rewrite Hp. cbn [bind].
      exists (fun q => if q =? length (heap s) then i else o q). eexists. split; [reflexivity|]. rewrite <- I2. eapply inv_update; eauto.
      * split; cbn; auto. splits; auto. eexists. split; [reflexivity|]. intros _. rewrite M. eexists. split; [reflexivity|]. rewrite nth_other by lia. apply nth_new.
      * intros q [= <-]. rewrite Nat.eqb_refl, length_replace, app_length. cbn. split; [reflexivity|lia].
      * rewrite length_replace, app_length. lia.
      * intros q Q1 Q2. destruct (Nat.eqb_spec q (length (heap s))); [lia|]. split; [|reflexivity]. rewrite nth_other by (intros ->; now apply Q2). now apply nth_error_app1.
      * intros q b. rewrite nth_replace. destruct (Nat.eqb_spec q p) as [->|Nq]; [rewrite nth_error_app1 by assumption; rewrite Hp; cbn; congruence|]. intros Q1 Q2.
        apply nth_app in Q1 as [Q1|[-> ->]]; [|now left]. right. split; [assumption|]. cbn. congruence.
    + destruct (W v P) as (z & Tz & _). rewrite Tz. cbn [bind]. apply Fin; [discriminate|assumption|exact Logic.I].
  - destruct P as (f & Hf & Tk & Sm). unfold await. destruct (nth_error (tasks s) i) as [t|] eqn:Ht; [|apply nth_error_None in Ht; apply nth_lt in Hf; lia].
    destruct (I3 i t f Ht Hf) as [L O]. destruct L as [L1 L2 L3 L4 L5 L6]. rewrite Hf. destruct t as [r th a ps w j], f as [r' vs ru an ta]. cbn in Tk, Sm, L1, L2, L3, L4, L5, L6. subst. cbn [negb orb].
    destruct an as [v|]; [|destruct L6 as (-> & _); exists o, s; split; [reflexivity|assumption]].
    destruct L6 as (-> & Tv & w0 & -> & Q); rename w0 into w. specialize (Q eq_refl).
    assert (Fin : match w with WBlock _ => False | _ => True end -> inv o (mkst (heap s) (replace i (mktask r' true a (Some vs) (Some w) true) (tasks s)) (outs s ++ [v])) (mkideal (replace i (mkfuture r' vs true (Some v) true) (futures x)) (outs s ++ [v]))).
    { intros B. eapply inv_update; eauto.
      - split; cbn; auto. splits; auto. exists w. split; [reflexivity|]. discriminate.
      - discriminate.
      - intros q b Q1 Q2. right. split; [assumption|]. unfold own. cbn. destruct w; [discriminate|contradiction]. }
    rewrite <- I2. destruct (supported_way r' L2) as [E M W|M W|M W]; rewrite M in *.
    + rewrite W. subst r' w. assert (v = VNone) as -> by (destruct v; try contradiction Tv; reflexivity). exists o. eexists. split; [reflexivity|]. now apply Fin.
    + destruct (W variable) as [-> W2]. destruct Q as (b & -> & Hb). rewrite Hb, W2. unfold release. rewrite Hb. cbn [bind]. exists o. eexists. split; [reflexivity|].
      eapply inv_update; eauto.
      * split; cbn; auto. splits; auto. eexists. split; [reflexivity|]. discriminate.
      * discriminate.
      * rewrite length_replace. lia.
      * intros q Q1 Q2. split; [|reflexivity]. apply nth_other. intros ->. apply Q2. now apply (O b).
      * intros q k. rewrite nth_replace. destruct (Nat.eqb_spec q b) as [->|Nq]; [rewrite Hb; cbn; congruence|]. intros Q1 Q2. right. split; [assumption|]. cbn. congruence.
    + destruct (W v Tv) as (z & Tz & G). rewrite Tz in Q. injection Q as <-.
      destruct (G variable) as [[-> Fl]|[-> Fp]].
      { intros -> z' -> R. now apply Sm. }
      * rewrite Fl. cbn [bind]. exists o. eexists. split; [reflexivity|]. now apply Fin.
      * cbn [number]. rewrite Fp. exists o. eexists. split; [reflexivity|]. now apply Fin.
Qed.
Lemma run_inv es : forall o s x, inv o s x -> history decl es x -> exists o' s', run es s = Ok s' /\ inv o' s' (ideal_run es x).
Proof.
  induction es as [|e es IH]; intros o s x I H; cbn in *; [now exists o, s|]. destruct H as [P H].
  destruct (step_inv o s x e I P) as (o1 & s1 & -> & I1). cbn [bind]. eapply IH; eauto.
Qed.
End Proofs.
