(** Proofs about Forth_Model. *)
From Verif Require Import Common Forth_Model Forth_Spec.
Local Open Scope nat_scope.

Scheme word_m := Induction for word Sort Prop with words_m := Induction for words Sort Prop.
Combined Scheme word_all from word_m, words_m.
Scheme runs_i := Minimality for runs Sort Prop with runs_all_i := Minimality for runs_all Sort Prop with loops_i := Minimality for loops Sort Prop.
Combined Scheme runs_mut from runs_i, runs_all_i, loops_i.

Lemma bind_Ok' {A B} (x : res A) (k : A -> res B) v : bind x k = Ok v -> exists a, x = Ok a /\ k a = Ok v.
Proof. destruct x; cbn; try discriminate. eauto. Qed.
Lemma beq_neq a b : a <> b -> beq_bytes a b = false.
Proof. intros N. destruct (beq_bytes a b) eqn:E; [|reflexivity]. now apply beq_bytes_true in E. Qed.

(** * Tokens *)
Definition solid (t : bytes) : Prop := t <> [] /\ Forall (fun c => is_blank c = false) t.
Lemma tokens_run t p cur : Forall (fun c => is_blank c = false) t -> tokens_from (t ++ p) cur = tokens_from p (cur ++ t).
Proof.
  intros F. revert cur. induction F as [|c t E _ IH]; intros cur; cbn [app]; [now rewrite app_nil_r|].
  cbn [tokens_from]. rewrite E, IH. now rewrite <- app_assoc.
Qed.
Lemma tokens_gap gap p : Forall (fun c => is_blank c = true) gap -> tokens_from (gap ++ p) [] = tokens_from p [].
Proof. induction 1 as [|c g E _ IH]; [reflexivity|]. cbn [app tokens_from]. now rewrite E. Qed.
Lemma tokens_text gap ts : gap <> [] -> Forall (fun c => is_blank c = true) gap -> Forall solid ts -> tokens (flat_map (fun t => t ++ gap) ts) = ts.
Proof.
  intros N G F. unfold tokens. induction F as [|t ts [N1 S] _ IH]; [reflexivity|]. cbn [flat_map]. rewrite <- app_assoc, (tokens_run _ _ _ S). cbn [app].
  destruct gap as [|c gap]; [easy|]. inversion G; subst. cbn [app tokens_from]. rewrite H1. destruct t; [easy|]. f_equal. rewrite tokens_gap by assumption. exact IH.
Qed.
(** the body of a definition *)
Fixpoint joined (ts : list bytes) : bytes := match ts with [] => [] | [t] => t | t :: r => t ++ bs " " ++ joined r end.
Lemma tokens_joined ts : Forall solid ts -> tokens (joined ts) = ts.
Proof.
  intros F. unfold tokens. induction F as [|t ts [N S] _ IH]; [reflexivity|]. destruct ts as [|u ts].
  - cbn [joined]. rewrite <- (app_nil_r t) at 1. rewrite (tokens_run _ _ _ S). cbn. now destruct t.
  - change (joined (t :: u :: ts)) with (t ++ bs " " ++ joined (u :: ts)). rewrite (tokens_run _ _ _ S). cbn [app].
    change (bs " ") with [32%N]. cbn [app tokens_from]. change (is_blank 32) with true. cbv iota. destruct t; [easy|]. f_equal. exact IH.
Qed.
Lemma joined_snoc ts t : ts <> [] -> joined (ts ++ [t]) = joined ts ++ bs " " ++ t.
Proof.
  induction ts as [|u [|v ts] IH]; intros N; [easy|reflexivity|].
  change (u ++ bs " " ++ joined ((v :: ts) ++ [t]) = (u ++ bs " " ++ joined (v :: ts)) ++ bs " " ++ t). rewrite IH by easy. now rewrite <- !app_assoc.
Qed.
Lemma joined_width ts : ts <> [] -> length (joined ts) + 1 = width ts.
Proof.
  induction ts as [|u [|v ts] IH]; intros N; [easy|cbn; lia|].
  change (length (u ++ bs " " ++ joined (v :: ts)) + 1 = length u + 1 + width (v :: ts)). rewrite !app_length. change (length (bs " ")) with 1. specialize (IH ltac:(easy)). lia.
Qed.
Lemma width_app a b : width (a ++ b) = width a + width b.
Proof. induction a as [|t a IH]; cbn; [reflexivity|]. fold (width (a ++ b)). rewrite IH. fold (width a). lia. Qed.

(** * Names and numbers *)
Lemma plain_char c : letter c \/ figure c -> is_blank c = false.
Proof.
  unfold letter, figure, is_blank. intros H.
  assert (E1 : (c =? 32)%N = false) by (apply N.eqb_neq; lia). assert (E2 : (c =? 9)%N = false) by (apply N.eqb_neq; lia). assert (E3 : (c =? 10)%N = false) by (apply N.eqb_neq; lia).
  now rewrite E1, E2, E3.
Qed.
Lemma number_fold ds a : Forall figure ds -> all_digits 10 a ds = Some (a * 10 ^ Z.of_nat (length ds) + decimal ds)%Z.
Proof.
  intros F. revert a. induction F as [|c ds H _ IH]; intros a; [cbn; f_equal; lia|]. cbn [all_digits decimal length].
  assert (D : digit_in 10 c = Some (Z.of_N c - 48)%Z).
  { unfold figure in H. unfold digit_in. assert (E : ((48 <=? c) && (c <=? 57))%N = true) by (apply andb_true_iff; split; apply N.leb_le; lia). rewrite E.
    assert (L : (Z.of_N c - 48 <? 10)%Z = true) by (apply Z.ltb_lt; lia). now rewrite L. }
  rewrite D, IH. f_equal. rewrite Nat2Z.inj_succ, Z.pow_succ_r by lia. ring.
Qed.
Lemma decimal_nonneg ds : Forall figure ds -> (0 <= decimal ds)%Z.
Proof. induction 1 as [|c ds H _ IH]; cbn; [lia|]. unfold figure in H. assert (0 <= 10 ^ Z.of_nat (length ds))%Z by (apply Z.pow_nonneg; lia). nia. Qed.
Lemma number_ok (neg : bool) ds : numeral ds -> number ((if neg then bs "-" else []) ++ ds) = Some (if neg then - decimal ds else decimal ds)%Z.
Proof.
  intros (N & F & Z0 & B). pose proof (decimal_nonneg _ F) as P.
  assert (U : unsigned ds = Some (decimal ds)).
  { destruct Z0 as [E0|H]; [rewrite E0; reflexivity|]. destruct ds as [|c ds]; [easy|]. cbn [hd] in H. apply N.eqb_neq in H. cbn [unsigned]. rewrite H.
    now rewrite (number_fold _ _ F). }
  change (2 ^ 63)%Z with 9223372036854775808%Z in B.
  assert (C1 : clamp (- decimal ds) = (- decimal ds)%Z) by (unfold clamp; lia). assert (C2 : clamp (decimal ds) = decimal ds) by (unfold clamp; lia).
  destruct neg.
  - change (number ((bs "-") ++ ds)) with (option_map (fun z => clamp (- z)) (unsigned ds)). rewrite U. cbn [option_map]. now rewrite C1.
  - cbn [app]. unfold number. destruct ds as [|c ds]; [easy|]. inversion F; subst. unfold figure in H1.
    assert (E1 : (c =? 45)%N = false) by (apply N.eqb_neq; lia). assert (E2 : (c =? 43)%N = false) by (apply N.eqb_neq; lia). rewrite E1, E2, U. cbn [option_map]. now rewrite C2.
Qed.
Lemma letter_digit c : letter c -> digit_in 10 c = None.
Proof.
  intros L. unfold letter in L. unfold digit_in. assert (G : ((48 <=? c) && (c <=? 57))%N = false) by (apply andb_false_iff; destruct (N.leb_spec 48 c); [right; apply N.leb_gt; lia|now left]). rewrite G.
  destruct ((97 <=? c) && (c <=? 122))%N eqn:H1.
  - apply andb_true_iff in H1 as [H1 _]. apply N.leb_le in H1. assert (V : (Z.of_N c - 87 <? 10)%Z = false) by (apply Z.ltb_ge; lia). now rewrite V.
  - destruct ((65 <=? c) && (c <=? 90))%N eqn:H2; [|reflexivity]. apply andb_true_iff in H2 as [H2 _]. apply N.leb_le in H2.
    assert (V : (Z.of_N c - 55 <? 10)%Z = false) by (apply Z.ltb_ge; lia). now rewrite V.
Qed.
Lemma number_name x : name x -> number x = None.
Proof.
  intros ([I J]%(fun H => conj H I) & _). destruct x as [|c x]; [easy|]. destruct I as [L _]. pose proof L as L0. unfold letter in L0. unfold number, unsigned.
  assert (E1 : (c =? 45)%N = false) by (apply N.eqb_neq; lia). assert (E2 : (c =? 43)%N = false) by (apply N.eqb_neq; lia). assert (E3 : (c =? 48)%N = false) by (apply N.eqb_neq; lia).
  rewrite E1, E2, E3. cbn [all_digits].
  now rewrite (letter_digit c L).
Qed.

Definition op_texts : list bytes := map op_text [Add; Sub; Mul; Div; Mod; Shl; Shr; And; Or; Xor; Not; Eq; Gt; Lt; Choose; Dup; Drop; Swap; Rot; MRot].
Definition key_texts : list bytes := map bs ["if"; "else"; "then"; "("; "do"; "loop"; "i"; "emit"; ","]%string.
Lemma operation_none t : ~ In t op_texts -> operation t = None.
Proof.
  intros N. assert (X : forall s, In s op_texts -> beq_bytes t s = false) by (intros s H; apply beq_neq; now intros ->).
  unfold operation. rewrite !X by (unfold op_texts; cbn [map In op_text]; tauto). reflexivity.
Qed.
(** Words that start with a letter, or a digit behind an optional sign, are not operations unless listed *)
Lemma name_texts x : name x -> ~ In x op_texts /\ ~ In x key_texts /\ x <> bs ":" /\ x <> bs ";" /\ x <> bs "#end".
Proof.
  intros (I & R & _). destruct x as [|c x]; [easy|]. destruct I as [L _]. unfold letter in L.
  assert (X : forall d s, ~ (65 <= d <= 90 \/ 97 <= d <= 122 \/ d = 95)%N -> d :: s <> c :: x) by (intros d s D E; inversion E; subst; now apply D).
  assert (Y : forall s, In s reserved -> s <> c :: x) by (intros s H E; subst; contradiction).
  assert (Q : forall l, forallb (fun s => existsb (beq_bytes s) reserved || match s with d :: _ => ((d <? 65) || (122 <? d) || ((90 <? d) && (d <? 97) && negb (d =? 95)))%N | [] => true end) l = true -> ~ In (c :: x) l).
  { intros l F H. rewrite forallb_forall in F. specialize (F _ H). cbv beta in F. apply orb_true_iff in F as [G|G].
    - apply existsb_exists in G as (u & Iu & E). apply beq_bytes_true in E. rewrite E in R. contradiction.
    - rewrite !orb_true_iff, !andb_true_iff, negb_true_iff, !N.ltb_lt, N.eqb_neq in G. lia. }
  splits.
  - apply Q. vm_compute. reflexivity.
  - apply Q. vm_compute. reflexivity.
  - intros E. apply (X 58%N []); [lia|now symmetry].
  - intros E. apply (X 59%N []); [lia|now symmetry].
  - intros E. apply (X 35%N (bs "end")); [lia|now symmetry].
Qed.
Lemma num_texts (neg : bool) ds : numeral ds -> let t := (if neg then bs "-" else []) ++ ds in
  ~ In t op_texts /\ ~ In t key_texts /\ t <> bs ":" /\ t <> bs ";" /\ t <> bs "#end".
Proof.
  intros (N & F & _) t.
  assert (H : exists c, In c t /\ figure c).
  { destruct ds as [|c ds]; [easy|]. inversion F; subst. exists c. split; [|assumption]. unfold t. apply in_or_app; right. now left. }
  destruct H as (c & I & G). unfold figure in G.
  assert (Q : forall l, forallb (forallb (fun d => (d <? 48)%N || (57 <? d)%N)) l = true -> ~ In t l).
  { intros l FL J. rewrite forallb_forall in FL. specialize (FL _ J). rewrite forallb_forall in FL. specialize (FL _ I).
    rewrite orb_true_iff, !N.ltb_lt in FL. lia. }
  splits; [apply Q; vm_compute; reflexivity..| | |]; intros E.
  - apply (Q [bs ":"]); [reflexivity|now left].
  - apply (Q [bs ";"]); [reflexivity|now left].
  - apply (Q [bs "#end"]); [reflexivity|now left].
Qed.

(** * Steps *)
Section Run.
Variable dec : Z -> bytes.
Notation token := (token dec).
Notation body := (body dec).
Notation rounds := (rounds dec).
Notation process := (process dec).

Lemma mono f :
  (forall s t r v, token f s t r = Ok v -> token (S f) s t r = Ok v) /\
  (forall s ts v, body f s ts = Ok v -> body (S f) s ts = Ok v) /\
  (forall s ts i limit v, rounds f s ts i limit = Ok v -> rounds (S f) s ts i limit = Ok v).
Proof.
  induction f as [|f (IHt & IHb & IHr)]; [splits; discriminate|]. splits.
  - intros s t r v. cbn [Forth_Model.token]. fold token body rounds. destruct (operation t); [easy|].
    destruct (beq_bytes t (bs "if")); [easy|]. destruct (beq_bytes t (bs "else")); [easy|]. destruct (beq_bytes t (bs "then")); [easy|].
    destruct (beq_bytes t (bs "(")); [easy|]. destruct (beq_bytes t (bs "do")).
    { destruct (pop s) as [a s1]. destruct (pop s1) as [b s2]. destruct (loop_body r 0) as [[bd r1]|]; [|easy].
      intros H. apply bind_Ok' in H as (s3 & H1 & H2). change (bind (rounds (S f) s2 bd a b) (fun s => Ok (s, r1)) = Ok v). rewrite (IHr _ _ _ _ _ H1). exact H2. }
    destruct (beq_bytes t (bs "loop")); [easy|]. destruct (beq_bytes t (bs "i")); [easy|]. destruct (beq_bytes t (bs "emit")); [easy|].
    destruct (beq_bytes t (bs ",")); [easy|]. destruct (number t); [easy|]. destruct (find (dict s) t); [|easy].
    intros H. apply bind_Ok' in H as (s3 & H1 & H2). change (bind (body (S f) s (tokens b)) (fun s => Ok (s, r)) = Ok v). rewrite (IHb _ _ _ H1). exact H2.
  - intros s ts v. destruct ts as [|t r]; [easy|].
    change (body (S f) s (t :: r)) with (bind (token f s t r) (fun '(s, r) => body f s r)).
    change (body (S (S f)) s (t :: r)) with (bind (token (S f) s t r) (fun '(s, r) => body (S f) s r)).
    intros H. apply bind_Ok' in H as ([s1 r1] & H1 & H2). rewrite (IHt _ _ _ _ H1). cbn [bind]. now apply IHb.
  - intros s ts i limit v.
    change (rounds (S f) s ts i limit) with (if (i <? limit)%Z then if length (lps s) <? 32 then bind (body f (St (stk s) (i :: lps s) (dict s) (out s)) ts) (fun s => rounds f (St (stk s) (tl (lps s)) (dict s) (out s)) ts (i + 1)%Z limit) else Panic else Ok s).
    change (rounds (S (S f)) s ts i limit) with (if (i <? limit)%Z then if length (lps s) <? 32 then bind (body (S f) (St (stk s) (i :: lps s) (dict s) (out s)) ts) (fun s => rounds (S f) (St (stk s) (tl (lps s)) (dict s) (out s)) ts (i + 1)%Z limit) else Panic else Ok s).
    destruct (i <? limit)%Z; [|easy]. destruct (length (lps s) <? 32); [|easy].
    intros H. apply bind_Ok' in H as (s1 & H1 & H2). rewrite (IHb _ _ _ H1). cbn [bind]. now apply IHr.
Qed.
Lemma mono_le f g : f <= g ->
  (forall s t r v, token f s t r = Ok v -> token g s t r = Ok v) /\
  (forall s ts v, body f s ts = Ok v -> body g s ts = Ok v) /\
  (forall s ts i limit v, rounds f s ts i limit = Ok v -> rounds g s ts i limit = Ok v).
Proof.
  induction 1 as [|g _ (A & B & C)]; [splits; auto|]. destruct (mono g) as (A' & B' & C'). splits; intros; auto.
Qed.

Inductive reach : st -> list bytes -> st -> list bytes -> Prop :=
| reach_refl s r : reach s r s r
| reach_step f s t r s1 r1 s2 r2 : t <> bs ":" -> t <> bs "#end" -> token f s t r = Ok (s1, r1) -> reach s1 r1 s2 r2 -> reach s (t :: r) s2 r2.
Lemma reach_trans s r s1 r1 s2 r2 : reach s r s1 r1 -> reach s1 r1 s2 r2 -> reach s r s2 r2.
Proof. induction 1; [easy|]. intros H3. econstructor; eauto. Qed.
Lemma reach_one f s t r s1 r1 : t <> bs ":" -> t <> bs "#end" -> token f s t r = Ok (s1, r1) -> reach s (t :: r) s1 r1.
Proof. intros. econstructor; eauto. constructor. Qed.
Lemma reach_body s ts s1 r1 : reach s ts s1 r1 -> forall g s2, body g s1 r1 = Ok s2 -> exists f, body f s ts = Ok s2.
Proof.
  induction 1 as [s r|f s t r s1 r1 s2 r2 _ _ T _ IH]; intros g s3 H; [eauto|]. destruct (IH _ _ H) as (k & K).
  exists (S (f + k)). change (bind (token (f + k) s t r) (fun '(s, r) => body (f + k) s r) = Ok s3).
  rewrite (proj1 (mono_le f (f + k) ltac:(lia)) _ _ _ _ T). cbn [bind]. exact (proj1 (proj2 (mono_le k (f + k) ltac:(lia))) _ _ _ K).
Qed.
Lemma reach_whole s ts s1 : reach s ts s1 [] -> exists f, body f s ts = Ok s1.
Proof. intros R. exact (reach_body _ _ _ _ R 1 s1 eq_refl). Qed.

(** ** One word *)
Definition mk (l lp : list Z) d o := St l lp d o.
Lemma push_ok v l lp d o : length l < 256 -> push v (mk l lp d o) = mk (v :: l) lp d o.
Proof. intros H. unfold push, mk. cbn [stk]. apply Nat.ltb_lt in H. now rewrite H. Qed.
Lemma write_ok t l lp d o : (Z.of_nat (length (o ++ t)) < 8192)%Z -> write t (mk l lp d o) = Ok (mk l lp d (o ++ t)).
Proof. intros H. unfold write, mk. cbn [out stk lps dict]. rewrite app_length in H. apply Z.ltb_lt in H. now rewrite H. Qed.
Lemma in_long_ok z : in_long z = true -> long z = Ok z.
Proof.
  unfold in_long, long. change (2 ^ 63)%Z with 9223372036854775808%Z. rewrite andb_true_iff. intros [A B].
  apply Z.leb_le in A. apply Z.ltb_lt in B.
  assert (E1 : (-9223372036854775808 <=? z)%Z = true) by (apply Z.leb_le; lia). assert (E2 : (z <=? 9223372036854775807)%Z = true) by (apply Z.leb_le; lia). now rewrite E1, E2.
Qed.
Lemma result_ok z l l' : result z l = Some l' -> in_long z = true /\ l' = z :: l.
Proof. unfold result. destruct (in_long z); [|discriminate]. intros H. injection H as <-. now split. Qed.
Lemma two_ok f a b v l lp d o : f a b = Ok v -> length l < 256 -> two f (mk (b :: a :: l) lp d o) = Ok (mk (v :: l) lp d o).
Proof.
  intros F H. unfold two, pop, mk. cbn [stk with_stk lps dict out]. rewrite F. cbn [bind]. f_equal. now apply (push_ok v l lp d o).
Qed.
Lemma op_ok p l l' lp d o : op_value p l = Some l' -> length l' <= 256 ->
  exists f, operation (op_text p) = Some f /\ f (mk l lp d o) = Ok (mk l' lp d o).
Proof.
  intros H B. destruct p; (eexists; split; [reflexivity|]).
  1-3: destruct l as [|b [|a l]]; try discriminate H; cbn [op_value] in H; apply result_ok in H as [H ->]; cbn [length] in B; apply two_ok; [now apply in_long_ok|lia].
  - destruct l as [|b [|a l]]; try discriminate H; cbn [op_value] in H. destruct (b =? 0)%Z eqn:Z0; [discriminate|]. apply result_ok in H as [H ->]. cbn [length] in B.
    unfold divided, pop, mk. cbn [stk with_stk lps dict out]. rewrite Z0. cbn [stk with_stk lps dict out]. rewrite (in_long_ok _ H). cbn [bind]. f_equal. apply (push_ok _ l lp d o). lia.
  - destruct l as [|b [|a l]]; try discriminate H; cbn [op_value] in H. destruct (b =? 0)%Z eqn:Z0; [discriminate|]. cbn [orb] in H. destruct (in_long (Z.quot a b)) eqn:IL; [|discriminate]. injection H as <-. cbn [length] in B.
    unfold divided, pop, mk. cbn [stk with_stk lps dict out]. rewrite Z0. cbn [stk with_stk lps dict out]. rewrite (in_long_ok _ IL). cbn [bind]. f_equal. apply (push_ok _ l lp d o). lia.
  - destruct l as [|b [|a l]]; try discriminate H; cbn [op_value] in H. destruct ((0 <=? a)%Z && (0 <=? b)%Z && (b <? 64)%Z) eqn:E; [|discriminate]. apply result_ok in H as [H ->]. cbn [length] in B.
    apply two_ok; [|lia]. unfold shift_left. rewrite E. rewrite Z.shiftl_mul_pow2; [now apply in_long_ok|]. apply andb_true_iff in E as [E _]. apply andb_true_iff in E as [_ E]. now apply Z.leb_le.
  - destruct l as [|b [|a l]]; try discriminate H; cbn [op_value] in H. destruct ((0 <=? b)%Z && (b <? 64)%Z) eqn:E; [|discriminate]. injection H as <-. cbn [length] in B.
    apply two_ok; [|lia]. unfold shift_right. rewrite E. rewrite Z.shiftr_div_pow2; [reflexivity|]. apply andb_true_iff in E as [E _]. now apply Z.leb_le.
  - destruct l as [|b [|a l]]; try discriminate H; injection H as <-; cbn [length] in B. apply two_ok; [reflexivity|lia].
  - destruct l as [|b [|a l]]; try discriminate H; injection H as <-; cbn [length] in B. apply two_ok; [reflexivity|lia].
  - destruct l as [|b [|a l]]; try discriminate H; injection H as <-; cbn [length] in B. apply two_ok; [reflexivity|lia].
  - destruct l as [|a l]; try discriminate H. cbn [op_value] in H. assert (E : l' = Z.lnot a :: l) by (unfold Z.lnot, Z.pred; replace (- a + -1)%Z with (- a - 1)%Z by lia; congruence). subst l'. cbn [length] in B.
    unfold pop, with_stk, mk. cbn [stk lps dict out]. f_equal. apply (push_ok _ l lp d o). lia.
  - destruct l as [|b [|a l]]; try discriminate H; injection H as <-; cbn [length] in B. apply two_ok; [reflexivity|lia].
  - destruct l as [|b [|a l]]; try discriminate H; injection H as <-; cbn [length] in B. apply two_ok; [now rewrite Z.gtb_ltb|lia].
  - destruct l as [|b [|a l]]; try discriminate H; injection H as <-; cbn [length] in B. apply two_ok; [reflexivity|lia].
  - destruct l as [|f [|t [|c l]]]; try discriminate H; injection H as <-; cbn [length] in B. unfold pop, with_stk, mk. cbn [stk lps dict out]. f_equal. apply (push_ok _ l lp d o). lia.
  - destruct l as [|a l]; try discriminate H; injection H as <-; cbn [length] in B. f_equal. apply push_ok. cbn [length]. lia.
  - destruct l as [|a l]; try discriminate H; injection H as <-; cbn [length] in B. reflexivity.
  - destruct l as [|b [|a l]]; try discriminate H; injection H as <-; cbn [length] in B. unfold pop, with_stk, mk. cbn [stk lps dict out].
    fold (mk l lp d o). rewrite push_ok by lia. rewrite push_ok by (cbn [length]; lia). reflexivity.
  - destruct l as [|c [|b [|a l]]]; try discriminate H; injection H as <-; cbn [length] in B. unfold pop, with_stk, mk. cbn [stk lps dict out].
    fold (mk l lp d o). rewrite push_ok by lia. rewrite push_ok by (cbn [length]; lia). rewrite push_ok by (cbn [length]; lia). reflexivity.
  - destruct l as [|c [|b [|a l]]]; try discriminate H; injection H as <-; cbn [length] in B. unfold pop, with_stk, mk. cbn [stk lps dict out].
    fold (mk l lp d o). rewrite push_ok by lia. rewrite push_ok by (cbn [length]; lia). rewrite push_ok by (cbn [length]; lia). reflexivity.
Qed.

(** ** The tokens of a program *)
Lemma op_not_marker o : op_text o <> bs ":" /\ op_text o <> bs "#end" /\ op_text o <> bs "then" /\ op_text o <> bs "else" /\ op_text o <> bs "loop" /\ op_text o <> bs "do" /\ op_text o <> bs ";".
Proof. destruct o; splits; discriminate. Qed.
Lemma no_if_tokens :
  (forall w, no_if w -> well_formed w -> Forall (fun t => t <> bs "then" /\ t <> bs "else") (spelled w)) /\
  (forall ws, no_if_all ws -> well_formed_all ws -> Forall (fun t => t <> bs "then" /\ t <> bs "else") (spelled_all ws)).
Proof.
  apply word_all; try (intros; now (repeat constructor; discriminate)); try easy.
  - intros neg ds _ N. constructor; [|constructor]. destruct (num_texts neg ds N) as (_ & K & _). split; intros E; apply K; rewrite E; unfold key_texts; cbn [map In]; tauto.
  - intros o _ _. constructor; [|constructor]. destruct (op_not_marker o) as (_ & _ & A & B & _). now split.
  - intros a IH Na Wa. change (spelled (Do a)) with (bs "do" :: spelled_all a ++ [bs "loop"]). constructor; [split; discriminate|].
    apply Forall_app; split; [now apply IH|]. repeat constructor; discriminate.
  - intros x _ N. constructor; [|constructor]. destruct (name_texts x N) as (_ & K & _). split; intros E; apply K; rewrite E; unfold key_texts; cbn [map In]; tauto.
  - intros w IHw ws IHs [N1 N2] [W1 W2]. change (spelled_all (WCons w ws)) with (spelled w ++ spelled_all ws). apply Forall_app; split; auto.
Qed.
Lemma skip_over ts r stop u : Forall (fun t => stop t = false) ts -> stop u = true -> skip_until (ts ++ u :: r) stop = r.
Proof. induction 1 as [|t ts E _ IH]; intros S; cbn [app skip_until]; [now rewrite S|]. rewrite E. auto. Qed.
Lemma loop_body_spelled :
  (forall w, well_formed w -> forall r d, loop_body (spelled w ++ r) d = option_map (fun '(a, b) => (spelled w ++ a, b)) (loop_body r d)) /\
  (forall ws, well_formed_all ws -> forall r d, loop_body (spelled_all ws ++ r) d = option_map (fun '(a, b) => (spelled_all ws ++ a, b)) (loop_body r d)).
Proof.
  assert (One : forall t, t <> bs "loop" -> t <> bs "do" -> forall r d, loop_body ([t] ++ r) d = option_map (fun '(a, b) => ([t] ++ a, b)) (loop_body r d)).
  { intros t A B r d. cbn [app loop_body]. now rewrite (beq_neq _ _ A), (beq_neq _ _ B). }
  assert (Tr : forall a b, (forall r d, loop_body (a ++ r) d = option_map (fun '(x, y) => (a ++ x, y)) (loop_body r d)) ->
                           (forall r d, loop_body (b ++ r) d = option_map (fun '(x, y) => (b ++ x, y)) (loop_body r d)) ->
                           forall r d, loop_body ((a ++ b) ++ r) d = option_map (fun '(x, y) => ((a ++ b) ++ x, y)) (loop_body r d)).
  { intros a b A B r d. rewrite <- app_assoc, A, B. destruct (loop_body r d) as [[x y]|]; [|reflexivity]. cbn [option_map]. now rewrite <- app_assoc. }
  apply word_all; try (intros; apply One; discriminate).
  - intros neg ds N. destruct (num_texts neg ds N) as (_ & K & _). apply One; intros E; apply K; rewrite E; unfold key_texts; cbn [map In]; tauto.
  - intros o _. destruct (op_not_marker o) as (_ & _ & _ & _ & A & B & _). now apply One.
  - intros a IH [_ W]. change (spelled (If a)) with ([bs "if"] ++ spelled_all a ++ [bs "then"]). repeat apply Tr; try (apply One; discriminate). now apply IH.
  - intros a IHa b IHb (_ & Wa & _ & Wb). change (spelled (IfElse a b)) with ([bs "if"] ++ spelled_all a ++ [bs "else"] ++ spelled_all b ++ [bs "then"]).
    repeat apply Tr; try (apply One; discriminate); [now apply IHa|now apply IHb].
  - intros a IH W r d. change (spelled (Do a) ++ r) with (bs "do" :: (spelled_all a ++ [bs "loop"]) ++ r). rewrite <- app_assoc.
    change (loop_body (bs "do" :: spelled_all a ++ [bs "loop"] ++ r) d) with (option_map (fun '(x, y) => (bs "do" :: x, y)) (loop_body (spelled_all a ++ [bs "loop"] ++ r) (S d))).
    rewrite (IH W). change (loop_body ([bs "loop"] ++ r) (S d)) with (option_map (fun '(x, y) => (bs "loop" :: x, y)) (loop_body r d)).
    destruct (loop_body r d) as [[x y]|]; [|reflexivity]. cbn [option_map]. change (spelled (Do a)) with (bs "do" :: spelled_all a ++ [bs "loop"]). cbn [app]. now rewrite <- app_assoc.
  - intros x N. destruct (name_texts x N) as (_ & K & _). apply One; intros E; apply K; rewrite E; unfold key_texts; cbn [map In]; tauto.
  - intros _ r d. cbn. now destruct (loop_body r d) as [[? ?]|].
  - intros w IHw ws IHs [W1 W2]. change (spelled_all (WCons w ws)) with (spelled w ++ spelled_all ws). apply Tr; auto.
Qed.

Lemma solid_op o : solid (op_text o).
Proof. destruct o; (split; [discriminate|repeat constructor]). Qed.
Lemma solid_name x : name x -> solid x.
Proof.
  intros (I & _). destruct x as [|c x]; [easy|]. destruct I as [L F]. split; [easy|]. constructor; [apply plain_char; now left|].
  eapply Forall_impl; [|exact F]. intros d. apply plain_char.
Qed.
Lemma solid_num (neg : bool) ds : numeral ds -> solid ((if neg then bs "-" else []) ++ ds).
Proof.
  intros (N & F & _). split; [destruct neg; [discriminate|exact N]|]. apply Forall_app; split; [destruct neg; repeat constructor|].
  eapply Forall_impl; [|exact F]. intros d H. apply plain_char. now right.
Qed.
Lemma solid_spelled :
  (forall w, well_formed w -> Forall (fun t => solid t /\ t <> bs ";" /\ t <> bs ":" /\ t <> bs "#end") (spelled w)) /\
  (forall ws, well_formed_all ws -> Forall (fun t => solid t /\ t <> bs ";" /\ t <> bs ":" /\ t <> bs "#end") (spelled_all ws)).
Proof.
  assert (C : forall s, solid s -> s <> bs ";" -> s <> bs ":" -> s <> bs "#end" -> Forall (fun t => solid t /\ t <> bs ";" /\ t <> bs ":" /\ t <> bs "#end") [s]) by (intros; constructor; [tauto|constructor]).
  assert (K : forall s, In s key_texts -> Forall (fun t => solid t /\ t <> bs ";" /\ t <> bs ":" /\ t <> bs "#end") [s]).
  { intros s H. apply C; (repeat destruct H as [<-|H]; [..|easy]); try discriminate; (split; [discriminate|repeat constructor]). }
  apply word_all; try (intros; apply K; unfold key_texts; cbn [map In]; tauto).
  - intros neg ds N. destruct (num_texts neg ds N) as (_ & _ & A & B & D). apply C; auto. now apply solid_num.
  - intros o _. destruct (op_not_marker o) as (A & B & _ & _ & _ & _ & D). apply C; auto. apply solid_op.
  - intros a IH [_ W]. change (spelled (If a)) with ([bs "if"] ++ spelled_all a ++ [bs "then"]). repeat (apply Forall_app; split); try (apply K; unfold key_texts; cbn [map In]; tauto). now apply IH.
  - intros a IHa b IHb (_ & Wa & _ & Wb). change (spelled (IfElse a b)) with ([bs "if"] ++ spelled_all a ++ [bs "else"] ++ spelled_all b ++ [bs "then"]).
    repeat (apply Forall_app; split); try (apply K; unfold key_texts; cbn [map In]; tauto); [now apply IHa|now apply IHb].
  - intros a IH W. change (spelled (Do a)) with ([bs "do"] ++ spelled_all a ++ [bs "loop"]). repeat (apply Forall_app; split); try (apply K; unfold key_texts; cbn [map In]; tauto). now apply IH.
  - intros x N. destruct (name_texts x N) as (_ & _ & A & B & D). apply C; auto. now apply solid_name.
  - intros; constructor.
  - intros w IHw ws IHs [W1 W2]. change (spelled_all (WCons w ws)) with (spelled w ++ spelled_all ws). apply Forall_app; split; auto.
Qed.

(** ** Running *)
Definition known (d : list (bytes * bytes)) (defs : bytes -> option words) : Prop :=
  forall x ws, defs x = Some ws -> find d x = Some (joined (spelled_all ws)) /\ well_formed_all ws.
Lemma token_key f s t r : operation t = None -> ~ In t key_texts -> number t = None -> token (S f) s t r =
  match find (dict s) t with Some b => bind (body f s (tokens b)) (fun s => Ok (s, r)) | None => bind (write (t ++ bs " ") s) (fun s => Ok (s, r)) end.
Proof.
  intros O K N. assert (X : forall k, In k key_texts -> beq_bytes t k = false) by (intros k H; apply beq_neq; now intros ->).
  cbn [Forth_Model.token]. rewrite O. rewrite !X by (unfold key_texts; cbn [map In]; tauto). rewrite N. reflexivity.
Qed.
Lemma token_num f s t r v : operation t = None -> ~ In t key_texts -> number t = Some v -> token (S f) s t r = Ok (push v s, r).
Proof.
  intros O K N. assert (X : forall k, In k key_texts -> beq_bytes t k = false) by (intros k H; apply beq_neq; now intros ->).
  cbn [Forth_Model.token]. rewrite O. rewrite !X by (unfold key_texts; cbn [map In]; tauto). rewrite N. reflexivity.
Qed.
Lemma step_op t f r s s1 : operation t = Some f -> f s = Ok s1 -> token 1 s t r = Ok (s1, r).
Proof. intros O F. cbn [Forth_Model.token]. rewrite O, F. reflexivity. Qed.

Lemma sim d defs : known d defs ->
  (forall lp l o w l' o', runs dec defs lp l o w l' o' -> well_formed w -> forall r, reach (mk l lp d o) (spelled w ++ r) (mk l' lp d o') r) /\
  (forall lp l o ws l' o', runs_all dec defs lp l o ws l' o' -> well_formed_all ws -> forall r, reach (mk l lp d o) (spelled_all ws ++ r) (mk l' lp d o') r) /\
  (forall lp i limit l o a l' o', loops dec defs lp i limit l o a l' o' -> well_formed_all a -> exists f, rounds f (mk l lp d o) (spelled_all a ++ [bs "loop"]) i limit = Ok (mk l' lp d o')).
Proof.
  intros KD. apply runs_mut.
  - intros lp l o neg ds B N r. destruct (num_texts neg ds N) as (A & K & C1 & _ & C2).
    apply (reach_one 1); auto. rewrite (token_num 0 _ _ _ _ (operation_none _ A) K (number_ok neg ds N)). now rewrite push_ok.
  - intros lp l o p l' H B _ r. destruct (op_ok p l l' lp d o H B) as (f & F1 & F2). destruct (op_not_marker p) as (A1 & A2 & _).
    apply (reach_one 1); auto. exact (step_op _ _ _ _ _ F1 F2).
  - intros lp l o a [N W] r. change (spelled (If a) ++ r) with (bs "if" :: (spelled_all a ++ [bs "then"]) ++ r). rewrite <- app_assoc. cbn [app].
    apply (reach_one 1); try discriminate.
    change (token 1 (mk (0%Z :: l) lp d o) (bs "if") (spelled_all a ++ bs "then" :: r)) with
      (Ok (mk l lp d o, skip_until (spelled_all a ++ bs "then" :: r) (fun t => beq_bytes t (bs "then") || beq_bytes t (bs "else")))).
    rewrite skip_over; [reflexivity| |reflexivity]. eapply Forall_impl; [|apply (proj2 no_if_tokens a N W)]. intros t [A B]. now rewrite (beq_neq _ _ A), (beq_neq _ _ B).
  - intros lp c l o a l' o' C _ IH [N W] r. change (spelled (If a) ++ r) with (bs "if" :: (spelled_all a ++ [bs "then"]) ++ r). rewrite <- app_assoc. cbn [app].
    eapply reach_step with (f := 1); try discriminate.
    + apply Z.eqb_neq in C.
      change (token 1 (mk (c :: l) lp d o) (bs "if") (spelled_all a ++ bs "then" :: r)) with
        (Ok (mk l lp d o, if (c =? 0)%Z then skip_until (spelled_all a ++ bs "then" :: r) (fun t => beq_bytes t (bs "then") || beq_bytes t (bs "else")) else spelled_all a ++ bs "then" :: r)).
      rewrite C. reflexivity.
    + eapply reach_trans; [apply (IH W)|]. now apply (reach_one 1).
  - intros lp l o a b l' o' _ IH (N & W & N2 & W2) r. change (spelled (IfElse a b) ++ r) with (bs "if" :: (spelled_all a ++ bs "else" :: spelled_all b ++ [bs "then"]) ++ r).
    rewrite <- app_assoc. cbn [app]. rewrite <- app_assoc. cbn [app].
    eapply reach_step with (f := 1); try discriminate.
    + change (token 1 (mk (0%Z :: l) lp d o) (bs "if") (spelled_all a ++ bs "else" :: spelled_all b ++ bs "then" :: r)) with
        (Ok (mk l lp d o, skip_until (spelled_all a ++ bs "else" :: spelled_all b ++ bs "then" :: r) (fun t => beq_bytes t (bs "then") || beq_bytes t (bs "else")))).
      rewrite skip_over; [reflexivity| |reflexivity]. eapply Forall_impl; [|apply (proj2 no_if_tokens a N W)]. intros t [A B]. now rewrite (beq_neq _ _ A), (beq_neq _ _ B).
    + eapply reach_trans; [apply (IH W2)|]. now apply (reach_one 1).
  - intros lp c l o a b l' o' C _ IH (N & W & N2 & W2) r. change (spelled (IfElse a b) ++ r) with (bs "if" :: (spelled_all a ++ bs "else" :: spelled_all b ++ [bs "then"]) ++ r).
    rewrite <- app_assoc. cbn [app]. rewrite <- app_assoc. cbn [app].
    eapply reach_step with (f := 1); try discriminate.
    + apply Z.eqb_neq in C.
      change (token 1 (mk (c :: l) lp d o) (bs "if") (spelled_all a ++ bs "else" :: spelled_all b ++ bs "then" :: r)) with
        (Ok (mk l lp d o, if (c =? 0)%Z then skip_until (spelled_all a ++ bs "else" :: spelled_all b ++ bs "then" :: r) (fun t => beq_bytes t (bs "then") || beq_bytes t (bs "else")) else spelled_all a ++ bs "else" :: spelled_all b ++ bs "then" :: r)).
      rewrite C. reflexivity.
    + eapply reach_trans; [apply (IH W)|]. apply (reach_one 1); try discriminate.
      change (token 1 (mk l' lp d o') (bs "else") (spelled_all b ++ bs "then" :: r)) with (Ok (mk l' lp d o', skip_until (spelled_all b ++ bs "then" :: r) (fun t => beq_bytes t (bs "then")))).
      rewrite skip_over; [reflexivity| |reflexivity]. eapply Forall_impl; [|apply (proj2 no_if_tokens b N2 W2)]. intros t [A B]. now apply beq_neq.
  - intros lp start limit l o a l' o' _ IH W r. destruct (IH W) as (f & F). change (spelled (Do a) ++ r) with (bs "do" :: (spelled_all a ++ [bs "loop"]) ++ r). rewrite <- app_assoc. cbn [app].
    apply (reach_one (S f)); try discriminate.
    change (token (S f) (mk (start :: limit :: l) lp d o) (bs "do") (spelled_all a ++ bs "loop" :: r)) with
      (match loop_body (spelled_all a ++ bs "loop" :: r) 0 with None => Panic | Some (bd, r) => bind (rounds f (mk l lp d o) bd start limit) (fun s => Ok (s, r)) end).
    rewrite (proj2 loop_body_spelled a W). cbn [loop_body]. change (beq_bytes (bs "loop") (bs "loop")) with true. cbv iota. cbn [option_map].
    rewrite F. reflexivity.
  - intros i lp l o B _ r. apply (reach_one 1); try discriminate.
    change (token 1 (mk l (i :: lp) d o) (bs "i") r) with (Ok (push i (mk l (i :: lp) d o), r)). now rewrite push_ok.
  - intros lp v l o B _ r. apply (reach_one 1); try discriminate.
    change (token 1 (mk (v :: l) lp d o) (bs "emit") r) with (bind (write (dec v) (mk l lp d o)) (fun s => Ok (s, r))). now rewrite write_ok.
  - intros lp l o B _ r. apply (reach_one 1); try discriminate.
    change (token 1 (mk l lp d o) (bs ",") r) with (bind (write (bs ", ") (mk l lp d o)) (fun s => Ok (s, r))). now rewrite write_ok.
  - intros lp l o x ws l' o' D _ IH N r. destruct (KD _ _ D) as [F W]. destruct (name_texts x N) as (A & K & C1 & _ & C2).
    specialize (IH W []). rewrite app_nil_r in IH. destruct (reach_whole _ _ _ IH) as (f & B).
    apply (reach_one (S f)); auto. rewrite (token_key f _ _ _ (operation_none _ A) K (number_name _ N)). cbn [mk dict]. rewrite F.
    rewrite tokens_joined. { fold (mk l lp d o). rewrite B. reflexivity. }
    eapply Forall_impl; [|apply (proj2 solid_spelled ws W)]. now intros t [S _].
  - intros lp l o _ r. constructor.
  - intros lp l o w ws l1 o1 l2 o2 _ IH1 _ IH2 [W1 W2] r. change (spelled_all (WCons w ws)) with (spelled w ++ spelled_all ws). rewrite <- app_assoc.
    eapply reach_trans; [apply (IH1 W1)|apply (IH2 W2)].
  - intros lp i limit l o a H _. exists 1. cbn [Forth_Model.rounds]. apply Z.ltb_ge in H. now rewrite H.
  - intros lp i limit l o a l1 o1 l2 o2 H B _ IH1 _ IH2 W. destruct (IH2 W) as (g & G). specialize (IH1 W [bs "loop"]).
    destruct (reach_body _ _ _ _ IH1 2 (mk l1 (i :: lp) d o1) eq_refl) as (f & F).
    exists (S (f + g)). apply Z.ltb_lt in H. apply Nat.ltb_lt in B.
    change (rounds (S (f + g)) (mk l lp d o) (spelled_all a ++ [bs "loop"]) i limit) with
      (if (i <? limit)%Z then if length lp <? 32 then bind (body (f + g) (mk l (i :: lp) d o) (spelled_all a ++ [bs "loop"])) (fun s => rounds (f + g) (St (stk s) (tl (lps s)) (dict s) (out s)) (spelled_all a ++ [bs "loop"]) (i + 1)%Z limit) else Panic else Ok (mk l lp d o)).
    rewrite H, B. rewrite (proj1 (proj2 (mono_le f (f + g) ltac:(lia))) _ _ _ F). cbn [bind mk stk lps dict out tl].
    exact (proj2 (proj2 (mono_le g (f + g) ltac:(lia))) _ _ _ _ _ G).
Qed.

(** ** A program *)
Lemma process_step f s m t r : process (S f) s m (t :: r) =
  if beq_bytes t (bs "#end") then Ok s
  else match m with
       | Plain => if beq_bytes t (bs ":") then process f s Name r else bind (token f s t r) (fun '(s, r) => process f s Plain r)
       | Name => process f s (Body (firstn 31 t) []) r
       | Body n b => if beq_bytes t (bs ";") then process f (if length (dict s) <? 128 then St (stk s) (lps s) ((n, b) :: dict s) (out s) else s) Plain r
                     else bind (add_token b t) (fun b => process f s (Body n b) r)
       end.
Proof. reflexivity. Qed.
Lemma process_mono f : forall s m ts v, process f s m ts = Ok v -> process (S f) s m ts = Ok v.
Proof.
  induction f as [|f IH]; [discriminate|]. intros s m ts v. destruct ts as [|t r]; [easy|].
  rewrite !process_step. destruct (beq_bytes t (bs "#end")); [easy|]. destruct m.
  - destruct (beq_bytes t (bs ":")); [apply IH|]. intros H. apply bind_Ok' in H as ([s1 r1] & H1 & H2).
    rewrite (proj1 (mono f) _ _ _ _ H1). cbn [bind]. now apply IH.
  - apply IH.
  - destruct (beq_bytes t (bs ";")); [apply IH|]. intros H. apply bind_Ok' in H as (b & H1 & H2). rewrite H1. cbn [bind]. now apply IH.
Qed.
Lemma process_le f g s m ts v : f <= g -> process f s m ts = Ok v -> process g s m ts = Ok v.
Proof. induction 1; auto. intros. apply process_mono. auto. Qed.
Lemma reach_process s ts s1 r1 : reach s ts s1 r1 -> forall g v, process g s1 Plain r1 = Ok v -> exists f, process f s Plain ts = Ok v.
Proof.
  induction 1 as [s r|f s t r s1 r1 s2 r2 N1 N2 T _ IH]; intros g v H; [eauto|]. destruct (IH _ _ H) as (k & K).
  exists (S (f + k)). rewrite process_step. rewrite (beq_neq _ _ N2), (beq_neq _ _ N1).
  rewrite (proj1 (mono_le f (f + k) ltac:(lia)) _ _ _ _ T). cbn [bind]. now apply (process_le k (f + k)); [lia|].
Qed.
Lemma define_body ts : forall done n s r v g, Forall (fun t => solid t /\ t <> bs ";" /\ t <> bs ":" /\ t <> bs "#end") ts -> Forall solid done ->
  width (done ++ ts) <= 512 ->
  process g (if length (dict s) <? 128 then St (stk s) (lps s) ((n, joined (done ++ ts)) :: dict s) (out s) else s) Plain r = Ok v ->
  process (g + S (length ts)) s (Body n (joined done)) (ts ++ bs ";" :: r) = Ok v.
Proof.
  induction ts as [|t ts IH]; intros done n s r v g F D Wd H.
  - rewrite app_nil_r in H. rewrite Nat.add_1_r. exact H.
  - inversion F as [|? ? (S1 & A & B & C) F']; subst. replace (g + S (length (t :: ts))) with (S (g + S (length ts))) by (cbn [length]; lia).
    cbn [app]. rewrite process_step. rewrite (beq_neq _ _ C), (beq_neq _ _ A).
    rewrite width_app in Wd. cbn [width fold_right] in Wd. fold (width ts) in Wd.
    assert (E : add_token (joined done) t = Ok (joined (done ++ [t]))).
    { unfold add_token. destruct done as [|u done].
      - cbn [joined app length]. cbn [Nat.ltb Nat.leb andb]. assert (L : (length ([] : bytes) + length t <? 512) = true) by (apply Nat.ltb_lt; cbn [length]; lia).
        change (Ok (if length ([] : bytes) + length t <? 512 then [] ++ t else []) = Ok t). now rewrite L.
      - pose proof (joined_width (u :: done) ltac:(easy)) as J.
        assert (P : 0 < length (joined (u :: done))).
        { inversion D as [|? ? [Nu _] _]; subst. destruct done; cbn [joined]; [destruct u; [easy|cbn; lia]|]. rewrite app_length. destruct u; [easy|cbn [length]; lia]. }
        assert (E1 : (0 <? length (joined (u :: done))) = true) by (apply Nat.ltb_lt; exact P).
        assert (E2 : (length (joined (u :: done)) =? 511) = false) by (apply Nat.eqb_neq; lia).
        rewrite E1, E2. cbn [andb]. rewrite joined_snoc by easy.
        assert (L : (length (joined (u :: done) ++ bs " ") + length t <? 512) = true) by (apply Nat.ltb_lt; rewrite app_length; change (length (bs " ")) with 1; lia).
        rewrite L. now rewrite <- app_assoc. }
    rewrite E. cbn [bind]. apply IH; [exact F'| | |].
    + apply Forall_app; split; [exact D|]. repeat constructor; apply S1.
    + rewrite <- app_assoc. cbn [app]. rewrite width_app. cbn [width fold_right]. fold (width ts). lia.
    + rewrite <- app_assoc. exact H.
Qed.
Lemma known_define d defs x ws : known d defs -> defs x = None -> well_formed_all ws -> known ((x, joined (spelled_all ws)) :: d) (define x ws defs).
Proof.
  intros K N W y us. unfold define. cbn [find]. destruct (list_eq_dec N.eq_dec y x) as [->|D].
  - intros H. injection H as <-. now rewrite beq_bytes_refl.
  - intros H. rewrite beq_neq by congruence. now apply K.
Qed.
Lemma program_ok defs l o p l' o' : program dec defs l o p l' o' -> forall d, known d defs -> Forall good_item p -> length d + definitions p <= 128 ->
  exists f d', process f (mk l [] d o) Plain (flat_map spelled_item p) = Ok (mk l' [] d' o').
Proof.
  induction 1 as [defs l o|defs l o x ws p l' o' N _ IH|defs l o w p l1 o1 l' o' R _ IH]; intros d K G B.
  - exists 1, d. reflexivity.
  - apply Forall_cons_iff in G as [(Nx & W & Fi) G']. cbn [definitions] in B.
    destruct (IH _ (known_define d defs x ws K N W) G') as (f & d' & F); [cbn [length]; lia|].
    exists (S (S (f + S (length (spelled_all ws))))), d'. cbn [flat_map spelled_item app]. rewrite <- app_assoc. cbn [app].
    destruct (name_texts x Nx) as (_ & _ & _ & _ & E).
    change (process (S (S (f + S (length (spelled_all ws))))) (mk l [] d o) Plain (bs ":" :: x :: spelled_all ws ++ bs ";" :: flat_map spelled_item p)) with
      (if beq_bytes x (bs "#end") then Ok (mk l [] d o) else process (f + S (length (spelled_all ws))) (mk l [] d o) (Body (firstn 31 x) []) (spelled_all ws ++ bs ";" :: flat_map spelled_item p)).
    rewrite (beq_neq _ _ E). destruct Nx as (_ & _ & Lx). rewrite firstn_all2 by exact Lx.
    apply (define_body _ []); [exact (proj2 solid_spelled ws W)|constructor|exact Fi|]. cbn [app mk stk lps dict out].
    assert (E2 : (length d <? 128) = true) by (apply Nat.ltb_lt; lia). rewrite E2. exact F.
  - apply Forall_cons_iff in G as [W G']. cbn [definitions] in B. destruct (IH d K G' B) as (f & d' & F).
    cbn [flat_map spelled_item]. pose proof (proj1 (sim d defs K) _ _ _ _ _ _ R W (flat_map spelled_item p)) as Q.
    destruct (reach_process _ _ _ _ Q _ _ F) as (g & Gq). now exists g, d'.
Qed.
Lemma solid_program p : Forall good_item p -> Forall solid (flat_map spelled_item p).
Proof.
  induction 1 as [|i p G _ IH]; [constructor|]. cbn [flat_map]. apply Forall_app; split; [|exact IH]. destruct i as [x ws|w].
  - destruct G as (N & W & _). cbn [spelled_item]. repeat (apply Forall_app; split).
    + constructor; [split; [discriminate|repeat constructor]|]. constructor; [now apply solid_name|constructor].
    + eapply Forall_impl; [|apply (proj2 solid_spelled ws W)]. now intros t [S _].
    + constructor; [split; [discriminate|repeat constructor]|constructor].
  - eapply Forall_impl; [|apply (proj1 solid_spelled w G)]. now intros t [S _].
Qed.
Lemma layout_blank gap : layout gap -> gap <> [] /\ Forall (fun c => is_blank c = true) gap.
Proof. intros [N F]. split; [exact N|]. eapply Forall_impl; [|exact F]. intros c [->|[->| ->]]; reflexivity. Qed.
Lemma block_ok gap p l o : layout gap -> Forall good_item p -> definitions p <= 128 -> program dec none [] [] p l o ->
  exists f d, block dec f fresh (text gap p) = Ok (St l [] d o).
Proof.
  intros L G B P. destruct (layout_blank _ L) as [N F]. unfold block, text. rewrite (tokens_text gap _ N F (solid_program p G)).
  destruct (program_ok _ _ _ _ _ _ P [] ltac:(easy) G ltac:(cbn [length]; lia)) as (f & d & H). exists f, d. exact H.
Qed.
End Run.
