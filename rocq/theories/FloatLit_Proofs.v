From Coq Require Import QArith Lqa.
From Verif Require Import Common IntLit_Model IntLit_Spec IntLit_Proofs FloatLit_Model FloatLit_Spec.
Local Open Scope N_scope.

Lemma round_div_near x d : 0 < d -> 2 * round_div x d * d <= 2 * x + d /\ 2 * x <= 2 * round_div x d * d + d.
Proof.
  intros Hd. unfold round_div. pose proof (N.div_mod x d ltac:(lia)) as E. pose proof (N.mod_lt x d ltac:(lia)) as L.
  set (q := x / d) in *. set (r := x mod d) in *. 
  destruct (N.ltb_spec (2 * r) d); [nia|]. destruct (N.ltb_spec d (2 * r)); [nia|]. destruct (N.even q); nia.
Qed.
Lemma numeral_app a ds n m : numeral 10 a n -> numeral 10 ds m -> numeral 10 (a ++ ds) (n * 10 ^ N.of_nat (length ds) + m).
Proof.
  intros A. induction 1 as [c v D|ds v c w Nm IH D].
  - cbn [length]. change (N.of_nat 1) with 1. rewrite N.pow_1_r. now apply Num_more.
  - rewrite app_assoc, app_length. cbn [length]. rewrite Nat.add_1_r, Nat2N.inj_succ, N.pow_succ_r'.
    replace (n * (10 * 10 ^ N.of_nat (length ds)) + (v * 10 + w)) with ((n * 10 ^ N.of_nat (length ds) + v) * 10 + w) by lia.
    now apply Num_more.
Qed.
Lemma six_ok n : n < 1000000 -> numeral 10 (six_digits n) n.
Proof.
  intros L. unfold six_digits.
  assert (D : forall k, digit 10 (48 + k mod 10) (k mod 10)).
  { intros k. pose proof (N.mod_lt k 10 ltac:(lia)). apply D_dec; assumption. }
  assert (E : n = ((((n / 100000 mod 10 * 10 + n / 10000 mod 10) * 10 + n / 1000 mod 10) * 10 + n / 100 mod 10) * 10 + n / 10 mod 10) * 10 + n mod 10) by lia.
  rewrite E at 7.
  change [?a; ?b; ?c; ?d; ?e; ?f] with ((((([a] ++ [b]) ++ [c]) ++ [d]) ++ [e]) ++ [f]).
  repeat (apply Num_more; [|apply D]). apply Num_one. apply D.
Qed.
Lemma ten_6 : (ten (-6) == 1 # 1000000)%Q.
Proof. vm_compute. reflexivity. Qed.
(** The text printed for [m] millionths *)
Lemma print_constant m : m / 1000000 < 10 ^ 400 ->
  Constant (decimal 400 (m / 1000000) ++ 46 :: six_digits (m mod 1000000)) (Z.of_N m # 1000000).
Proof.
  intros L. destruct (decimal_ok 400 (m / 1000000)) as (c & ds & E & Nm & _); [exact L|lia|]. rewrite E.
  replace (six_digits (m mod 1000000)) with (six_digits (m mod 1000000) ++ []) by apply app_nil_r.
  eapply Const; [discriminate| |apply X_none|].
  - apply numeral_app; [exact Nm|]. apply six_ok. apply N.mod_lt. lia.
  - cbn [length six_digits]. change (N.of_nat 6) with 6. change (10 ^ 6) with 1000000.
    replace (m / 1000000 * 1000000 + m mod 1000000) with m by (pose proof (N.div_mod m 1000000 ltac:(lia)); lia).
    change (0 - Z.of_nat 6)%Z with (-6)%Z. rewrite ten_6. unfold Qeq. cbn. lia.
Qed.
Lemma printf_near r : (0 <= r)%Q -> near (Z.of_N (round_div (Z.to_N (Qnum r) * 1000000) (Npos (Qden r))) # 1000000) r half_millionth.
Proof.
  intros P. destruct r as [x d]. unfold Qle in P. cbn in P. cbn [Qnum Qden].
  pose proof (round_div_near (Z.to_N x * 1000000) (Npos d) ltac:(lia)) as [A B].
  set (m := round_div (Z.to_N x * 1000000) (Npos d)) in *. 
  assert (A' : (2 * Z.of_N m * Z.pos d <= 2 * x * 1000000 + Z.pos d)%Z) by lia.
  assert (B' : (2 * x * 1000000 <= 2 * Z.of_N m * Z.pos d + Z.pos d)%Z) by lia.
  unfold near, half_millionth, Qle, Qminus, Qplus, Qopp. cbn [Qnum Qden]. rewrite !Pos2Z.inj_mul. split; nia.
Qed.

(** A text is a constant for one value only. *)
Lemma digit10 c v : digit 10 c v -> 48 <= c <= 57 /\ v = c - 48.
Proof. inversion 1; subst; lia. Qed.
Lemma numeral_digits ds v : numeral 10 ds v -> Forall (fun c => 48 <= c <= 57) ds.
Proof.
  induction 1 as [c v D|ds v c w Nm IH D].
  - apply digit10 in D. constructor; [lia|constructor].
  - apply digit10 in D. apply Forall_app. split; [assumption|]. constructor; [lia|constructor].
Qed.
Lemma numeral_fun ds v : numeral 10 ds v -> forall w, numeral 10 ds w -> v = w.
Proof.
  induction 1 as [c v D|ds v c w Nm IH D]; intros u U.
  - inversion U as [c' v' D' E|ds' v' c' w' Nm' D' E]; subst.
    + apply digit10 in D, D'. lia.
    + exfalso. destruct ds' as [|d [|]]; try discriminate. inversion Nm'; destruct ds; discriminate.
  - inversion U as [c' v' D' E|ds' v' c' w' Nm' D' E].
    + exfalso. destruct ds as [|d [|]]; try discriminate. inversion Nm; destruct ds; discriminate.
    + apply app_inj_tail in E. destruct E as [-> ->]. apply IH in Nm'. apply digit10 in D, D'. subst. lia.
Qed.
Lemma split_digits (P : N -> Prop) a : forall a' r r', Forall P a -> Forall P a' ->
  (forall c t, r = c :: t -> ~ P c) -> (forall c t, r' = c :: t -> ~ P c) -> a ++ r = a' ++ r' -> a = a' /\ r = r'.
Proof.
  induction a as [|x a IH]; intros [|y a'] r r' F F' S S' E; cbn [app] in E.
  - auto.
  - subst r. exfalso. eapply S; [reflexivity|]. now inversion F'.
  - subst r'. exfalso. eapply S'; [reflexivity|]. now inversion F.
  - injection E as -> E. inversion F; inversion F'; subst. destruct (IH a' r r') as [-> ->]; auto.
Qed.
Definition dig (c : N) : Prop := 48 <= c <= 57.
Lemma exponent_head x e : exponent x e -> forall c t, x = c :: t -> ~ dig c.
Proof.
  intros X c t E. subst x. inversion X as [|c' sg ds n Ic Is Nm E1 E2|c' ds n Ic Nm E1 E2]; subst;
    unfold dig; destruct Ic as [<- |[<- |[]]]; lia.
Qed.
Lemma exponent_fun x e : exponent x e -> forall e', exponent x e' -> e = e'.
Proof.
  intros X e' X'. 
  assert (S : forall sg ds n sg' ds' n', In sg [[]; [43]] -> In sg' [[]; [43]] -> numeral 10 ds n -> numeral 10 ds' n' ->
    sg ++ ds = sg' ++ ds' -> n = n').
  { intros sg ds n sg' ds' n' I I' Nm Nm' E. pose proof (numeral_digits _ _ Nm) as F. pose proof (numeral_digits _ _ Nm') as F'.
    destruct I as [<- |[<- |[]]]; destruct I' as [<- |[<- |[]]]; cbn [app] in E.
    - subst. eapply numeral_fun; eassumption.
    - subst. inversion F; subst. lia.
    - subst. inversion F'; subst. lia.
    - injection E as ->. eapply numeral_fun; eassumption. }
  inversion X as [|c sg ds n Ic Is Nm|c ds n Ic Nm]; subst; inversion X' as [|c' sg' ds' n' Ic' Is' Nm' E|c' ds' n' Ic' Nm' E]; subst; try reflexivity.
  - f_equal. eapply S; [exact Is|exact Is'|eassumption|eassumption|symmetry; assumption].
  - exfalso. pose proof (numeral_digits _ _ Nm) as F. destruct Is as [<- |[<- |[]]]; cbn [app] in *; [subst; inversion F; subst; lia|discriminate].
  - exfalso. pose proof (numeral_digits _ _ Nm') as F. destruct Is' as [<- |[<- |[]]]; cbn [app] in *; [subst; inversion F; subst; lia|discriminate].
  - do 2 f_equal. eapply numeral_fun; eassumption.
Qed.
Lemma constant_fun t q q' : Constant t q -> Constant t q' -> (q == q')%Q.
Proof.
  intros C C'. inversion C as [a b x n e ? NE Nm Ex Eq Et]; subst. inversion C' as [a' b' x' n' e' ? NE' Nm' Ex' Eq' Et']; subst.
  pose proof (numeral_digits _ _ Nm) as F. pose proof (numeral_digits _ _ Nm') as F'. apply Forall_app in F, F'.
  assert (E46 : forall (r : bytes) c t, 46 :: r = c :: t -> ~ dig c) by (intros r c t [= <- _]; unfold dig; lia).
  destruct (split_digits dig a' a _ _ (proj1 F') (proj1 F) (E46 _) (E46 _) Et') as [-> E]. injection E as E.
  destruct (split_digits dig b' b _ _ (proj2 F') (proj2 F) (exponent_head _ _ Ex') (exponent_head _ _ Ex) E) as [-> ->].
  rewrite Eq, Eq'. rewrite (numeral_fun _ _ Nm _ Nm'). now rewrite (exponent_fun _ _ Ex _ Ex').
Qed.
Lemma constant_eq t q q' : Constant t q -> (q' == q)%Q -> Constant t q'.
Proof. intros C E. inversion C as [a b x n e ? NE Nm Ex Eq Et]; subst. eapply Const; eauto. now rewrite E. Qed.
