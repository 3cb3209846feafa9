From Verif Require Import Common Bits Cjson_Model Cjson_Spec.

Section Eqs.
Context {D : Type} (strtod : bytes -> option (D * nat)).
Lemma pv_null fuel depth r : parse_value strtod (S fuel) depth (bs "null" ++ r) = Ok (Some (JNull, r)). Proof. reflexivity. Qed.
Lemma pv_true fuel depth r : parse_value strtod (S fuel) depth (bs "true" ++ r) = Ok (Some (JBool true, r)). Proof. reflexivity. Qed.
Lemma pv_false fuel depth r : parse_value strtod (S fuel) depth (bs "false" ++ r) = Ok (Some (JBool false, r)). Proof. reflexivity. Qed.
Definition value_body fuel depth (c : N) (r : bytes) : res (option (json D * bytes)) :=
      if (c =? 34)%N then do o <- parse_string (c :: r); Ok (match o with Some (s, q) => Some (JStr s, q) | None => None end)
      else if ((c =? 45) || ((48 <=? c) && (c <=? 57)))%N then Ok (match parse_number strtod (c :: r) with Some (d, q) => Some (JNum d, q) | None => None end)
      else if (c =? 91)%N then
        if 1000 <=? depth then Ok None
        else let l := skip_ws r in
          match l with
          | [] => Ok None
          | x :: q => if (x =? 93)%N then Ok (Some (JArr [], q))
                      else do o <- parse_items strtod fuel (S depth) l; Ok (match o with Some (vs, q) => Some (JArr vs, q) | None => None end)
          end
      else if (c =? 123)%N then
        if 1000 <=? depth then Ok None
        else let l := skip_ws r in
          match l with
          | [] => Ok None
          | x :: q => if (x =? 125)%N then Ok (Some (JObj [], q))
                      else do o <- parse_members strtod fuel (S depth) l; Ok (match o with Some (vs, q) => Some (JObj vs, q) | None => None end)
          end
      else Ok None.
Lemma pv_eq fuel depth l : parse_value strtod (S fuel) depth l =
    if is_prefix (bs "null") l then Ok (Some (JNull, skipn 4 l))
    else if is_prefix (bs "false") l then Ok (Some (JBool false, skipn 5 l))
    else if is_prefix (bs "true") l then Ok (Some (JBool true, skipn 4 l))
    else match l with [] => Ok None | c :: r => value_body fuel depth c r end.
Proof. destruct l; reflexivity. Qed.
Lemma pi_eq fuel depth l : parse_items strtod (S fuel) depth l =
    do o <- parse_value strtod fuel depth (skip_ws l);
    match o with
    | None => Ok None
    | Some (v, l) =>
      match skip_ws l with
      | [] => Ok None
      | x :: r =>
        if (x =? 44)%N then do o <- parse_items strtod fuel depth r; Ok (match o with Some (vs, q) => Some (v :: vs, q) | None => None end)
        else if (x =? 93)%N then Ok (Some ([v], r)) else Ok None
      end
    end.
Proof. reflexivity. Qed.
Lemma pm_eq fuel depth l : parse_members strtod (S fuel) depth l =
    match l with
    | [] => Ok None                       (* 1734: nothing comes after the comma *)
    | _ =>
      do o <- parse_string (skip_ws l);
      match o with
      | None => Ok None
      | Some (k, l) =>
        match skip_ws l with
        | [] => Ok None
        | x :: l =>
          if negb (x =? 58)%N then Ok None
          else do o <- parse_value strtod fuel depth (skip_ws l);
            match o with
            | None => Ok None
            | Some (v, l) =>
              match skip_ws l with
              | [] => Ok None
              | x :: r =>
                if (x =? 44)%N then do o <- parse_members strtod fuel depth r; Ok (match o with Some (vs, q) => Some ((k, v) :: vs, q) | None => None end)
                else if (x =? 125)%N then Ok (Some ([(k, v)], r)) else Ok None
              end
            end
        end
      end
    end.
Proof. reflexivity. Qed.
Lemma pv_head fuel depth c r : c <> 110%N -> c <> 102%N -> c <> 116%N -> parse_value strtod (S fuel) depth (c :: r) = value_body fuel depth c r.
Proof.
  intros A B C. rewrite pv_eq.
  assert (Q : forall x p, x <> c -> is_prefix (x :: p) (c :: r) = false) by (intros x p X; cbn; destruct (N.eqb_spec x c); [contradiction|reflexivity]).
  change (bs "null") with (110%N :: bs "ull"). change (bs "false") with (102%N :: bs "alse"). change (bs "true") with (116%N :: bs "rue").
  rewrite !Q by auto. reflexivity.
Qed.
End Eqs.

(** ** Strings *)
Lemma hex_val a v : hex a v -> hex_value a = Some v /\ (v < 16)%N /\ a <> 34%N /\ a <> 92%N.
Proof.
  intros H. unfold hex_value. destruct H as [n H|n H|n H].
  - assert (E : ((48 <=? 48 + n) && (48 + n <=? 57))%N = true) by (apply andb_true_iff; rewrite !N.leb_le; lia). rewrite E. split; [f_equal; lia|lia].
  - assert (E : ((48 <=? 97 + n) && (97 + n <=? 57))%N = false) by (apply andb_false_iff; rewrite !N.leb_gt; lia).
    assert (E2 : ((65 <=? 97 + n) && (97 + n <=? 70))%N = false) by (apply andb_false_iff; rewrite !N.leb_gt; lia).
    assert (E3 : ((97 <=? 97 + n) && (97 + n <=? 102))%N = true) by (apply andb_true_iff; rewrite !N.leb_le; lia).
    rewrite E, E2, E3. split; [f_equal; lia|lia].
  - assert (E : ((48 <=? 65 + n) && (65 + n <=? 57))%N = false) by (apply andb_false_iff; rewrite !N.leb_gt; lia).
    assert (E2 : ((65 <=? 65 + n) && (65 + n <=? 70))%N = true) by (apply andb_true_iff; rewrite !N.leb_le; lia).
    rewrite E, E2. split; [f_equal; lia|lia].
Qed.
Lemma hex4_val a b c d va vb vc vd : hex a va -> hex b vb -> hex c vc -> hex d vd ->
  parse_hex4 a b c d = (va * 4096 + vb * 256 + vc * 16 + vd)%N.
Proof.
  intros A B C E. unfold parse_hex4. rewrite (proj1 (hex_val _ _ A)), (proj1 (hex_val _ _ B)), (proj1 (hex_val _ _ C)), (proj1 (hex_val _ _ E)).
  rewrite !N.shiftl_mul_pow2. change (2 ^ 4)%N with 16%N. lia.
Qed.
Lemma low_ok c : low c = (128 + c mod 64)%N.
Proof.
  unfold low. rewrite N.land_lor_distr_l. change (N.land 128 191) with 128%N.
  assert (E : N.land c 191 = N.lor (N.land c 63) (N.land c 128)) by (rewrite <- N.land_lor_distr_r; reflexivity).
  rewrite E, <- N.lor_assoc.
  assert (E2 : N.lor (N.land c 128) 128 = 128%N).
  { apply N.bits_inj. intros n. rewrite N.lor_spec, N.land_spec. destruct (N.testbit c n), (N.testbit 128 n); reflexivity. }
  rewrite E2, N.lor_comm. change 63%N with (2 ^ 6 - 1)%N. rewrite land_mask. change (2 ^ 6)%N with 64%N.
  change 128%N with (2 * 64)%N at 1. replace 64%N with (2 ^ 6)%N at 1 by reflexivity. rewrite lor_add; [reflexivity|]. change (2 ^ 6)%N with 64%N. apply N.mod_lt. discriminate.
Qed.
Lemma first_ok c m k j : (c < 2 ^ k)%N -> m = (j * 2 ^ k)%N -> (m + 2 ^ k <= 256)%N -> N.land (N.lor c m) 255 = (m + c)%N.
Proof.
  intros A B C. subst m. rewrite N.lor_comm, lor_add by auto. change 255%N with (2 ^ 8 - 1)%N. rewrite land_mask. apply N.mod_small. change (2 ^ 8)%N with 256%N. lia.
Qed.
Lemma utf8_ok c : (c < 1114112)%N -> encode_utf8 c = utf8 c.
Proof.
  intros H. unfold encode_utf8, utf8. rewrite !low_ok, !N.shiftr_div_pow2.
  change (2 ^ 6)%N with 64%N. change (2 ^ 12)%N with 4096%N. change (2 ^ 18)%N with 262144%N.
  destruct (N.ltb_spec c 128).
  - f_equal. change 127%N with (2 ^ 7 - 1)%N. rewrite land_mask. apply N.mod_small. exact H0.
  - destruct (N.ltb_spec c 2048); [|destruct (N.ltb_spec c 65536)]; f_equal.
    + apply (first_ok _ 192 5 6); [|reflexivity|now vm_compute]. apply N.div_lt_upper_bound; [discriminate|exact H1].
    + apply (first_ok _ 224 4 14); [|reflexivity|now vm_compute]. apply N.div_lt_upper_bound; [discriminate|exact H2].
    + apply (first_ok _ 240 3 30); [|reflexivity|now vm_compute]. apply N.div_lt_upper_bound; [discriminate|]. change (262144 * 2 ^ 3)%N with 2097152%N. lia.
Qed.
Lemma pair_ok n1 n2 : (n1 < 1024)%N -> (n2 < 1024)%N ->
  N.lor (N.shiftl (N.land (55296 + n1) 1023) 10) (N.land (56320 + n2) 1023) = (n1 * 1024 + n2)%N.
Proof.
  intros A B. change 1023%N with (2 ^ 10 - 1)%N. rewrite !land_mask, N.shiftl_mul_pow2.
  replace ((55296 + n1) mod 2 ^ 10)%N with n1.
  2:{ apply (N.mod_unique _ _ 54); [exact A|]. change (2 ^ 10)%N with 1024%N. lia. }
  replace ((56320 + n2) mod 2 ^ 10)%N with n2.
  2:{ apply (N.mod_unique _ _ 55); [exact B|]. change (2 ^ 10)%N with 1024%N. lia. }
  rewrite lor_add by exact B. reflexivity.
Qed.

Lemma dec_char c r : c <> 92%N -> decode (c :: r) = option_map (cons c) (decode r).
Proof. intros H. cbn [decode]. destruct (N.eqb_spec c 92); [contradiction|reflexivity]. Qed.
Lemma dec_short e c r : In (e, c) short -> decode (92%N :: e :: r) = option_map (cons c) (decode r).
Proof. intros H. cbn in H. repeat destruct H as [H|H]; try (injection H as <- <-; reflexivity). destruct H. Qed.
Lemma dec_u a b c d r : decode (92 :: 117 :: a :: b :: c :: d :: r)%N =
  let first := parse_hex4 a b c d in
  if ((56320 <=? first) && (first <=? 57343))%N then None
  else if ((55296 <=? first) && (first <=? 56319))%N then
    match r with
    | p :: u :: a :: b :: c :: d :: r =>
      if negb (p =? 92)%N || negb (u =? ch "u")%N then None
      else let second := parse_hex4 a b c d in
        if ((second <? 56320) || (57343 <? second))%N then None
        else option_map (app (encode_utf8 (65536 + N.lor (N.shiftl (N.land first 1023) 10) (N.land second 1023))%N)) (decode r)
    | _ => None
    end
  else option_map (app (encode_utf8 first)) (decode r).
Proof. reflexivity. Qed.

Lemma means_decode t s : means t s -> decode t = Some s.
Proof.
  induction 1 as [|c t s A B C M IH|e c t s A M IH|h n t s H NS M IH|h1 h2 n1 n2 t s H1 L1 H2 L2 M IH].
  - reflexivity.
  - now rewrite dec_char, IH.
  - now rewrite (dec_short e c), IH.
  - destruct H as (a & b & c & d & va & vb & vc & vd & -> & A & B & C & E & N). cbn [app]. rewrite dec_u. cbv zeta. rewrite (hex4_val _ _ _ _ _ _ _ _ A B C E), <- N.
    assert (n < 65536)%N by (apply hex_val in A, B, C, E; lia). unfold surrogate in NS.
    destruct ((56320 <=? n) && (n <=? 57343))%N eqn:K1; [apply andb_prop in K1 as [K1 K2]; apply N.leb_le in K1, K2; lia|].
    destruct ((55296 <=? n) && (n <=? 56319))%N eqn:K2; [apply andb_prop in K2 as [K2 K3]; apply N.leb_le in K2, K3; lia|].
    rewrite IH. cbn [option_map]. rewrite utf8_ok by lia. reflexivity.
  - destruct H1 as (a & b & c & d & va & vb & vc & vd & -> & A & B & C & E & N). destruct H2 as (a' & b' & c' & d' & va' & vb' & vc' & vd' & -> & A' & B' & C' & E' & N').
    cbn [app]. rewrite dec_u. cbv zeta. rewrite (hex4_val _ _ _ _ _ _ _ _ A B C E), <- N.
    destruct ((56320 <=? 55296 + n1) && (55296 + n1 <=? 57343))%N eqn:K1; [apply andb_prop in K1 as [K1 K2]; apply N.leb_le in K1, K2; lia|].
    destruct ((55296 <=? 55296 + n1) && (55296 + n1 <=? 56319))%N eqn:K2; [|apply andb_false_iff in K2; rewrite !N.leb_gt in K2; lia].
    change (negb (92 =? 92)%N || negb (117 =? ch "u")%N) with false. cbv iota. rewrite (hex4_val _ _ _ _ _ _ _ _ A' B' C' E'), <- N'.
    destruct ((56320 + n2 <? 56320) || (57343 <? 56320 + n2))%N eqn:K3; [apply orb_prop in K3; rewrite !N.ltb_lt in K3; lia|].
    rewrite pair_ok, IH, N.add_assoc by auto. cbn [option_map]. rewrite utf8_ok by lia. reflexivity.
Qed.
Lemma scan_plain h l b n q : Forall (fun c => c <> 34%N /\ c <> 92%N) h -> scan l = Some (b, n, q) -> scan (h ++ l) = Some (h ++ b, n, q).
Proof.
  intros F E. induction h as [|c h IH]; [exact E|]. inversion F as [|? ? [F1 F2] F3]; subst. cbn [app scan].
  destruct (N.eqb_spec c 34); [contradiction|]. destruct (N.eqb_spec c 92); [contradiction|]. now rewrite (IH F3).
Qed.
Lemma scan_esc e l b n q : scan l = Some (b, n, q) -> scan (92%N :: e :: l) = Some (92%N :: e :: b, S n, q).
Proof. intros E. cbn [scan]. change (92 =? 34)%N with false. change (92 =? 92)%N with true. cbv iota. now rewrite E. Qed.
Lemma hex4_plain h n : hex4 h n -> Forall (fun c => c <> 34%N /\ c <> 92%N) h.
Proof.
  intros (a & b & c & d & va & vb & vc & vd & -> & A & B & C & E & N). apply hex_val in A, B, C, E. repeat (constructor; [intuition|]). constructor.
Qed.
Lemma means_scan t s rest : means t s -> exists n, scan (t ++ 34%N :: rest) = Some (t, n, rest).
Proof.
  induction 1 as [|c t s A B C M [n IH]|e c t s A M [n IH]|h k t s H NS M [n IH]|h1 h2 n1 n2 t s H1 L1 H2 L2 M [n IH]].
  - now exists 0.
  - exists n. apply (scan_plain [c] _ t n rest); [constructor; [auto|constructor]|exact IH].
  - exists (S n). cbn [app]. now apply scan_esc.
  - exists (S n). cbn [app]. rewrite <- app_assoc. apply scan_esc. apply scan_plain; auto. now apply (hex4_plain _ _ H).
  - exists (S (S n)). cbn [app]. rewrite <- app_assoc. apply scan_esc. cbn [app]. rewrite <- app_assoc.
    apply scan_plain; [now apply (hex4_plain _ _ H1)|]. apply scan_esc. apply scan_plain; auto. now apply (hex4_plain _ _ H2).
Qed.

(** the room for the string *)
Fixpoint units (l : bytes) : nat :=
  match l with [] => 0 | c :: r => if (c =? 92)%N then match r with [] => 1 | _ :: r => S (units r) end else S (units r) end.
Lemma units_tl r : forall c, units r <= units (c :: r) <= S (units r).
Proof.
  induction r as [|x r IH]; intros c.
  - cbn [units]. destruct (c =? 92)%N; lia.
  - cbn [units] in *. specialize (IH x). destruct (c =? 92)%N; lia.
Qed.
Lemma scan_units : forall k l b n q, length l <= k -> scan l = Some (b, n, q) -> length b = units b + n /\ length q + length b < length l.
Proof.
  induction k as [|k IH]; intros l b n q L E; [destruct l; [discriminate|cbn in L; lia]|].
  destruct l as [|c l]; [discriminate|]. cbn [scan] in E. cbn [length] in *. destruct (N.eqb_spec c 34); [injection E as <- <- <-; cbn; lia|].
  destruct (N.eqb_spec c 92).
  - destruct l as [|x l]; [discriminate|]. cbn [length] in *. destruct (scan l) as [[[b' n'] q']|] eqn:S; [|discriminate]. injection E as <- <- <-.
    apply IH in S; [|lia]. cbn [units length]. subst c. change (92 =? 92)%N with true. cbv iota. lia.
  - destruct (scan l) as [[[b' n'] q']|] eqn:S; [|discriminate]. injection E as <- <- <-.
    apply IH in S; [|lia]. cbn [units length]. destruct (N.eqb_spec c 92); [contradiction|]. lia.
Qed.
Lemma hex_value_range c v : hex_value c = Some v -> (v < 16)%N /\ c <> 92%N.
Proof.
  unfold hex_value. destruct ((48 <=? c) && (c <=? 57))%N eqn:A; [apply andb_prop in A as [A B]; apply N.leb_le in A, B; injection 1 as <-; lia|].
  destruct ((65 <=? c) && (c <=? 70))%N eqn:A1; [apply andb_prop in A1 as [A1 B]; apply N.leb_le in A1, B; injection 1 as <-; lia|].
  destruct ((97 <=? c) && (c <=? 102))%N eqn:A2; [apply andb_prop in A2 as [A2 B]; apply N.leb_le in A2, B; injection 1 as <-; lia|]. discriminate.
Qed.
Lemma hex4_cases a b c d : parse_hex4 a b c d = 0%N \/ (parse_hex4 a b c d < 65536)%N /\ a <> 92%N /\ b <> 92%N /\ c <> 92%N /\ d <> 92%N.
Proof.
  unfold parse_hex4. destruct (hex_value a) eqn:A; auto. destruct (hex_value b) eqn:B; auto. destruct (hex_value c) eqn:C; auto. destruct (hex_value d) eqn:E; auto.
  apply hex_value_range in A, B, C, E. right. rewrite !N.shiftl_mul_pow2. change (2 ^ 4)%N with 16%N. lia.
Qed.
Lemma units_plain c r : c <> 92%N -> units (c :: r) = S (units r).
Proof. intros H. cbn [units]. destruct (N.eqb_spec c 92); [contradiction|reflexivity]. Qed.
Lemma encode_len c : length (encode_utf8 c) <= 4 /\ ((c < 65536)%N -> length (encode_utf8 c) <= 3) /\ (c = 0%N -> length (encode_utf8 c) = 1).
Proof.
  unfold encode_utf8. repeat split; [| |intros ->; reflexivity].
  - destruct (c <? 128)%N; [cbn; lia|]. destruct (c <? 2048)%N; [cbn; lia|]. destruct (c <? 65536)%N; cbn; lia.
  - intros H. apply N.ltb_lt in H. rewrite H. destruct (c <? 128)%N; [cbn; lia|]. destruct (c <? 2048)%N; cbn; lia.
Qed.
Lemma option_map_some {A B} (f : A -> B) o y : option_map f o = Some y -> exists x, o = Some x /\ y = f x.
Proof. destruct o; [|discriminate]. cbn. injection 1 as <-. eauto. Qed.
Lemma decode_len : forall k l s, length l <= k -> decode l = Some s -> length s <= units l.
Proof.
  induction k as [|k IH]; intros l s L E; [destruct l; [injection E as <-; cbn; lia|cbn in L; lia]|].
  destruct l as [|c l]; [injection E as <-; cbn; lia|]. cbn [length] in L. destruct (N.eqb_spec c 92).
  2:{ rewrite dec_char in E by auto. apply option_map_some in E as (x & E & ->). rewrite units_plain by auto. cbn [length]. apply IH in E; lia. }
  subst c. destruct l as [|e l]; [change (Some [34%N] = Some s) in E; injection E as <-; change (1 <= 1); lia|]. cbn [length] in L.
  assert (U : units (92%N :: e :: l) = S (units l)) by reflexivity. rewrite U.
  assert (G : forall c, option_map (cons c) (decode l) = Some s -> length s <= S (units l)).
  { intros c X. apply option_map_some in X as (x & X & ->). cbn [length]. apply IH in X; lia. }
  cbn [decode] in E. change (negb (92 =? 92)%N) with false in E. cbv iota in E.
  destruct (e =? ch "b")%N; [eauto|]. destruct (e =? ch "f")%N; [eauto|]. destruct (e =? ch "n")%N; [eauto|]. destruct (e =? ch "r")%N; [eauto|].
  destruct (e =? ch "t")%N; [eauto|]. destruct ((e =? 34) || (e =? 92) || (e =? 47))%N; [eauto|]. clear G U.
  destruct (e =? ch "u")%N; [|discriminate].
  destruct l as [|a [|b [|c [|d l]]]]; try discriminate. cbv zeta in E. cbn [length] in L.
  destruct ((56320 <=? parse_hex4 a b c d) && (parse_hex4 a b c d <=? 57343))%N; [discriminate|].
  destruct ((55296 <=? parse_hex4 a b c d) && (parse_hex4 a b c d <=? 56319))%N eqn:K.
  - destruct (hex4_cases a b c d) as [Q|Q]; [rewrite Q in K; discriminate|].
    destruct l as [|p [|u [|a' [|b' [|c' [|d' l]]]]]]; try discriminate. cbn [length] in L.
    destruct (negb (p =? 92)%N || negb (u =? ch "u")%N) eqn:K2; [discriminate|].
    apply orb_false_iff in K2 as [K2 K3]. apply negb_false_iff, N.eqb_eq in K2. subst p.
    destruct ((parse_hex4 a' b' c' d' <? 56320) || (57343 <? parse_hex4 a' b' c' d'))%N eqn:K4; [discriminate|].
    destruct (hex4_cases a' b' c' d') as [Q'|Q']; [rewrite Q' in K4; discriminate|].
    apply option_map_some in E as (x & E & ->). apply IH in E; [|lia].
    rewrite app_length. match goal with |- context [encode_utf8 ?z] => pose proof (proj1 (encode_len z)) end.
    rewrite !(units_plain a), !(units_plain b), !(units_plain c), !(units_plain d) by tauto. change (units (92%N :: u :: a' :: b' :: c' :: d' :: l)) with (S (units (a' :: b' :: c' :: d' :: l))).
    rewrite !(units_plain a'), !(units_plain b'), !(units_plain c'), !(units_plain d') by tauto. lia.
  - apply option_map_some in E as (x & E & ->). apply IH in E; [|lia]. rewrite app_length.
    destruct (hex4_cases a b c d) as [Q|Q].
    + rewrite Q, (proj2 (proj2 (encode_len 0)) eq_refl).
      pose proof (units_tl l d). pose proof (units_tl (d :: l) c). pose proof (units_tl (c :: d :: l) b). pose proof (units_tl (b :: c :: d :: l) a). lia.
    + rewrite !(units_plain a), !(units_plain b), !(units_plain c), !(units_plain d) by tauto.
      pose proof (proj1 (proj2 (encode_len (parse_hex4 a b c d))) (proj1 Q)). lia.
Qed.
Lemma string_safe l : l <> [] -> exists o, parse_string l = Ok o /\ forall s q, o = Some (s, q) -> length q < length l.
Proof.
  intros N. destruct l as [|c r]; [contradiction|]. cbn [parse_string]. destruct (negb (c =? 34)%N); [eexists; split; [reflexivity|discriminate]|].
  destruct (scan r) as [[[b n] q]|] eqn:S; [|eexists; split; [reflexivity|discriminate]].
  destruct (decode b) as [s|] eqn:E; [|eexists; split; [reflexivity|discriminate]].
  destruct (scan_units (length r) r b n q (le_n _) S) as [U V]. pose proof (decode_len (length b) b s (le_n _) E).
  destruct (Nat.leb_spec (length s + 1) (length b + 1 - n + 1)); [|lia].
  eexists. split; [reflexivity|]. intros s' q' X. injection X as <- <-. cbn [length]. lia.
Qed.
Lemma cstr_id s : ~ In 0%N s -> cstr s = s.
Proof. induction s as [|c s IH]; intros H; [reflexivity|]. cbn [cstr]. destruct (N.eqb_spec c 0); [exfalso; apply H; now left|]. rewrite IH; auto. intros X. apply H. now right. Qed.
Lemma string_reads t s rest : means t s -> parse_string (34%N :: t ++ 34%N :: rest) = Ok (Some (cstr s, rest)).
Proof.
  intros M. destruct (means_scan t s rest M) as (n & S). pose proof (means_decode t s M) as E. cbn [parse_string]. change (negb (34 =? 34)%N) with false. cbv iota.
  rewrite S, E. destruct (scan_units _ _ _ _ _ (le_n _) S) as [U V]. pose proof (decode_len (length t) t s (le_n _) E).
  destruct (Nat.leb_spec (length s + 1) (length t + 1 - n + 1)); [|lia]. reflexivity.
Qed.

(** ** White space *)
Lemma drop_ws_len l : length (drop_ws l) <= length l.
Proof. induction l as [|c l IH]; [cbn; lia|]. cbn [drop_ws]. destruct (c <=? 32)%N; cbn [length]; lia. Qed.
Lemma skip_ws_len l : length (skip_ws l) <= length l.
Proof. unfold skip_ws. pose proof (drop_ws_len l). destruct (drop_ws l); [|auto]. destruct l; cbn; lia. Qed.
Lemma skip_ws_nonempty l : l <> [] -> skip_ws l <> [].
Proof. unfold skip_ws. intros H. destruct (drop_ws l); [|discriminate]. destruct l; [contradiction|discriminate]. Qed.
Lemma skip_ws_ws w c r : ws w -> (32 < c)%N -> skip_ws (w ++ c :: r) = c :: r.
Proof.
  intros W H. unfold skip_ws. assert (E : drop_ws (w ++ c :: r) = c :: r).
  { induction W as [|x w X W IH]; cbn [app drop_ws].
    - destruct (N.leb_spec c 32); [lia|reflexivity].
    - destruct (N.leb_spec x 32); [exact IH|lia]. }
  now rewrite E.
Qed.

(** ** Every text is read without a fault *)
Section Safe.
Context {D : Type} (strtod : bytes -> option (D * nat)).
Definition ends_before {A} (o : option (A * bytes)) (n : nat) : Prop := match o with Some (_, q) => length q < n | None => True end.
Lemma skipn_shorter {A} n (l : list A) : n <> 0 -> l <> [] -> length (skipn n l) < length l.
Proof. intros H K. rewrite skipn_length. destruct l; [contradiction|]. cbn [length]. lia. Qed.
Lemma ends_S {A} (o : option (A * bytes)) n m : ends_before o n -> n <= m -> ends_before o m.
Proof. destruct o as [[? ?]|]; cbn; lia. Qed.
Lemma safe : forall fuel,
  (forall d l, 2 * length l < fuel -> exists o, parse_value strtod fuel d l = Ok o /\ ends_before o (length l)) /\
  (forall d l, 2 * length l + 1 < fuel -> exists o, parse_items strtod fuel d l = Ok o /\ ends_before o (length l)) /\
  (forall d l, 2 * length l + 1 < fuel -> exists o, parse_members strtod fuel d l = Ok o /\ ends_before o (length l)).
Proof.
  induction fuel as [|fuel (IV & II & IM)]; [repeat split; intros; lia|]. split; [|split]; intros d l L.
  - rewrite pv_eq.
    assert (P : forall p, is_prefix p l = true -> p <> [] -> length (skipn (length p) l) < length l).
    { intros p X Y. apply is_prefix_spec in X as (r & ->). apply skipn_shorter; destruct p; try contradiction; discriminate. }
    destruct (is_prefix (bs "null") l) eqn:A1; [eexists; split; [reflexivity|]; apply (P (bs "null")); [auto|discriminate]|].
    destruct (is_prefix (bs "false") l) eqn:A2; [eexists; split; [reflexivity|]; apply (P (bs "false")); [auto|discriminate]|].
    destruct (is_prefix (bs "true") l) eqn:A3; [eexists; split; [reflexivity|]; apply (P (bs "true")); [auto|discriminate]|].
    clear P A1 A2 A3. destruct l as [|c r]; [eexists; split; [reflexivity|exact I]|]. unfold value_body. cbn [length] in L.
    destruct (c =? 34)%N.
    { destruct (string_safe (c :: r)) as (o & E & H); [discriminate|]. rewrite E. cbn [bind]. eexists. split; [reflexivity|]. destruct o as [[s q]|]; [|exact I]. exact (H s q eq_refl). }
    destruct ((c =? 45) || (48 <=? c) && (c <=? 57))%N.
    { eexists. split; [reflexivity|]. unfold parse_number. destruct (strtod (num_run (c :: r))) as [[x n]|]; [|exact I]. destruct (Nat.eqb_spec n 0); [exact I|]. apply skipn_shorter; [auto|discriminate]. }
    pose proof (skip_ws_len r) as W.
    destruct (c =? 91)%N; [|destruct (c =? 123)%N; [|eexists; split; [reflexivity|exact I]]];
      (destruct (1000 <=? d); [eexists; split; [reflexivity|exact I]|]); cbv zeta;
      destruct (skip_ws r) as [|x q] eqn:E; try (eexists; split; [reflexivity|exact I]); cbn [length] in W.
    + destruct (x =? 93)%N; [eexists; split; [reflexivity|cbn; lia]|].
      destruct (II (S d) (x :: q)) as (o & F & H); [cbn [length]; lia|]. rewrite F. cbn [bind]. eexists. split; [reflexivity|]. destruct o as [[? ?]|]; [|exact I]. cbn in *. lia.
    + destruct (x =? 125)%N; [eexists; split; [reflexivity|cbn; lia]|].
      destruct (IM (S d) (x :: q)) as (o & F & H); [cbn [length]; lia|]. rewrite F. cbn [bind]. eexists. split; [reflexivity|]. destruct o as [[? ?]|]; [|exact I]. cbn in *. lia.
  - rewrite pi_eq. pose proof (skip_ws_len l) as W. destruct (IV d (skip_ws l)) as (o & E & H); [lia|]. rewrite E. cbn [bind].
    destruct o as [[v q]|]; [|eexists; split; [reflexivity|exact I]]. cbn in H. pose proof (skip_ws_len q) as W2.
    destruct (skip_ws q) as [|x r]; [eexists; split; [reflexivity|exact I]|]. cbn [length] in W2.
    destruct (x =? 44)%N.
    { destruct (II d r) as (o & F & G); [lia|]. rewrite F. cbn [bind]. eexists. split; [reflexivity|]. destruct o as [[? ?]|]; [|exact I]. cbn in *. lia. }
    destruct (x =? 93)%N; (eexists; split; [reflexivity|cbn; try exact I; lia]).
  - rewrite pm_eq. destruct l as [|c0 r0]; [eexists; split; [reflexivity|exact I]|]. remember (c0 :: r0) as l eqn:El.
    pose proof (skip_ws_len l) as W. destruct (string_safe (skip_ws l)) as (o & E & H); [apply skip_ws_nonempty; subst; discriminate|]. rewrite E. cbn [bind].
    destruct o as [[k q]|]; [|eexists; split; [reflexivity|exact I]]. specialize (H k q eq_refl). pose proof (skip_ws_len q) as W2.
    destruct (skip_ws q) as [|x r]; [eexists; split; [reflexivity|exact I]|]. cbn [length] in W2. destruct (negb (x =? 58)%N); [eexists; split; [reflexivity|exact I]|].
    pose proof (skip_ws_len r) as W3. destruct (IV d (skip_ws r)) as (o & F & G); [lia|]. rewrite F. cbn [bind].
    destruct o as [[v q2]|]; [|eexists; split; [reflexivity|exact I]]. cbn in G. pose proof (skip_ws_len q2) as W4.
    destruct (skip_ws q2) as [|y r2]; [eexists; split; [reflexivity|exact I]|]. cbn [length] in W4.
    destruct (y =? 44)%N.
    { destruct (IM d r2) as (o & F2 & G2); [lia|]. rewrite F2. cbn [bind]. eexists. split; [reflexivity|]. destruct o as [[? ?]|]; [|exact I]. cbn in *. lia. }
    destruct (y =? 125)%N; (eexists; split; [reflexivity|cbn; try exact I; lia]).
Qed.
End Safe.

(** ** Every JSON text is read as its value *)
Scheme denotes_mut := Minimality for denotes Sort Prop
  with elements_mut := Minimality for elements Sort Prop
  with members_mut := Minimality for members Sort Prop.
Combined Scheme denotes_all from denotes_mut, elements_mut, members_mut.

Section Read.
Context {D : Type} (strtod : bytes -> option (D * nat)).
Definition stops (rest : bytes) : Prop := match rest with c :: _ => num_char c = false | [] => False end.
Definition deep (l : list (json D)) : nat := fold_right (fun v n => Nat.max (nesting v) n) 0 l.
Definition deepm (l : list (bytes * json D)) : nat := fold_right (fun '(_, v) n => Nat.max (nesting v) n) 0 l.
Definition read {A} (ok : bool) (v : A) (rest : bytes) : res (option (A * bytes)) := Ok (if ok then Some (v, rest) else None).

Lemma ws_stops w rest : ws w -> stops rest -> stops (w ++ rest).
Proof. intros W S. destruct W as [|c w H W]; [exact S|]. cbn. destruct H as [-> |[-> |[-> | ->]]]; reflexivity. Qed.
Lemma starts t v : denotes strtod t v -> exists c r, t = c :: r /\ (32 < c)%N /\ c <> 239%N /\ c <> 93%N.
Proof.
  destruct 1 as [| | |t d (F & c & r & E & H)| | | | |];
    try (eexists; eexists; split; [reflexivity|repeat split; try reflexivity; discriminate]).
  eexists; eexists; split; [exact E|]. repeat split; lia.
Qed.
Lemma num_run_text t rest : Forall (fun c => (48 <= c <= 57)%N \/ In c (bs "+-eE.")) t -> stops rest -> num_run (t ++ rest) = t.
Proof.
  intros F S. induction F as [|c t H F IH].
  - cbn [app]. destruct rest as [|c r]; [destruct S|]. cbn in S. cbn [num_run]. now rewrite S.
  - cbn [app num_run]. assert (E : num_char c = true).
    { unfold num_char. destruct H as [H|H].
      - destruct (N.leb_spec 48 c); [|lia]. destruct (N.leb_spec c 57); [|lia]. reflexivity.
      - cbn in H. repeat destruct H as [<-|H]; try reflexivity. destruct H. }
    now rewrite E, IH.
Qed.
Lemma ws_head w c r : ws w -> (32 < c)%N -> exists x q, w ++ c :: r = x :: q /\ (w = [] /\ x = c \/ (x <= 32)%N).
Proof. intros W H. destruct W as [|x w X W]; [exists c, r; auto|]. exists x, (w ++ c :: r). split; [reflexivity|]. right. lia. Qed.
Lemma max_le a b n : (Nat.max a b <=? n) = (a <=? n) && (b <=? n).
Proof. destruct (Nat.leb_spec (Nat.max a b) n), (Nat.leb_spec a n), (Nat.leb_spec b n); cbn; lia. Qed.
Lemma add_max_le d a b n : (d + Nat.max a b <=? n) = (d + a <=? n) && (d + b <=? n).
Proof. now rewrite <- Nat.add_max_distr_l, max_le. Qed.

Lemma elements_starts t l : elements strtod t l -> exists c r w, t = w ++ c :: r /\ ws w /\ (32 < c)%N /\ c <> 93%N.
Proof.
  destruct 1 as [w1 t w2 v W1 H W2|w1 t w2 v u l W1 H W2 E]; destruct (starts t v H) as (c & r & -> & A & B & C).
  - exists c, (r ++ w2), w1. repeat split; auto.
  - exists c, (r ++ w2 ++ 44%N :: u), w1. repeat split; auto.
Qed.
Lemma members_starts t l : members strtod t l -> exists r w, t = w ++ 34%N :: r /\ ws w.
Proof. destruct 1; eauto. Qed.

Lemma reads :
  (forall t v, denotes strtod t v -> forall fuel d rest, 2 * length t < fuel -> d <= 1000 -> stops rest ->
     parse_value strtod fuel d (t ++ rest) = read (d + nesting v <=? 1000) v rest) /\
  (forall t l, elements strtod t l -> forall fuel d rest, 2 * length t + 1 < fuel -> d <= 1000 ->
     parse_items strtod fuel d (t ++ 93%N :: rest) = read (d + deep l <=? 1000) l rest) /\
  (forall t l, members strtod t l -> forall fuel d rest, 2 * length t + 1 < fuel -> d <= 1000 ->
     parse_members strtod fuel d (t ++ 125%N :: rest) = read (d + deepm l <=? 1000) l rest).
Proof.
  apply denotes_all.
  - intros [|fuel] d rest F L S; [lia|]. rewrite pv_null. cbn [nesting]. rewrite Nat.add_0_r. apply Nat.leb_le in L. now rewrite L.
  - intros [|fuel] d rest F L S; [lia|]. rewrite pv_true. cbn [nesting]. rewrite Nat.add_0_r. apply Nat.leb_le in L. now rewrite L.
  - intros [|fuel] d rest F L S; [lia|]. rewrite pv_false. cbn [nesting]. rewrite Nat.add_0_r. apply Nat.leb_le in L. now rewrite L.
  - intros t x (A & c & r & E & H) Q [|fuel] d rest F L S; [lia|]. assert (R := num_run_text t rest A S). subst t. cbn [app] in *. rewrite pv_head by lia. unfold value_body.
    assert (E1 : (c =? 34)%N = false) by (apply N.eqb_neq; lia). rewrite E1.
    assert (E2 : ((c =? 45) || (48 <=? c) && (c <=? 57))%N = true).
    { destruct H as [-> |H]; [reflexivity|]. apply orb_true_iff. right. apply andb_true_iff. rewrite !N.leb_le. lia. }
    rewrite E2. unfold parse_number. rewrite R, Q. cbn [length Nat.eqb]. cbn [nesting]. rewrite Nat.add_0_r. apply Nat.leb_le in L. rewrite L. unfold read. cbn [skipn].
    rewrite skipn_app, skipn_all, Nat.sub_diag. reflexivity.
  - intros t s M Z [|fuel] d rest F L S; [lia|]. cbn [app]. rewrite <- app_assoc. cbn [app]. rewrite pv_head by discriminate. unfold value_body.
    change (34 =? 34)%N with true. cbv iota. rewrite (string_reads t s rest M), (cstr_id s Z). cbn [bind nesting]. rewrite Nat.add_0_r. apply Nat.leb_le in L. now rewrite L.
  - intros w W [|fuel] d rest F L S; [lia|]. cbn [app]. rewrite <- app_assoc. cbn [app]. rewrite pv_head by discriminate. unfold value_body.
    change (91 =? 34)%N with false. change ((91 =? 45) || (48 <=? 91) && (91 <=? 57))%N with false. change (91 =? 91)%N with true. cbv iota. cbv zeta.
    rewrite skip_ws_ws by (auto; reflexivity). change (93 =? 93)%N with true. cbv iota. cbn [nesting fold_right]. unfold read.
    destruct (Nat.leb_spec 1000 d), (Nat.leb_spec (d + 1) 1000); try lia; reflexivity.
  - intros t l E IH [|fuel] d rest F L S; [lia|]. cbn [app]. rewrite <- app_assoc. cbn [app]. rewrite pv_head by discriminate. unfold value_body.
    change (91 =? 34)%N with false. change ((91 =? 45) || (48 <=? 91) && (91 <=? 57))%N with false. change (91 =? 91)%N with true. cbv iota. cbv zeta.
    change (nesting (JArr l)) with (Datatypes.S (deep l)).
    destruct (Nat.leb_spec 1000 d); [destruct (Nat.leb_spec (d + Datatypes.S (deep l)) 1000); [lia|reflexivity]|].
    assert (FL : 2 * length t + 1 < fuel) by (cbn [length] in F; rewrite app_length in F; cbn in F; lia).
    destruct (elements_starts t l E) as (c & r & w & Et & W & C1 & C2).
    (* white space before the first element is skipped twice *)
    assert (K : parse_items strtod fuel (Datatypes.S d) (c :: r ++ 93%N :: rest) = read (Datatypes.S d + deep l <=? 1000) l rest).
    { rewrite <- (IH fuel (Datatypes.S d) rest FL) by lia. destruct fuel as [|fuel]; [lia|]. rewrite !pi_eq. subst t. rewrite <- app_assoc. cbn [app].
      rewrite (skip_ws_ws w) by auto. change (c :: r ++ 93%N :: rest) with ([] ++ c :: r ++ 93%N :: rest). rewrite (skip_ws_ws []) by (auto; constructor). reflexivity. }
    subst t. rewrite <- app_assoc. cbn [app]. rewrite (skip_ws_ws w) by auto.
    destruct (N.eqb_spec c 93); [contradiction|]. rewrite K. unfold read. cbn [bind]. rewrite <- Nat.add_succ_comm. destruct (_ <=? _); reflexivity.
  - intros w W [|fuel] d rest F L S; [lia|]. cbn [app]. rewrite <- app_assoc. cbn [app]. rewrite pv_head by discriminate. unfold value_body.
    change (123 =? 34)%N with false. change ((123 =? 45) || (48 <=? 123) && (123 <=? 57))%N with false. change (123 =? 91)%N with false. change (123 =? 123)%N with true. cbv iota. cbv zeta.
    rewrite skip_ws_ws by (auto; reflexivity). change (125 =? 125)%N with true. cbv iota. cbn [nesting fold_right]. unfold read.
    destruct (Nat.leb_spec 1000 d), (Nat.leb_spec (d + 1) 1000); try lia; reflexivity.
  - intros t l E IH [|fuel] d rest F L S; [lia|]. cbn [app]. rewrite <- app_assoc. cbn [app]. rewrite pv_head by discriminate. unfold value_body.
    change (123 =? 34)%N with false. change ((123 =? 45) || (48 <=? 123) && (123 <=? 57))%N with false. change (123 =? 91)%N with false. change (123 =? 123)%N with true. cbv iota. cbv zeta.
    change (nesting (JObj l)) with (Datatypes.S (deepm l)).
    destruct (Nat.leb_spec 1000 d); [destruct (Nat.leb_spec (d + Datatypes.S (deepm l)) 1000); [lia|reflexivity]|].
    assert (FL : 2 * length t + 1 < fuel) by (cbn [length] in F; rewrite app_length in F; cbn in F; lia).
    destruct (members_starts t l E) as (r & w & Et & W).
    assert (K : parse_members strtod fuel (Datatypes.S d) (34%N :: r ++ 125%N :: rest) = read (Datatypes.S d + deepm l <=? 1000) l rest).
    { rewrite <- (IH fuel (Datatypes.S d) rest FL) by lia. destruct fuel as [|fuel]; [lia|]. rewrite !pm_eq. subst t. rewrite <- app_assoc. cbn [app].
      destruct (ws_head w 34%N (r ++ 125%N :: rest) W) as (x & q & Ex & _); [reflexivity|].
      rewrite (skip_ws_ws w) by (auto; reflexivity). rewrite Ex. change (34%N :: r ++ 125%N :: rest) with ([] ++ 34%N :: r ++ 125%N :: rest) at 1. rewrite (skip_ws_ws []) by (try constructor; reflexivity). reflexivity. }
    subst t. rewrite <- app_assoc. cbn [app]. rewrite (skip_ws_ws w) by (auto; reflexivity).
    change (34 =? 125)%N with false. cbv iota. rewrite K. unfold read. cbn [bind]. rewrite <- Nat.add_succ_comm. destruct (_ <=? _); reflexivity.
  - intros w1 t w2 v W1 Hd IH W2 [|fuel] d rest F L; [lia|]. rewrite pi_eq, <- !app_assoc. rewrite !app_length in F.
    destruct (starts t v Hd) as (c & r & Et & C & _). subst t. cbn [app]. rewrite (skip_ws_ws w1) by auto.
    change (c :: r ++ w2 ++ 93%N :: rest) with ((c :: r) ++ w2 ++ 93%N :: rest). rewrite IH; [|cbn [length] in *; lia|lia|apply ws_stops; [auto|reflexivity]].
    unfold read. cbn [bind deep fold_right]. rewrite Nat.max_0_r. destruct (_ <=? _); [|reflexivity]. rewrite (skip_ws_ws w2) by (auto; reflexivity). reflexivity.
  - intros w1 t w2 v u l W1 Hd IH W2 He IHe [|fuel] d rest F L; [lia|]. rewrite pi_eq, <- !app_assoc. rewrite !app_length in F.
    destruct (starts t v Hd) as (c & r & Et & C & _). subst t. cbn [app]. rewrite (skip_ws_ws w1) by auto.
    change (c :: r ++ w2 ++ 44%N :: u ++ 93%N :: rest) with ((c :: r) ++ w2 ++ 44%N :: u ++ 93%N :: rest). rewrite IH; [|cbn [length] in *; lia|lia|apply ws_stops; [auto|reflexivity]].
    unfold read. cbn [bind]. change (deep (v :: l)) with (Nat.max (nesting v) (deep l)). rewrite add_max_le. destruct (d + nesting v <=? 1000); [|reflexivity].
    rewrite (skip_ws_ws w2) by (auto; reflexivity). change (44 =? 44)%N with true. cbv iota. rewrite IHe by (cbn [length] in F; lia). unfold read. cbn [bind andb]. destruct (_ <=? _); reflexivity.
  - intros w1 k w2 w3 t w4 s v W1 M Z W2 W3 Hd IH W4 [|fuel] d rest F L; [lia|]. rewrite pm_eq. repeat (rewrite <- app_assoc; cbn [app]).
    destruct (ws_head w1 34%N (k ++ 34%N :: w2 ++ 58%N :: w3 ++ t ++ w4 ++ 125%N :: rest) W1) as (x & q & Ex & _); [reflexivity|].
    rewrite (skip_ws_ws w1) by (auto; reflexivity). rewrite Ex. rewrite (string_reads k s _ M), (cstr_id s Z). cbn [bind].
    rewrite (skip_ws_ws w2) by (auto; reflexivity). change (negb (58 =? 58)%N) with false. cbv iota.
    destruct (starts t v Hd) as (c & r & Et & C & _). subst t. cbn [app]. rewrite (skip_ws_ws w3) by auto.
    change (c :: r ++ w4 ++ 125%N :: rest) with ((c :: r) ++ w4 ++ 125%N :: rest).
    rewrite IH; [|repeat (rewrite app_length in F; cbn [length] in F); cbn [length]; lia|lia|apply ws_stops; [auto|reflexivity]].
    unfold read. cbn [bind deepm fold_right]. rewrite Nat.max_0_r. destruct (_ <=? _); [|reflexivity]. rewrite (skip_ws_ws w4) by (auto; reflexivity). reflexivity.
  - intros w1 k w2 w3 t w4 s v u l W1 M Z W2 W3 Hd IH W4 He IHe [|fuel] d rest F L; [lia|]. rewrite pm_eq. repeat (rewrite <- app_assoc; cbn [app]).
    destruct (ws_head w1 34%N (k ++ 34%N :: w2 ++ 58%N :: w3 ++ t ++ w4 ++ 44%N :: u ++ 125%N :: rest) W1) as (x & q & Ex & _); [reflexivity|].
    rewrite (skip_ws_ws w1) by (auto; reflexivity). rewrite Ex. rewrite (string_reads k s _ M), (cstr_id s Z). cbn [bind].
    rewrite (skip_ws_ws w2) by (auto; reflexivity). change (negb (58 =? 58)%N) with false. cbv iota.
    destruct (starts t v Hd) as (c & r & Et & C & _). subst t. cbn [app]. rewrite (skip_ws_ws w3) by auto.
    change (c :: r ++ w4 ++ 44%N :: u ++ 125%N :: rest) with ((c :: r) ++ w4 ++ 44%N :: u ++ 125%N :: rest).
    rewrite IH; [|repeat (rewrite app_length in F; cbn [length] in F); cbn [length]; lia|lia|apply ws_stops; [auto|reflexivity]].
    unfold read. cbn [bind]. change (deepm ((s, v) :: l)) with (Nat.max (nesting v) (deepm l)). rewrite add_max_le. destruct (d + nesting v <=? 1000); [|reflexivity].
    rewrite (skip_ws_ws w4) by (auto; reflexivity). change (44 =? 44)%N with true. cbv iota. rewrite IHe by (repeat (rewrite app_length in F; cbn [length] in F); lia).
    unfold read. cbn [bind andb]. destruct (_ <=? _); reflexivity.
Qed.

Lemma parse_reads t v w junk : denotes strtod t v -> ws w -> (match junk with [] => True | c :: _ => num_char c = false end) ->
  parse strtod (w ++ t ++ junk) = Ok (if nesting v <=? 1000 then Some v else None).
Proof.
  intros H W J. unfold parse. destruct (starts t v H) as (c & r & -> & C & C2 & _).
  assert (P : is_prefix [239; 187; 191]%N ((w ++ (c :: r) ++ junk) ++ [0%N]) = false).
  { destruct W as [|x w X W]; cbn [app is_prefix].
    - destruct (N.eqb_spec 239 c); [congruence|reflexivity].
    - destruct (N.eqb_spec 239 x); [lia|reflexivity]. }
  rewrite P, andb_false_r. rewrite <- !app_assoc. cbn [app]. rewrite (skip_ws_ws w) by auto.
  change (c :: r ++ junk ++ [0%N]) with ((c :: r) ++ junk ++ [0%N]).
  rewrite (proj1 reads (c :: r) v H); [|repeat (rewrite app_length; cbn [length]); lia|lia|destruct junk; [reflexivity|exact J]].
  unfold read. cbn [bind Nat.add]. destruct (_ <=? _); reflexivity.
Qed.
Lemma parse_bom t v w junk : denotes strtod t v -> ws w -> (match junk with [] => True | c :: _ => num_char c = false end) ->
  parse strtod ([239; 187; 191]%N ++ w ++ t ++ junk) = Ok (if nesting v <=? 1000 then Some v else None).
Proof.
  intros H W J. unfold parse. destruct (starts t v H) as (c & r & -> & C & C2 & _).
  assert (Q : (4 <? length (([239; 187; 191]%N ++ w ++ (c :: r) ++ junk) ++ [0%N])) = true).
  { apply Nat.ltb_lt. repeat (rewrite app_length; cbn [length]). lia. }
  rewrite Q. cbn [andb]. change (is_prefix [239; 187; 191]%N (([239; 187; 191]%N ++ w ++ (c :: r) ++ junk) ++ [0%N])) with true. cbv iota.
  change (skipn 3 (([239; 187; 191]%N ++ w ++ (c :: r) ++ junk) ++ [0%N])) with ((w ++ (c :: r) ++ junk) ++ [0%N]).
  rewrite <- !app_assoc. cbn [app]. rewrite (skip_ws_ws w) by auto.
  change (c :: r ++ junk ++ [0%N]) with ((c :: r) ++ junk ++ [0%N]).
  rewrite (proj1 reads (c :: r) v H); [|repeat (rewrite app_length; cbn [length]); lia|lia|destruct junk; [reflexivity|exact J]].
  unfold read. cbn [bind Nat.add]. destruct (_ <=? _); reflexivity.
Qed.
End Read.

(** ** What is written *)
Lemma escape_len c : length (escape c) = 1 + extra c.
Proof.
  unfold escape, extra.
  destruct (N.eqb_spec c 34) as [-> |A]; [reflexivity|]. destruct (N.eqb_spec c 92) as [-> |B]; [reflexivity|].
  destruct (N.eqb_spec c 8) as [-> |C]; [reflexivity|]. destruct (N.eqb_spec c 12) as [-> |C1]; [reflexivity|]. destruct (N.eqb_spec c 10) as [-> |C2]; [reflexivity|].
  destruct (N.eqb_spec c 13) as [-> |C3]; [reflexivity|]. destruct (N.eqb_spec c 9) as [-> |C4]; [reflexivity|].
  destruct (N.ltb_spec 31 c), (N.ltb_spec c 32); try lia; reflexivity.
Qed.
Lemma escape_all_len s : length (flat_map escape s) = length s + escape_characters s.
Proof.
  induction s as [|c s IH]; [reflexivity|]. cbn [flat_map escape_characters fold_right length]. rewrite app_length, IH, escape_len. fold (escape_characters s). lia.
Qed.
Lemma escape_none s : escape_characters s = 0 -> flat_map escape s = s.
Proof.
  induction s as [|c s IH]; intros H; [reflexivity|]. cbn [escape_characters fold_right] in H. fold (escape_characters s) in H. cbn [flat_map]. rewrite IH by lia.
  assert (E : extra c = 0) by lia. unfold extra in E. unfold escape.
  destruct (N.eqb_spec c 34) as [A|A]; [cbn in E; lia|]. destruct (N.eqb_spec c 92) as [B|B]; [cbn in E; lia|]. cbn [orb] in E.
  destruct ((c =? 8) || (c =? 12) || (c =? 10) || (c =? 13) || (c =? 9))%N eqn:K; [lia|].
  destruct (N.ltb_spec c 32); [lia|]. destruct (N.ltb_spec 31 c); [reflexivity|lia].
Qed.
Lemma print_string_eq s : print_string s = Ok (34%N :: flat_map escape s ++ [34%N]).
Proof.
  unfold print_string. destruct (Nat.eqb_spec (escape_characters s) 0) as [E|E].
  - rewrite E, Nat.add_0_r, firstn_all, Nat.eqb_refl, escape_none by auto. reflexivity.
  - rewrite escape_all_len, Nat.eqb_refl. reflexivity.
Qed.
Lemma hex_digit_ok n : (n < 16)%N -> hex (hex_digit n) n.
Proof.
  intros H. unfold hex_digit. destruct (N.ltb_spec n 10); [now constructor|].
  replace (87 + n)%N with (97 + (n - 10))%N by lia. replace n with (10 + (n - 10))%N at 2 by lia. constructor. lia.
Qed.
Lemma escape_means c t s : means t s -> c <> 0%N -> means (escape c ++ t) (c :: s).
Proof.
  intros M Z. unfold escape.
  destruct (N.ltb_spec 31 c); cbn [andb].
  - destruct (N.eqb_spec c 34) as [-> |A]; [apply (M_short 34 34); [cbn; tauto|auto]|]. destruct (N.eqb_spec c 92) as [-> |B]; [apply (M_short 92 92); [cbn; tauto|auto]|].
    cbn [negb andb app]. constructor; auto. lia.
  - destruct (N.eqb_spec c 92); [lia|]. destruct (N.eqb_spec c 34); [lia|].
    destruct (N.eqb_spec c 8) as [-> |C]; [apply (M_short 98 8); [cbn; tauto|auto]|]. destruct (N.eqb_spec c 12) as [-> |C1]; [apply (M_short 102 12); [cbn; tauto|auto]|].
    destruct (N.eqb_spec c 10) as [-> |C2]; [apply (M_short 110 10); [cbn; tauto|auto]|]. destruct (N.eqb_spec c 13) as [-> |C3]; [apply (M_short 114 13); [cbn; tauto|auto]|].
    destruct (N.eqb_spec c 9) as [-> |C4]; [apply (M_short 116 9); [cbn; tauto|auto]|].
    change (means (92 :: 117 :: [48; 48; hex_digit (c / 16); hex_digit (c mod 16)] ++ t)%N ([c] ++ s)).
    assert (U : utf8 c = [c]) by (unfold utf8; destruct (N.ltb_spec c 128); [reflexivity|lia]). rewrite <- U.
    apply M_unicode; [|unfold surrogate; lia|auto].
    assert (c / 16 < 16)%N by (apply N.div_lt_upper_bound; lia). assert (c mod 16 < 16)%N by (apply N.mod_lt; discriminate).
    exists 48%N, 48%N, (hex_digit (c / 16)), (hex_digit (c mod 16)), 0%N, 0%N, (c / 16)%N, (c mod 16)%N.
    split; [reflexivity|]. split; [apply (Hex_09 0); reflexivity|]. split; [apply (Hex_09 0); reflexivity|]. split; [now apply hex_digit_ok|]. split; [now apply hex_digit_ok|].
    pose proof (N.div_mod c 16). lia.
Qed.
Lemma escapes_mean s : ~ In 0%N s -> means (flat_map escape s) s.
Proof.
  induction s as [|c s IH]; intros H; [constructor|]. cbn [flat_map]. apply escape_means; [apply IH; intros X; apply H; now right|]. intros ->. apply H. now left.
Qed.

Section Write.
Context {D : Type} (show : D -> bytes) (strtod : bytes -> option (D * nat)).
Lemma json_ind' (P : json D -> Prop) : P JNull -> (forall b, P (JBool b)) -> (forall d, P (JNum d)) -> (forall s, P (JStr s)) ->
  (forall l, Forall P l -> P (JArr l)) -> (forall l, Forall (fun kv => P (snd kv)) l -> P (JObj l)) -> forall v, P v.
Proof.
  intros A B C E F G. fix rec 1. intros v; destruct v as [|b|d|s|l|l]; [exact A|apply B|apply C|apply E| |].
  - apply F. induction l as [|v l IH]; [constructor|]. constructor; [apply rec|exact IH].
  - apply G. induction l as [|[k v] l IH]; [constructor|]. constructor; [apply rec|exact IH].
Qed.
Lemma tabs_ws n : ws (tabs n).
Proof. induction n; constructor; auto. Qed.
Lemma ws_app a b : ws a -> ws b -> ws (a ++ b).
Proof. intros A B. apply Forall_app; auto. Qed.
Lemma print_denotes fmt v : forall depth, writable strtod show v -> exists t, print show fmt depth v = Ok t /\ denotes strtod t v.
Proof.
  induction v as [|b|d|s|l IH|l IH] using json_ind'; intros depth W.
  - eexists. split; [reflexivity|constructor].
  - eexists. split; [reflexivity|]. destruct b; constructor.
  - inversion W; subst. eexists. split; [reflexivity|]. now constructor.
  - inversion W; subst. cbn [print]. rewrite print_string_eq. eexists. split; [reflexivity|]. constructor; [now apply escapes_mean|auto].
  - inversion W as [| | | |? F|]; subst. cbn [print].
    assert (K : exists t, print_elements (print show fmt (S depth)) fmt l = Ok t /\ (l = [] /\ t = [] \/ forall w, ws w -> elements strtod (w ++ t) l)).
    { clear W. induction l as [|v l IHl]; [eexists; split; [reflexivity|left; auto]|].
      inversion IH as [|? ? I1 I2]; subst. inversion F as [|? ? F1 F2]; subst. destruct (I1 (S depth) F1) as (t & E1 & E2). destruct (IHl I2 F2) as (u & G1 & G2).
      cbn [print_elements]. rewrite E1. cbn [bind]. fold (print_elements (print show fmt (S depth)) fmt). rewrite G1. cbn [bind]. eexists. split; [reflexivity|]. right. intros w Ww.
      destruct G2 as [[-> ->]|G2].
      - cbn [app]. rewrite !app_nil_r. rewrite <- (app_nil_r (w ++ t)), <- app_assoc. apply E_one; auto. constructor.
      - destruct l as [|v2 l]; [exfalso; specialize (G2 [] (Forall_nil _)); inversion G2|].
        destruct fmt.
        + change (bs ", ") with ([] ++ 44%N :: [32%N]). replace (w ++ t ++ ([] ++ 44%N :: [32%N]) ++ u) with (w ++ t ++ [] ++ 44%N :: ([32%N] ++ u)) by reflexivity.
          apply E_more; auto; [constructor|]. apply G2. constructor; [auto|constructor].
        + change (w ++ t ++ bs "," ++ u) with (w ++ t ++ [] ++ 44%N :: ([] ++ u)). apply E_more; auto; [constructor|]. apply G2. constructor. }
    destruct K as (t & E & K). rewrite E. cbn [bind]. eexists. split; [reflexivity|]. destruct K as [[-> ->]|K].
    + apply (D_arr0 strtod []). constructor.
    + apply (D_arr strtod t). apply (K []). constructor.
  - inversion W as [| | | | |? F]; subst. cbn [print].
    assert (K : exists t, print_members (print show fmt (S depth)) fmt (S depth) l = Ok t /\ (l = [] /\ t = [] \/ forall w w', ws w -> ws w' -> members strtod (w ++ t ++ w') l)).
    { clear W. induction l as [|[k v] l IHl]; [eexists; split; [reflexivity|left; auto]|].
      inversion IH as [|? ? I1 I2]; subst. inversion F as [|? ? [F1 F1'] F2]; subst. cbn [fst snd] in *. destruct (I1 (S depth) F1') as (t & E1 & E2). destruct (IHl I2 F2) as (u & G1 & G2).
      cbn [print_members]. rewrite print_string_eq. cbn [bind]. rewrite E1. cbn [bind]. fold (print_members (print show fmt (S depth)) fmt (S depth)). rewrite G1. cbn [bind].
      eexists. split; [reflexivity|]. right. intros w w' Ww Ww'.
      set (tb := if fmt then tabs (S depth) else []). set (nl := if fmt then [10%N] else []).
      assert (Wt : ws tb) by (unfold tb; destruct fmt; [apply tabs_ws|constructor]). assert (Wn : ws nl) by (unfold nl; destruct fmt; [constructor; [auto|constructor]|constructor]).
      assert (W3 : ws (if fmt then [9%N] else [])) by (destruct fmt; [constructor; [auto|constructor]|constructor]).
      assert (C : (if fmt then [58; 9] else [58])%N = 58%N :: (if fmt then [9%N] else [])) by (destruct fmt; reflexivity). rewrite C.
      destruct G2 as [[-> ->]|G2].
      - match goal with |- members _ ?x _ => replace x with ((w ++ tb) ++ 34%N :: flat_map escape k ++ 34%N :: [] ++ 58%N :: (if fmt then [9%N] else []) ++ t ++ (nl ++ w')) end.
        2:{ unfold tb, nl. cbn [app]. rewrite app_nil_r. repeat (rewrite <- ?app_assoc; cbn [app]). reflexivity. }
        apply O_one; auto; [apply ws_app; auto|now apply escapes_mean|constructor|apply ws_app; auto].
      - destruct l as [|v2 l]; [exfalso; specialize (G2 [] [] (Forall_nil _) (Forall_nil _)); inversion G2|].
        match goal with |- members _ ?x _ => replace x with ((w ++ tb) ++ 34%N :: flat_map escape k ++ 34%N :: [] ++ 58%N :: (if fmt then [9%N] else []) ++ t ++ [] ++ 44%N :: (nl ++ u ++ w')) end.
        2:{ unfold tb, nl. cbn [app]. change (bs ",") with [44%N]. repeat (rewrite <- ?app_assoc; cbn [app]). reflexivity. }
        apply O_more; auto; [apply ws_app; auto|now apply escapes_mean|constructor|constructor]. }
    destruct K as (t & E & K). rewrite E. cbn [bind]. eexists. split; [reflexivity|].
    assert (Wn : ws (if fmt then [10%N] else [])) by (destruct fmt; [constructor; [auto|constructor]|constructor]).
    assert (Wt : ws (if fmt then tabs depth else [])) by (destruct fmt; [apply tabs_ws|constructor]).
    destruct K as [[-> ->]|K].
    + change (bs "{" ++ (if fmt then [10%N] else []) ++ [] ++ (if fmt then tabs depth else []) ++ bs "}") with (123%N :: (if fmt then [10%N] else []) ++ (if fmt then tabs depth else []) ++ [125%N]).
      rewrite app_assoc. apply D_obj0. now apply ws_app.
    + replace (bs "{" ++ (if fmt then [10%N] else []) ++ t ++ (if fmt then tabs depth else []) ++ bs "}") with (123%N :: ((if fmt then [10%N] else []) ++ t ++ (if fmt then tabs depth else [])) ++ [125%N]).
      2:{ rewrite <- !app_assoc. reflexivity. }
      apply D_obj. now apply K.
Qed.
End Write.
