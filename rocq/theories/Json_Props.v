(** Properties C19 (stringify then parse), C20 (parsing arbitrary text) and C51 (parsing
    valid JSON).  [fmt] and [strtod] stand for the C library's sprintf("%.15g") and strtod:
    the theorems hold for all of them. *)
From Verif Require Import Common Json_Model Json_Spec Json_Proofs.

Section Props.
  Context {D : Type} (fmt : D -> bytes) (strtod : bytes -> option (D * nat)).

  (** The number is printed with a leading digit or minus sign, and strtod reads the
      printed text back to the same number, stopping at its end.  False for infinities,
      NaNs and doubles that need more than 15 digits. *)
  Definition survives (d : D) : Prop :=
    (exists c u, fmt d = c :: u /\ (c = ch "-" \/ is_digit c = true)) /\
    (forall rest, delim rest -> strtod (fmt d ++ rest) = Some (d, length (fmt d))).

  (** What a JSON value must satisfy: C strings (no NUL), no backspace or form feed in a
      string, no quote or backslash in a key, strings and keys below 4096 bytes, distinct
      keys in an object. *)
  Fixpoint simple (v : json D) : Prop :=
    match v with
    | JNull | JBool _ => True
    | JNum d => survives d
    | JStr s => ~ In 0%N s /\ ~ In 8%N s /\ ~ In 12%N s /\ length s <= 4095
    | JArr l => (fix all (l : list (json D)) : Prop :=
                   match l with [] => True | v :: l => simple v /\ all l end) l
    | JObj m => NoDup (map fst m) /\
                (fix all (m : list (bytes * json D)) : Prop :=
                   match m with
                   | [] => True
                   | (k, v) :: m => (~ In 0%N k /\ ~ In 34%N k /\ ~ In 92%N k /\ length k <= 4095) /\
                                    simple v /\ all m
                   end) m
    end.

  Let number (d : D) (t : bytes) : Prop := t = fmt d /\ survives d.
  Let plain (c : N) : Prop := c <> 0%N.

  Lemma stringify_value : forall v, simple v -> value number plain v (stringify fmt v).
  Proof.
    assert (PW : forall l, ws l -> l ++ [] = l) by (intros; apply app_nil_r).
    assert (W0 : ws []) by constructor.
    induction v as [|b|d|s|l FA|m FA] using json_nested_ind; intros H.
    - constructor.
    - destruct b; constructor.
    - apply v_num. split; auto.
    - destruct H as (H0 & H8 & H12 & HL). apply v_str; auto. exists (flat_map escape s). split; auto.
      apply escape_chars; auto.
    - rewrite stringify_arr. destruct l as [|v l]; [apply (v_arr0 _ _ []); auto|]. apply v_arr.
      cbn [simple] in H.
      revert v H FA. induction l as [|v' l IHl]; intros v H FA; inversion FA as [|? ? IH FA']; subst.
      + cbn [items_text]. rewrite app_nil_r. cbn [app].
        rewrite <- (app_nil_r (stringify fmt v)). apply (e_one number plain v []); auto. apply IH. apply H.
      + destruct H as [Hv Hl]. specialize (IHl v' Hl FA'). cbn [items_text] in *. cbn [app] in *.
        apply (e_more number plain v [] (stringify fmt v) []); auto.
    - rewrite stringify_obj. destruct m as [|[k v] m]; [apply (v_obj0 _ _ []); auto|]. apply v_obj.
      cbn [simple] in H. destruct H as [ND H].
      enough (G : forall m0, (forall k', In k' (map fst m0) -> ~ In k' (map fst ((k, v) :: m))) ->
                  members number plain m0 (m0 ++ (k, v) :: m) (members_text fmt true ((k, v) :: m))).
      { apply (G []). intros ? []. }
      revert k v ND H FA.
      induction m as [|[k2 v2] m IHm]; intros k v ND H FA m0 HD; inversion FA as [|? ? IH FA']; subst; cbn [snd] in IH.
      + cbn [members_text]. destruct H as [(K0 & K34 & K92 & KL) [Hv _]].
        rewrite app_nil_r. cbn [app].
        rewrite <- (member_put_new k v m0) by (intros I; apply (HD k I); now left).
        change (34%N :: k ++ 34%N :: ch ":" :: stringify fmt v)
          with ([] ++ (34%N :: k ++ 34%N :: ch ":" :: stringify fmt v)).
        replace (34%N :: k ++ 34%N :: ch ":" :: stringify fmt v)
          with (([34%N] ++ k ++ [34%N]) ++ [] ++ [ch ":"] ++ [] ++ stringify fmt v ++ []).
        2:{ rewrite app_nil_r. cbn [app]. f_equal. now rewrite <- app_assoc. }
        apply m_one; auto. exists k. split; auto. apply plain_chars; auto.
      + destruct H as [(K0 & K34 & K92 & KL) [Hv Hm]].
        assert (ND2 : NoDup (map fst ((k2, v2) :: m))) by (now inversion ND).
        assert (NK : ~ In k (map fst ((k2, v2) :: m))) by (now inversion ND).
        specialize (IHm k2 v2 ND2 Hm FA' (m0 ++ [(k, v)])).
        rewrite <- (member_put_new k v m0) in IHm by (intros I; apply (HD k I); now left).
        assert (IHm' := IHm ltac:(
          intros k' I; rewrite member_put_new in I by (intros I'; apply (HD k I'); now left);
          rewrite map_app in I; apply in_app_or in I as [I|[<-|[]]];
          [intros I'; apply (HD k' I); now right|exact NK])). clear IHm.
        rewrite member_put_new in IHm' at 2 by (intros I; apply (HD k I); now left).
        rewrite <- app_assoc in IHm'. cbn [app] in IHm'.
        cbn [members_text] in *. cbn [app] in *.
        replace (34%N :: k ++ 34%N :: ch ":" :: stringify fmt v ++ ch "," :: 34%N :: k2 ++
                   34%N :: ch ":" :: stringify fmt v2 ++ members_text fmt false m)
          with ([] ++ ([34%N] ++ k ++ [34%N]) ++ [] ++ [ch ":"] ++ [] ++ stringify fmt v ++ [] ++ [ch ","] ++
                (34%N :: k2 ++ 34%N :: ch ":" :: stringify fmt v2 ++ members_text fmt false m)).
        2:{ cbn [app]. f_equal. now rewrite <- app_assoc. }
        apply m_more with (v := v) (k := k); auto. exists k. split; auto. apply plain_chars; auto.
  Qed.

  (** C19 for simple values: whatever follows the text (as long as it is not more of a
      number), parsing what stringify produced gives the value back. *)
  Theorem C19_roundtrip_partial :
    forall v rest, simple v -> delim rest ->
    json_parse strtod (stringify fmt v ++ rest) = Ok (Some v).
  Proof.
    intros v rest H DL. apply (json_parse_complete strtod number plain) with (w := []); auto.
    - intros d t r [-> [_ S]] Hr. now apply S.
    - intros d t [-> [F _]]. exact F.
    - constructor.
    - now apply stringify_value.
  Qed.

  (** The restrictions are needed.  Backspace and form feed are escaped by stringify and
      come back as letters. *)
  Theorem C19_backspace_refuted :
    json_parse strtod (stringify fmt (JStr [8%N; 12%N])) = Ok (Some (JStr (bs "bf"))).
  Proof. vm_compute. reflexivity. Qed.

  (** A quote in a key is not escaped. *)
  Theorem C19_key_refuted :
    json_parse strtod (stringify fmt (JObj [([34%N], JNull)])) = Ok None.
  Proof. vm_compute. reflexivity. Qed.

  (** %.15g maps different doubles to one text: they cannot all come back. *)
  Theorem C19_number_refuted :
    forall d1 d2, fmt d1 = fmt d2 -> d1 <> d2 ->
    ~ (json_parse strtod (stringify fmt (JNum d1)) = Ok (Some (JNum d1)) /\
       json_parse strtod (stringify fmt (JNum d2)) = Ok (Some (JNum d2))).
  Proof.
    intros d1 d2 E N [E1 E2]. cbn [stringify] in *. rewrite E in E1. congruence.
  Qed.

  (** C20 for texts in which the run from any quote to the next unescaped quote (or the
      end) is below 4096 characters.  strtod is assumed to stay inside its argument. *)
  Theorem C20_parse_total_partial :
    (forall l d n, strtod l = Some (d, n) -> 0 < n <= length l) ->
    forall text, (forall a b, text = a ++ 34%N :: b -> run_length b <= 4095) ->
    exists o, json_parse strtod text = Ok o.
  Proof.
    intros HS text HB. unfold json_parse.
    destruct (proj1 (parse_total strtod HS (2 * length text + 1)) text HB (le_n _)) as (o & l' & -> & _).
    cbn. eauto.
  Qed.

  (** Any string of 4096 or more characters overflows the parser's buffer. *)
  Theorem C20_overflow_refuted :
    forall s rest, 4096 <= length s -> (forall c, In c s -> c <> 34%N /\ c <> 92%N) ->
    json_parse strtod ([34%N] ++ s ++ [34%N] ++ rest) = UB.
  Proof.
    intros s rest HL HC.
    assert (G : forall s buf r, (forall c, In c s -> c <> 34%N /\ c <> 92%N) ->
       4096 <= length buf + length s -> length buf <= 4096 ->
       string_loop (s ++ 34%N :: r) buf = UB \/
       exists b, length b = 4096 /\ string_loop (s ++ 34%N :: r) buf = Ok (b, 34%N :: r)).
    { clear. induction s as [|c s IH]; intros buf r HC H1 H2; cbn [app string_loop length] in *.
      - right. exists buf. split; [lia|reflexivity].
      - destruct (HC c (or_introl eq_refl)). destruct (N.eqb_spec c 34); [easy|]. destruct (N.eqb_spec c 92); [easy|].
        unfold put_char. destruct (Nat.ltb_spec (length buf) 4096); [|now left]. cbn [bind].
        apply IH; [intros; apply HC; now right| |]; rewrite app_length; cbn; lia. }
    unfold json_parse. destruct (2 * length ([34%N] ++ s ++ [34%N] ++ rest) + 1) as [|f] eqn:F; [lia|].
    rewrite pv_S. cbn [app]. rewrite skip_ws_stop by reflexivity. cbv zeta. cbn [peek0].
    change (34 =? 0)%N with false. change (34 =? 34)%N with true. cbv iota.
    change (is_prefix (bs "null") (34%N :: ?l)) with false. change (is_prefix (bs "true") (34%N :: ?l)) with false.
    change (is_prefix (bs "false") (34%N :: ?l)) with false. cbv iota.
    unfold parse_string. cbn [peek0 next]. change (negb (34 =? 34)%N) with false. cbv iota. cbn [bind].
    destruct (G s [] rest HC HL ltac:(cbn; lia)) as [-> | (b & Lb & ->)]; [reflexivity|].
    cbn [bind peek0]. change (34 =? 34)%N with true. cbv iota. cbn [next bind]. unfold put_char. rewrite Lb. reflexivity.
  Qed.

  (** C51 (completeness): every JSON text (RFC 8259 grammar; strings below 4096 bytes
      without \b, \f and \u escapes; numbers as strtod reads them) parses to the value it
      denotes, the last of several members with one name counting. *)
  Theorem C51_valid_json_partial :
    forall (num : D -> bytes -> Prop),
    (forall d t rest, num d t -> delim rest -> strtod (t ++ rest) = Some (d, length t)) ->
    (forall d t, num d t -> exists c u, t = c :: u /\ (c = ch "-" \/ is_digit c = true)) ->
    forall w1 v t w2, ws w1 -> value num rfc_plain v t -> ws w2 ->
    json_parse strtod (w1 ++ t ++ w2) = Ok (Some v).
  Proof.
    intros num H1 H2 w1 v t w2 W1 V W2.
    apply (json_parse_complete strtod num rfc_plain); auto.
    destruct W2; cbn; auto. cbn in H. tauto.
  Qed.

  (** Not only JSON is accepted: anything may follow a value, and a string need not end. *)
  Theorem C51_garbage_refuted :
    forall junk, json_parse strtod (bs "null" ++ junk) = Ok (Some JNull).
  Proof.
    intros junk. unfold json_parse.
    destruct (2 * length (bs "null" ++ junk) + 1) eqn:E; [lia|]. reflexivity.
  Qed.
  Theorem C51_unterminated_refuted :
    json_parse strtod ([34%N] ++ bs "abc") = Ok (Some (JStr (bs "abc"))).
  Proof. vm_compute. reflexivity. Qed.
  (** \u escapes are not decoded. *)
  Theorem C51_unicode_refuted :
    json_parse strtod ([34; 92]%N ++ bs "u0041" ++ [34%N]) = Ok (Some (JStr (bs "u0041"))).
  Proof. vm_compute. reflexivity. Qed.
End Props.

Print Assumptions C19_roundtrip_partial.
Print Assumptions C19_backspace_refuted.
Print Assumptions C19_key_refuted.
Print Assumptions C19_number_refuted.
Print Assumptions C20_parse_total_partial.
Print Assumptions C20_overflow_refuted.
Print Assumptions C51_valid_json_partial.
Print Assumptions C51_garbage_refuted.

(** A concrete instance of the oracles: natural numbers in decimal, most significant
    digit first. *)
Fixpoint dec_digits (l : bytes) (acc : N) (n : nat) : N * nat :=
  match l with
  | c :: l => if is_digit c then dec_digits l (10 * acc + (c - 48))%N (S n) else (acc, n)
  | [] => (acc, n)
  end.
Definition toy_strtod (l : bytes) : option (N * nat) :=
  match dec_digits l 0%N 0 with (_, 0) => None | (v, n) => Some (v, n) end.
Definition toy_fmt (d : N) : bytes := [(48 + d)%N].

Definition C19_value : json N :=
  JObj [(bs "name", JStr (bs "a ""quoted"" \ text" ++ [10%N])); (bs "list", JArr [JNull; JNum 7%N; JArr []; JBool false]);
        (bs "", JObj [])].
Example C19_example :
  simple toy_fmt toy_strtod C19_value /\ delim (bs ", more") /\
  json_parse toy_strtod (stringify toy_fmt C19_value ++ bs ", more") = Ok (Some C19_value).
Proof.
  splits.
  - cbn -[bs]. splits; try (intros H; cbn in H; intuition discriminate); try (cbn; lia); auto.
    + repeat constructor; cbn; intuition discriminate.
    + split.
      * exists 55%N, []. split; auto.
      * intros rest H. destruct rest as [|c rest]; [reflexivity|]. cbn in H.
        intuition; subst; reflexivity.
    + constructor.
  - cbn. tauto.
  - vm_compute. reflexivity.
Qed.

Lemma dec_digits_in l : forall acc n, n <= snd (dec_digits l acc n) <= n + length l.
Proof.
  induction l; intros acc n; cbn; [lia|]. destruct (is_digit a); [|cbn; lia].
  specialize (IHl (10 * acc + (a - 48))%N (S n)). lia.
Qed.
Example C20_example :
  (forall l d n, toy_strtod l = Some (d, n) -> 0 < n <= length l) /\
  (forall a b, bs "[""x"", {""y"": 12" = a ++ 34%N :: b -> run_length b <= 4095) /\
  json_parse toy_strtod (bs "[""x"", {""y"": 12") = Ok None.
Proof.
  splits.
  - intros l d n. unfold toy_strtod. pose proof (dec_digits_in l 0%N 0) as H.
    destruct (dec_digits l 0%N 0) as [v k]. cbn in H. destruct k; [discriminate|]. intros [= <- <-]. lia.
  - intros a b E. assert (G : forall l, run_length l <= length l).
    { clear. fix IH 1. intros [|c l]; cbn; [lia|]. specialize (IH l) as H.
      destruct (c =? 34)%N; [lia|]. destruct (c =? 92)%N; [|lia]. destruct l as [|d l]; [lia|].
      specialize (IH l). cbn. lia. }
    specialize (G b). apply (f_equal (@length N)) in E. rewrite app_length in E. cbn in E. lia.
  - vm_compute. reflexivity.
Qed.

Example C51_example :
  let num := fun d t => t = toy_fmt d /\ (d < 10)%N in
  ws [32%N; 10%N] /\
  value num rfc_plain (JArr [JNum 7%N; JStr [10%N]]) (bs "[ 7,""\n""]") /\
  json_parse toy_strtod ([32%N; 10%N] ++ bs "[ 7,""\n""]" ++ []) = Ok (Some (JArr [JNum 7%N; JStr [10%N]])).
Proof.
  cbv zeta. splits.
  - apply Forall_cons; [cbn; auto|]. apply Forall_cons; [cbn; auto|]. constructor.
  - change (bs "[ 7,""\n""]") with ([ch "["] ++ ([32%N] ++ [55%N] ++ [] ++ [ch ","] ++ ([] ++ [34%N; 92%N; ch "n"; 34%N] ++ [])) ++ [ch "]"]).
    apply v_arr. apply e_more.
    + apply Forall_cons; [cbn; auto|constructor].
    + constructor.
    + apply v_num. split; [reflexivity|lia].
    + apply e_one; [constructor|constructor|]. apply v_str.
      * exists [92%N; ch "n"]. split; [|reflexivity]. apply chars_esc; [cbn; auto|constructor].
      * cbn. lia.
  - vm_compute. reflexivity.
Qed.
