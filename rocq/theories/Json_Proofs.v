From Verif Require Import Common Json_Model Json_Spec.

Section Proofs.
  Context {D : Type} (strtod : bytes -> option (D * nat)).
  Notation json := (json D).
  Notation parse_value := (parse_value strtod).
  Notation array_loop := (array_loop strtod).
  Notation object_loop := (object_loop strtod).

  Lemma pv_S f l : parse_value (S f) l =
      let l := skip_ws l in
      if (peek0 l =? 0)%N then Ok (None, l)
      else if is_prefix (bs "null") l then Ok (Some JNull, skipn 4 l)
      else if is_prefix (bs "true") l then Ok (Some (JBool true), skipn 4 l)
      else if is_prefix (bs "false") l then Ok (Some (JBool false), skipn 5 l)
      else if (peek0 l =? 34)%N then
        do '(s, l) <- parse_string l;
        Ok (match s with Some s => Some (JStr s) | None => None end, l)
      else if (peek0 l =? ch "-")%N || is_digit (peek0 l) then
        match strtod l with
        | None => Ok (None, l)
        | Some (d, n) => if n <=? length l then Ok (Some (JNum d), skipn n l) else UB
        end
      else if (peek0 l =? ch "[")%N then
        do l <- next l;
        let l := skip_ws l in
        if (peek0 l =? ch "]")%N then do l <- next l; Ok (Some (JArr []), l)
        else array_loop f l []
      else if (peek0 l =? ch "{")%N then
        do l <- next l;
        let l := skip_ws l in
        if (peek0 l =? ch "}")%N then do l <- next l; Ok (Some (JObj []), l)
        else object_loop f l []
      else Ok (None, l).
  Proof. reflexivity. Qed.
  Lemma al_S f l acc : array_loop (S f) l acc =
      do '(v, l) <- parse_value f (skip_ws l);
      match v with
      | None => Ok (None, l)
      | Some v =>
        let acc := acc ++ [v] in
        let l := skip_ws l in
        if (peek0 l =? ch "]")%N then do l <- next l; Ok (Some (JArr acc), l)
        else if negb (peek0 l =? ch ",")%N then Ok (None, l)
        else do l <- next l; array_loop f l acc
      end.
  Proof. reflexivity. Qed.
  Lemma ol_S f l acc : object_loop (S f) l acc =
      do '(key, l) <- parse_string (skip_ws l);
      match key with
      | None => Ok (None, l)
      | Some key =>
        let l := skip_ws l in
        if negb (peek0 l =? ch ":")%N then Ok (None, l)
        else
          do l <- next l;
          do '(v, l) <- parse_value f (skip_ws l);
          match v with
          | None => Ok (None, l)
          | Some v =>
            let acc := put key v acc in
            let l := skip_ws l in
            if (peek0 l =? ch "}")%N then do l <- next l; Ok (Some (JObj acc), l)
            else if negb (peek0 l =? ch ",")%N then Ok (None, l)
            else do l <- next l; object_loop f l acc
          end
      end.
  Proof. reflexivity. Qed.

  Lemma is_ws_in c : is_ws c = true <-> In c [32; 9; 10; 13]%N.
  Proof.
    unfold is_ws. rewrite !orb_true_iff, !N.eqb_eq. cbn. intuition congruence.
  Qed.
  Lemma skip_ws_app w l : ws w -> skip_ws (w ++ l) = skip_ws l.
  Proof.
    induction 1; cbn [app skip_ws]; auto. apply is_ws_in in H. now rewrite H.
  Qed.
  Lemma skip_ws_stop c l : is_ws c = false -> skip_ws (c :: l) = c :: l.
  Proof. cbn. now intros ->. Qed.
  Lemma skip_ws_idem l : skip_ws (skip_ws l) = skip_ws l.
  Proof. induction l; cbn; auto. destruct (is_ws a) eqn:E; auto. cbn. now rewrite E. Qed.
  Lemma skip_ws_suffix l : exists a, l = a ++ skip_ws l.
  Proof.
    induction l as [|c l [a IH]]; cbn. { now exists []. }
    destruct (is_ws c). { exists (c :: a). cbn. now f_equal. } now exists [].
  Qed.

  Section Complete.
    Context (number : D -> bytes -> Prop) (plain : N -> Prop).
    Hypothesis strtod_ok : forall d t rest, number d t -> delim rest -> strtod (t ++ rest) = Some (d, length t).
    Hypothesis number_first : forall d t, number d t ->
      exists c u, t = c :: u /\ (c = ch "-" \/ is_digit c = true).

    Lemma string_loop_ok s u : chars plain s u -> forall buf rest, length buf + length s <= 4096 ->
      string_loop (u ++ 34%N :: rest) buf = Ok (buf ++ s, 34%N :: rest).
    Proof.
      induction 1; intros buf rest L; cbn [app string_loop length] in *.
      - cbn. now rewrite app_nil_r.
      - destruct (N.eqb_spec c 34); [easy|]. destruct (N.eqb_spec c 92); [easy|].
        unfold put_char. destruct (Nat.ltb_spec (length buf) 4096); [|lia]. cbn [bind].
        rewrite IHchars by (rewrite app_length; cbn; lia). now rewrite <- app_assoc.
      - cbn [N.eqb Pos.eqb]. unfold put_char. destruct (Nat.ltb_spec (length buf) 4096); [|lia]. cbn [bind].
        rewrite IHchars by (rewrite app_length; cbn; lia). rewrite <- app_assoc. cbn [app].
        replace (unescape e) with c; auto.
        cbn in H. intuition; match goal with H : (_, _) = (_, _) |- _ => injection H as <- <-; reflexivity end.
    Qed.
    Lemma parse_string_ok s q rest : quoted plain s q -> length s <= 4095 ->
      parse_string (q ++ rest) = Ok (Some s, rest).
    Proof.
      intros (u & H & ->) L. unfold parse_string. cbn [app peek0]. cbn [N.eqb Pos.eqb negb next bind].
      rewrite <- app_assoc. cbn [app]. rewrite (string_loop_ok _ _ H) by (cbn; lia). cbn [bind app peek0 N.eqb Pos.eqb next].
      unfold put_char. destruct (Nat.ltb_spec (length s) 4096); [|lia]. reflexivity.
    Qed.

    (** first character of a value *)
    Definition starts (l : bytes) : Prop :=
      match l with [] => False | c :: _ => is_ws c = false /\ c <> 0%N /\ c <> ch "]" /\ c <> ch "}" end.
    Lemma digit_range c : is_digit c = true -> (48 <= c <= 57)%N.
    Proof. unfold is_digit. rewrite andb_true_iff, !N.leb_le. auto. Qed.
    Lemma starts_number c : c = ch "-" \/ is_digit c = true -> starts [c].
    Proof.
      intros [->|H]; cbn. { splits; [reflexivity|discriminate..]. }
      apply digit_range in H. unfold is_ws.
      destruct (N.eqb_spec c 32), (N.eqb_spec c 9), (N.eqb_spec c 10), (N.eqb_spec c 13); try lia.
    Qed.
    Lemma starts_app c u rest : starts (c :: u) -> starts ((c :: u) ++ rest).
    Proof. auto. Qed.
    Lemma value_starts v t : value number plain v t -> starts t.
    Proof.
      destruct 1 as [| | |d t Hn|s t [u [H ->]] HL| | | |]; try (cbn; splits; [reflexivity|discriminate..]).
      destruct (number_first _ _ Hn) as (c & u & -> & Hc). exact (starts_number c Hc).
    Qed.
    Lemma starts_skip t rest : starts t -> skip_ws (t ++ rest) = t ++ rest.
    Proof. destruct t as [|c t]; [easy|]. intros (H & _). cbn. now rewrite H. Qed.
    Lemma peek_app t rest : starts t -> peek0 (t ++ rest) = peek0 t.
    Proof. destruct t; [easy|reflexivity]. Qed.
    Lemma starts_nz t : starts t -> (peek0 t =? 0)%N = false.
    Proof. destruct t; [easy|]. intros (_ & H & _). now apply N.eqb_neq. Qed.

    Lemma is_prefix_false p c t : is_prefix p [] = false -> p <> [] -> hd 0%N p <> c -> is_prefix p (c :: t) = false.
    Proof. destruct p; [easy|]. cbn. intros _ _ H. destruct (N.eqb_spec n c); [easy|reflexivity]. Qed.

    Lemma elements_ne l t : elements number plain l t -> exists w u, t = w ++ u /\ ws w /\ starts u.
    Proof.
      destruct 1 as [v w1 t w2 H1 H2 H3|v w1 t w2 l u H1 H2 H3 H4].
      - exists w1, (t ++ w2). splits; auto. pose proof (value_starts _ _ H3) as S. now destruct t.
      - exists w1, (t ++ w2 ++ [ch ","] ++ u). splits; auto. pose proof (value_starts _ _ H3) as S. now destruct t.
    Qed.
    Lemma members_ne m0 m t : members number plain m0 m t -> exists w u, t = w ++ u /\ ws w /\ starts u.
    Proof.
      destruct 1; destruct H3 as (u' & _ & ->); (eexists w1, _; splits; [reflexivity|assumption|]);
        (cbn; splits; [reflexivity|discriminate..]).
    Qed.

    Lemma delim_ws_then w c rest : ws w -> In c [ch ","; ch "]"; ch "}"] -> delim (w ++ c :: rest).
    Proof.
      intros H I. destruct H as [|x w H]; cbn [app delim].
      - cbn in *. tauto.
      - cbn in *. tauto.
    Qed.
    Lemma put_member_put k v m : put k v m = @member_put D k v m.
    Proof. induction m as [|[k' v'] m IH]; cbn; auto. Qed.

    Lemma parse_complete :
      (forall v t, value number plain v t -> forall w rest f, ws w -> delim rest -> 2 * length t + 1 <= f ->
         parse_value f (w ++ t ++ rest) = Ok (Some v, rest)) /\
      (forall l t, elements number plain l t -> forall rest f acc, 2 * length t + 2 <= f ->
         array_loop f (t ++ ch "]" :: rest) acc = Ok (Some (JArr (acc ++ l)), rest)) /\
      (forall m0 m t, members number plain m0 m t -> forall rest f, 2 * length t + 2 <= f ->
         object_loop f (t ++ ch "}" :: rest) m0 = Ok (Some (JObj m), rest)).
    Proof.
      apply json_mind.
      - intros w rest f W DL F. destruct f as [|f]; [cbn in F; lia|]. rewrite pv_S; cbv zeta.
        rewrite skip_ws_app by auto. reflexivity.
      - intros w rest f W DL F. destruct f as [|f]; [cbn in F; lia|]. rewrite pv_S; cbv zeta.
        rewrite skip_ws_app by auto. reflexivity.
      - intros w rest f W DL F. destruct f as [|f]; [cbn in F; lia|]. rewrite pv_S; cbv zeta.
        rewrite skip_ws_app by auto. reflexivity.
      - intros d t Hn w rest f W DL F. destruct f as [|f]; [lia|]. rewrite pv_S; cbv zeta.
        rewrite skip_ws_app by auto. destruct (number_first _ _ Hn) as (c & u & Et & Hc).
        assert (St : starts t) by (subst t; exact (starts_number c Hc)).
        rewrite starts_skip, peek_app, starts_nz by auto.
        rewrite (strtod_ok d t rest) by auto. rewrite Et. cbn [app peek0].
        assert (B : (c =? ch "-")%N || is_digit c = true).
        { destruct Hc as [-> | ->]; [reflexivity|apply orb_true_r]. }
        assert (R : c = ch "-" \/ (48 <= c <= 57)%N) by (destruct Hc; auto using digit_range).
        assert (P : forall p q, p <> c -> is_prefix (p :: q) (c :: u ++ rest) = false).
        { intros p q Hp. cbn. now destruct (N.eqb_spec p c). }
        assert (V : ch "-" = 45%N) by reflexivity. rewrite V in R.
        change (bs "null") with (ch "n" :: bs "ull"). change (bs "true") with (ch "t" :: bs "rue").
        change (bs "false") with (ch "f" :: bs "alse").
        rewrite !P by (cbn; lia). destruct (N.eqb_spec c 34); [lia|]. rewrite B.
        destruct (Nat.leb_spec (length (c :: u)) (length (c :: u ++ rest))).
        2:{ cbn in *. rewrite app_length in *. lia. }
        do 2 f_equal. change (c :: u ++ rest) with ((c :: u) ++ rest).
        now rewrite skipn_app, skipn_all, Nat.sub_diag.
      - intros s t Hq HL w rest f W DL F. destruct f as [|f]; [lia|]. rewrite pv_S; cbv zeta.
        rewrite skip_ws_app by auto. pose proof (parse_string_ok s t rest Hq HL) as E.
        destruct Hq as (u & Hu & ->). cbn [app] in *. rewrite skip_ws_stop by reflexivity.
        cbn [peek0]. change (34 =? 0)%N with false. change (34 =? 34)%N with true. cbv iota.
        change (is_prefix (bs "null") (34%N :: ?l)) with false. change (is_prefix (bs "true") (34%N :: ?l)) with false.
        change (is_prefix (bs "false") (34%N :: ?l)) with false. cbv iota. rewrite E. reflexivity.
      - intros w0 W0 w rest f W DL F. destruct f as [|f]; [cbn in F; lia|]. rewrite pv_S; cbv zeta.
        rewrite skip_ws_app by auto. cbn [app]. rewrite skip_ws_stop by reflexivity. cbn.
        rewrite <- app_assoc, skip_ws_app by auto. reflexivity.
      - intros l t He IH w rest f W DL F. destruct f as [|f]; [cbn in F; lia|]. rewrite pv_S; cbv zeta.
        rewrite skip_ws_app by auto. cbn [app]. rewrite skip_ws_stop by reflexivity.
        cbn [peek0]. change (ch "[" =? 0)%N with false. change (ch "[" =? 34)%N with false.
        change (is_prefix (bs "null") (ch "[" :: ?l)) with false. change (is_prefix (bs "true") (ch "[" :: ?l)) with false.
        change (is_prefix (bs "false") (ch "[" :: ?l)) with false. change ((ch "[" =? ch "-")%N || is_digit (ch "[")) with false.
        change (ch "[" =? ch "[")%N with true. cbv iota. cbn [next bind].
        rewrite <- app_assoc. cbn [app]. destruct (elements_ne _ _ He) as (w1 & u & Et & W1 & Su).
        assert (E : skip_ws (t ++ ch "]" :: rest) = u ++ ch "]" :: rest).
        { rewrite Et, <- app_assoc, skip_ws_app by auto. now apply starts_skip. }
        assert (NB : (peek0 (u ++ ch "]" :: rest) =? ch "]")%N = false).
        { rewrite peek_app by auto. destruct u as [|c u]; [easy|]. cbn. apply N.eqb_neq. apply Su. }
        rewrite E, NB. transitivity (array_loop f (t ++ ch "]" :: rest) []); [|apply (IH rest f [])].
        2:{ rewrite !app_length in F. cbn in F. lia. }
        destruct f; [reflexivity|]. rewrite !al_S; cbv zeta. rewrite <- E, skip_ws_idem. reflexivity.
      - intros w0 W0 w rest f W DL F. destruct f as [|f]; [cbn in F; lia|]. rewrite pv_S; cbv zeta.
        rewrite skip_ws_app by auto. cbn [app]. rewrite skip_ws_stop by reflexivity. cbn.
        rewrite <- app_assoc, skip_ws_app by auto. reflexivity.
      - intros m t Hm IH w rest f W DL F. destruct f as [|f]; [cbn in F; lia|]. rewrite pv_S; cbv zeta.
        rewrite skip_ws_app by auto. cbn [app]. rewrite skip_ws_stop by reflexivity.
        cbn [peek0]. change (ch "{" =? 0)%N with false. change (ch "{" =? 34)%N with false.
        change (is_prefix (bs "null") (ch "{" :: ?l)) with false. change (is_prefix (bs "true") (ch "{" :: ?l)) with false.
        change (is_prefix (bs "false") (ch "{" :: ?l)) with false. change ((ch "{" =? ch "-")%N || is_digit (ch "{")) with false.
        change (ch "{" =? ch "[")%N with false. change (ch "{" =? ch "{")%N with true. cbv iota. cbn [next bind].
        rewrite <- app_assoc. cbn [app]. destruct (members_ne _ _ _ Hm) as (w1 & u & Et & W1 & Su).
        assert (E : skip_ws (t ++ ch "}" :: rest) = u ++ ch "}" :: rest).
        { rewrite Et, <- app_assoc, skip_ws_app by auto. now apply starts_skip. }
        assert (NB : (peek0 (u ++ ch "}" :: rest) =? ch "}")%N = false).
        { rewrite peek_app by auto. destruct u as [|c u]; [easy|]. cbn. apply N.eqb_neq. apply Su. }
        rewrite E, NB. transitivity (object_loop f (t ++ ch "}" :: rest) []); [|apply (IH rest f)].
        2:{ rewrite !app_length in F. cbn in F. lia. }
        destruct f; [reflexivity|]. rewrite !ol_S; cbv zeta. rewrite <- E, skip_ws_idem. reflexivity.
      - intros v w1 t w2 W1 W2 Hv IH rest f acc F. destruct f as [|f]; [lia|].
        assert (IH' := fun r f => IH [] r f (Forall_nil _)); cbn [app] in IH'. rewrite al_S; cbv zeta.
        rewrite !app_length in F.
        rewrite <- !app_assoc, skip_ws_app by auto.
        rewrite starts_skip by (eapply value_starts; eauto).
        rewrite (IH' (w2 ++ ch "]" :: rest) f); [|apply delim_ws_then; cbn; auto|lia].
        cbn [bind]. rewrite skip_ws_app by auto. reflexivity.
      - intros v w1 t w2 l u W1 W2 Hv IH He IHe rest f acc F. destruct f as [|f]; [lia|].
        assert (IH' := fun r f => IH [] r f (Forall_nil _)); cbn [app] in IH'. rewrite al_S; cbv zeta.
        rewrite !app_length in F. cbn [length] in F.
        rewrite <- !app_assoc, skip_ws_app by auto.
        rewrite starts_skip by (eapply value_starts; eauto). cbn [app].
        rewrite (IH' (w2 ++ ch "," :: u ++ ch "]" :: rest) f); [|apply delim_ws_then; cbn; auto|lia].
        cbn [bind]. rewrite skip_ws_app by auto. rewrite skip_ws_stop by reflexivity. cbn [peek0 next bind].
        change (ch "," =? ch "]")%N with false. change (negb (ch "," =? ch ",")%N) with false. cbv iota.
        rewrite IHe by lia. now rewrite <- app_assoc.
      - intros m0 w1 k q w2 w3 v t w4 W1 W2 W3 W4 Hq HL Hv IH rest f F. destruct f as [|f]; [lia|].
        assert (IH' := fun r f => IH [] r f (Forall_nil _)); cbn [app] in IH'. rewrite ol_S; cbv zeta.
        rewrite !app_length in F. cbn [length] in F.
        rewrite <- !app_assoc, skip_ws_app by auto.
        assert (SQ : starts q) by (destruct Hq as (? & _ & ->); cbn; splits; [reflexivity|discriminate..]).
        rewrite starts_skip by auto. rewrite (parse_string_ok _ _ _ Hq HL). cbn [bind].
        rewrite skip_ws_app by auto. cbn [app]. rewrite skip_ws_stop by reflexivity. cbn [peek0 next bind].
        change (negb (ch ":" =? ch ":")%N) with false. cbv iota.
        rewrite skip_ws_app by auto. rewrite starts_skip by (eapply value_starts; eauto).
        rewrite (IH' (w4 ++ ch "}" :: rest) f); [|apply delim_ws_then; cbn; auto|lia].
        cbn [bind]. rewrite skip_ws_app by auto. rewrite skip_ws_stop by reflexivity. rewrite put_member_put. reflexivity.
      - intros m0 w1 k q w2 w3 v t w4 m u W1 W2 W3 W4 Hq HL Hv IH Hm IHm rest f F. destruct f as [|f]; [lia|].
        assert (IH' := fun r f => IH [] r f (Forall_nil _)); cbn [app] in IH'. rewrite ol_S; cbv zeta.
        rewrite !app_length in F. cbn [length] in F.
        rewrite <- !app_assoc, skip_ws_app by auto.
        assert (SQ : starts q) by (destruct Hq as (? & _ & ->); cbn; splits; [reflexivity|discriminate..]).
        rewrite starts_skip by auto. rewrite (parse_string_ok _ _ _ Hq HL). cbn [bind].
        rewrite skip_ws_app by auto. cbn [app]. rewrite skip_ws_stop by reflexivity. cbn [peek0 next bind].
        change (negb (ch ":" =? ch ":")%N) with false. cbv iota.
        rewrite skip_ws_app by auto. rewrite starts_skip by (eapply value_starts; eauto).
        rewrite (IH' (w4 ++ ch "," :: u ++ ch "}" :: rest) f); [|apply delim_ws_then; cbn; auto|lia].
        cbn [bind]. rewrite skip_ws_app by auto. rewrite skip_ws_stop by reflexivity. cbn [peek0 next bind].
        change (ch "," =? ch "}")%N with false. change (negb (ch "," =? ch ",")%N) with false. cbv iota.
        rewrite put_member_put. apply IHm. lia.
    Qed.

    Lemma json_parse_complete w v t rest : ws w -> value number plain v t -> delim rest ->
      json_parse strtod (w ++ t ++ rest) = Ok (Some v).
    Proof.
      intros W H DL. unfold json_parse.
      rewrite (proj1 parse_complete v t H w rest _ W DL); auto. rewrite !app_length. lia.
    Qed.
  End Complete.

  (** totality *)
  Definition bounded (l : bytes) : Prop := forall a b, l = a ++ 34%N :: b -> run_length b <= 4095.
  Lemma bounded_suffix a l : bounded (a ++ l) -> bounded l.
  Proof. intros H x y ->. apply (H (a ++ x)). now rewrite <- app_assoc. Qed.
  Lemma bounded_cons c l : bounded (c :: l) -> bounded l.
  Proof. apply (bounded_suffix [c]). Qed.
  Lemma bounded_skip l : bounded l -> bounded (skip_ws l).
  Proof. intros H. destruct (skip_ws_suffix l) as [a E]. rewrite E in H. now apply bounded_suffix in H. Qed.
  Lemma skip_len l : length (skip_ws l) <= length l.
  Proof. destruct (skip_ws_suffix l) as [a E]. rewrite E at 2. rewrite app_length. lia. Qed.

  Hypothesis strtod_in : forall l d n, strtod l = Some (d, n) -> 0 < n <= length l.

  Definition suffix (l' l : bytes) : Prop := exists a, l = a ++ l'.
  Lemma suffix_refl l : suffix l l. Proof. now exists []. Qed.
  Lemma suffix_trans a b c : suffix a b -> suffix b c -> suffix a c.
  Proof. intros [x ->] [y ->]. exists (y ++ x). now rewrite app_assoc. Qed.
  Lemma suffix_cons c l : suffix l (c :: l). Proof. now exists [c]. Qed.
  Lemma suffix_skip l : suffix (skip_ws l) l. Proof. destruct (skip_ws_suffix l) as [a E]. now exists a. Qed.
  Lemma suffix_len a b : suffix a b -> length a <= length b.
  Proof. intros [x ->]. rewrite app_length. lia. Qed.
  Lemma suffix_skipn n l : suffix (skipn n l) l.
  Proof. exists (firstn n l). now rewrite firstn_skipn. Qed.
  Lemma suffix_bounded a b : suffix a b -> bounded b -> bounded a.
  Proof. intros [x ->]. apply bounded_suffix. Qed.

  Lemma run_length_cons c l : c <> 34%N -> c <> 92%N -> run_length (c :: l) = S (run_length l).
  Proof.
    intros A B. cbn. destruct (N.eqb_spec c 34); [easy|]. now destruct (N.eqb_spec c 92).
  Qed.

  Lemma string_loop_total : forall n l buf, length l <= n -> length buf + run_length l <= 4096 ->
    exists b l', string_loop l buf = Ok (b, l') /\ suffix l' l /\ length b = length buf + run_length l.
  Proof.
    induction n; intros l buf Hn Hb.
    { destruct l; [|cbn in Hn; lia]. exists buf, []. cbn in *. splits; auto using suffix_refl. }
    destruct l as [|c l]. { exists buf, []. cbn in *. splits; auto using suffix_refl. }
    cbn [string_loop]. destruct (N.eqb_spec c 34).
    { subst. exists buf, (34%N :: l). splits; auto using suffix_refl. }
    destruct (N.eqb_spec c 92) as [->|].
    - destruct l as [|e l].
      + change (run_length [92%N]) with 1 in *. unfold put_char.
        destruct (Nat.ltb_spec (length buf) 4096); [|lia]. cbn.
        exists (buf ++ [92%N]), []. splits; auto. { now exists [92%N]. } rewrite app_length. cbn. lia.
      + assert (R : run_length (92%N :: e :: l) = S (run_length l)) by reflexivity.
        rewrite R in *. unfold put_char. destruct (Nat.ltb_spec (length buf) 4096); [|lia]. cbn [bind].
        destruct (IHn l (buf ++ [unescape e])) as (b & l' & E & S & L).
        { cbn in Hn. lia. } { rewrite app_length. cbn. lia. }
        exists b, l'. splits; auto.
        * eapply suffix_trans; [exact S|]. now exists [92%N; e].
        * rewrite L, app_length. cbn. lia.
    - rewrite run_length_cons in * by auto.
      unfold put_char. destruct (Nat.ltb_spec (length buf) 4096); [|lia]. cbn [bind].
      destruct (IHn l (buf ++ [c])) as (b & l' & E & S & L).
      { cbn in Hn. lia. } { rewrite app_length. cbn. lia. }
      exists b, l'. splits; auto.
      + eapply suffix_trans; [exact S|]. apply suffix_cons.
      + rewrite L, app_length. cbn. lia.
  Qed.

  Lemma parse_string_total l : bounded l ->
    exists o l', parse_string l = Ok (o, l') /\ suffix l' l /\ (o <> None -> length l' < length l).
  Proof.
    intros B. unfold parse_string. destruct (N.eqb_spec (peek0 l) 34) as [E|E]; cbn [negb].
    2:{ exists None, l. splits; auto using suffix_refl. congruence. }
    destruct l as [|c l]; [discriminate|]. cbn in E. subst c. cbn [next bind].
    assert (R : run_length l <= 4095) by (apply (B []); reflexivity).
    destruct (string_loop_total (length l) l [] (le_n _)) as (b & l1 & -> & S1 & L1); [cbn; lia|]. cbn [bind].
    assert (X : exists l2, (if (peek0 l1 =? 34)%N then next l1 else Ok l1) = Ok l2 /\ suffix l2 l1).
    { destruct (N.eqb_spec (peek0 l1) 34); [|exists l1; auto using suffix_refl].
      destruct l1; [discriminate|]. exists l1. split; auto using suffix_cons. }
    destruct X as (l2 & -> & S2). cbn [bind]. unfold put_char.
    destruct (Nat.ltb_spec (length b) 4096); [|cbn in L1; lia]. cbn [bind].
    exists (Some b), l2. assert (suffix l2 l) by (eapply suffix_trans; eauto). splits; auto.
    - eapply suffix_trans; [eassumption|apply suffix_cons].
    - intros _. apply suffix_len in H0. cbn. lia.
  Qed.

  Lemma skipn_prefix_lt p l : is_prefix p l = true -> 0 < length p -> length (skipn (length p) l) < length l.
  Proof. intros E H. apply is_prefix_spec in E as [r ->]. rewrite skipn_length, app_length. lia. Qed.

  Lemma next_peek l c : (peek0 l =? c)%N = true -> c <> 0%N -> exists l', l = c :: l' /\ next l = Ok l'.
  Proof. intros E H. apply N.eqb_eq in E. destruct l; cbn in *; [congruence|]. subst. eauto. Qed.

  Definition tot (l : bytes) (r : res (option json * bytes)) : Prop :=
    exists o l', r = Ok (o, l') /\ suffix l' l /\ (o <> None -> length l' < length l).
  Lemma tot_None l l' : suffix l' l -> tot l (Ok (None, l')).
  Proof. intros H. exists None, l'. splits; auto. congruence. Qed.
  Lemma tot_Some l l' v : suffix l' l -> length l' < length l -> tot l (Ok (Some v, l')).
  Proof. intros H L. exists (Some v), l'. splits; auto. Qed.
  Lemma tot_mono l l0 r : suffix l l0 -> tot l r -> tot l0 r.
  Proof.
    intros S (o & l' & E & S' & H). exists o, l'. splits; auto. { eapply suffix_trans; eauto. }
    intros X. apply H in X. apply suffix_len in S. lia.
  Qed.

  Lemma parse_total : forall f,
    (forall l, bounded l -> 2 * length l + 1 <= f -> tot l (parse_value f l)) /\
    (forall l acc, bounded l -> 2 * length l + 2 <= f -> tot l (array_loop f l acc)) /\
    (forall l acc, bounded l -> 2 * length l + 2 <= f -> tot l (object_loop f l acc)).
  Proof.
    induction f as [|f (IHv & IHa & IHo)]; [splits; intros; lia|]. splits.
    - intros l0 B F. rewrite pv_S; cbv zeta. cbv zeta.
      set (l := skip_ws l0) in *. assert (S0 : suffix l l0) by apply suffix_skip.
      assert (L0 : length l <= length l0) by apply skip_len.
      assert (B0 : bounded l) by (now apply bounded_skip). clearbody l.
      eapply tot_mono; [exact S0|].
      destruct (peek0 l =? 0)%N; [apply tot_None, suffix_refl|].
      destruct (is_prefix (bs "null") l) eqn:P1.
      { apply tot_Some; [apply suffix_skipn|]. apply (skipn_prefix_lt (bs "null")); auto. cbn. lia. }
      destruct (is_prefix (bs "true") l) eqn:P2.
      { apply tot_Some; [apply suffix_skipn|]. apply (skipn_prefix_lt (bs "true")); auto. cbn. lia. }
      destruct (is_prefix (bs "false") l) eqn:P3.
      { apply tot_Some; [apply suffix_skipn|]. apply (skipn_prefix_lt (bs "false")); auto. cbn. lia. }
      destruct (peek0 l =? 34)%N.
      { destruct (parse_string_total l B0) as (o & l1 & -> & S1 & H1). cbn [bind].
        destruct o; [apply tot_Some; auto; apply H1; discriminate|now apply tot_None]. }
      destruct ((peek0 l =? ch "-")%N || is_digit (peek0 l)).
      { destruct (strtod l) as [[d n]|] eqn:E; [|apply tot_None, suffix_refl].
        apply strtod_in in E. destruct (Nat.leb_spec n (length l)); [|lia].
        apply tot_Some; [apply suffix_skipn|]. rewrite skipn_length. lia. }
      destruct (peek0 l =? ch "[")%N eqn:PA.
      { apply next_peek in PA as (l1 & -> & ->); [|discriminate]. cbn [bind].
        assert (S2 : suffix (skip_ws l1) (ch "[" :: l1)).
        { eapply suffix_trans; [apply suffix_skip|apply suffix_cons]. }
        pose proof (skip_len l1). cbn [length] in *.
        destruct (peek0 (skip_ws l1) =? ch "]")%N eqn:PB.
        - apply next_peek in PB as (l2 & E2 & ->); [|discriminate]. cbn [bind].
          assert (suffix l2 (ch "[" :: l1)).
          { eapply suffix_trans; [|exact S2]. rewrite E2. apply suffix_cons. }
          apply tot_Some; auto. rewrite E2 in *. cbn in *. lia.
        - eapply tot_mono; [exact S2|]. apply IHa; [|lia]. eapply suffix_bounded; eauto. }
      destruct (peek0 l =? ch "{")%N eqn:PO.
      { apply next_peek in PO as (l1 & -> & ->); [|discriminate]. cbn [bind].
        assert (S2 : suffix (skip_ws l1) (ch "{" :: l1)).
        { eapply suffix_trans; [apply suffix_skip|apply suffix_cons]. }
        pose proof (skip_len l1). cbn [length] in *.
        destruct (peek0 (skip_ws l1) =? ch "}")%N eqn:PB.
        - apply next_peek in PB as (l2 & E2 & ->); [|discriminate]. cbn [bind].
          assert (suffix l2 (ch "{" :: l1)).
          { eapply suffix_trans; [|exact S2]. rewrite E2. apply suffix_cons. }
          apply tot_Some; auto. rewrite E2 in *. cbn in *. lia.
        - eapply tot_mono; [exact S2|]. apply IHo; [|lia]. eapply suffix_bounded; eauto. }
      apply tot_None, suffix_refl.
    - intros l0 acc B F. rewrite al_S; cbv zeta. cbv zeta.
      pose proof (skip_len l0).
      destruct (IHv (skip_ws l0)) as (o & l1 & -> & S1 & H1); [now apply bounded_skip|lia|]. cbn [bind].
      assert (S1' : suffix l1 l0) by (eapply suffix_trans; [exact S1|apply suffix_skip]).
      destruct o as [v|]; [|now apply tot_None]. specialize (H1 ltac:(discriminate)).
      assert (S2 : suffix (skip_ws l1) l0) by (eapply suffix_trans; [apply suffix_skip|exact S1']).
      pose proof (skip_len l1).
      destruct (peek0 (skip_ws l1) =? ch "]")%N eqn:PB.
      { apply next_peek in PB as (l2 & E2 & ->); [|discriminate]. cbn [bind]. apply tot_Some.
        - eapply suffix_trans; [|exact S2]. rewrite E2. apply suffix_cons.
        - rewrite E2 in *. cbn in *. lia. }
      destruct (peek0 (skip_ws l1) =? ch ",")%N eqn:PC; cbn [negb]; [|now apply tot_None].
      apply next_peek in PC as (l2 & E2 & ->); [|discriminate]. cbn [bind].
      assert (S3 : suffix l2 l0) by (eapply suffix_trans; [|exact S2]; rewrite E2; apply suffix_cons).
      eapply tot_mono; [exact S3|]. apply IHa. { eapply suffix_bounded; eauto. }
      rewrite E2 in *. cbn in *. lia.
    - intros l0 acc B F. rewrite ol_S; cbv zeta. cbv zeta.
      pose proof (skip_len l0).
      destruct (parse_string_total (skip_ws l0)) as (o & l1 & -> & S1 & H1); [now apply bounded_skip|]. cbn [bind].
      assert (S1' : suffix l1 l0) by (eapply suffix_trans; [exact S1|apply suffix_skip]).
      destruct o as [k|]; [|now apply tot_None]. specialize (H1 ltac:(discriminate)).
      assert (S2 : suffix (skip_ws l1) l0) by (eapply suffix_trans; [apply suffix_skip|exact S1']).
      pose proof (skip_len l1).
      destruct (peek0 (skip_ws l1) =? ch ":")%N eqn:PB; cbn [negb]; [|now apply tot_None].
      apply next_peek in PB as (l2 & E2 & ->); [|discriminate]. cbn [bind].
      assert (S3 : suffix l2 l0) by (eapply suffix_trans; [|exact S2]; rewrite E2; apply suffix_cons).
      assert (L2 : length l2 < length l0) by (rewrite E2 in *; cbn in *; lia).
      pose proof (skip_len l2).
      destruct (IHv (skip_ws l2)) as (o & l3 & -> & S4 & H4).
      { apply bounded_skip. eapply suffix_bounded; eauto. } { lia. }
      cbn [bind].
      assert (S4' : suffix l3 l0).
      { eapply suffix_trans; [exact S4|]. eapply suffix_trans; [apply suffix_skip|exact S3]. }
      destruct o as [v|]; [|now apply tot_None]. specialize (H4 ltac:(discriminate)).
      assert (S5 : suffix (skip_ws l3) l0) by (eapply suffix_trans; [apply suffix_skip|exact S4']).
      pose proof (skip_len l3).
      destruct (peek0 (skip_ws l3) =? ch "}")%N eqn:PD.
      { apply next_peek in PD as (l4 & E4 & ->); [|discriminate]. cbn [bind]. apply tot_Some.
        - eapply suffix_trans; [|exact S5]. rewrite E4. apply suffix_cons.
        - rewrite E4 in *. cbn in *. lia. }
      destruct (peek0 (skip_ws l3) =? ch ",")%N eqn:PC; cbn [negb]; [|now apply tot_None].
      apply next_peek in PC as (l4 & E4 & ->); [|discriminate]. cbn [bind].
      assert (S6 : suffix l4 l0) by (eapply suffix_trans; [|exact S5]; rewrite E4; apply suffix_cons).
      eapply tot_mono; [exact S6|]. apply IHo. { eapply suffix_bounded; eauto. }
      rewrite E4 in *. cbn in *. lia.
  Qed.
End Proofs.

Section RoundTrip.
  Context {D : Type} (fmt : D -> bytes) (strtod : bytes -> option (D * nat)).
  Notation json := (json D).

  Fixpoint items_text (first : bool) (l : list json) : bytes :=
    match l with
    | [] => []
    | v :: l => (if first then [] else [ch ","]) ++ stringify fmt v ++ items_text false l
    end.
  Fixpoint members_text (first : bool) (l : list (bytes * json)) : bytes :=
    match l with
    | [] => []
    | (k, v) :: l => (if first then [] else [ch ","]) ++
        [34%N] ++ k ++ [34%N; ch ":"] ++ stringify fmt v ++ members_text false l
    end.
  Lemma stringify_arr l : stringify fmt (JArr l) = [ch "["] ++ items_text true l ++ [ch "]"].
  Proof.
    reflexivity.
  Qed.
  Lemma stringify_obj l : stringify fmt (JObj l) = [ch "{"] ++ members_text true l ++ [ch "}"].
  Proof.
    reflexivity.
  Qed.

End RoundTrip.

  Lemma escape_chars (plain : N -> Prop) s : (forall c, c <> 0%N -> plain c) ->
    ~ In 0%N s -> ~ In 8%N s -> ~ In 12%N s -> chars plain s (flat_map escape s).
  Proof.
    intros HP. induction s as [|c s IH]; intros N0 N8 N12; cbn [flat_map]; [constructor|].
    cbn [In] in *. assert (IH' : chars plain s (flat_map escape s)) by (apply IH; tauto). unfold escape.
    destruct (N.eqb_spec c 34) as [->|]; [apply chars_esc; cbn; auto|].
    destruct (N.eqb_spec c 92) as [->|]; [apply chars_esc; cbn; auto 10|].
    destruct (N.eqb_spec c 10) as [->|]; [apply chars_esc; cbn; auto 10|].
    destruct (N.eqb_spec c 9) as [->|]; [apply chars_esc; cbn; auto 10|].
    destruct (N.eqb_spec c 13) as [->|]; [apply chars_esc; cbn; auto 10|].
    destruct (N.eqb_spec c 8) as [->|]; [tauto|].
    destruct (N.eqb_spec c 12) as [->|]; [tauto|].
    apply chars_plain; auto.
  Qed.
  Lemma plain_chars (plain : N -> Prop) s : (forall c, c <> 0%N -> plain c) ->
    ~ In 0%N s -> ~ In 34%N s -> ~ In 92%N s -> chars plain s s.
  Proof.
    intros HP. induction s as [|c s IH]; intros N0 N8 N12; [constructor|]. cbn [In] in *.
    apply chars_plain; auto; tauto || (apply IH; tauto).
  Qed.

  Lemma member_put_new {D} k (v : json D) m : ~ In k (map fst m) -> member_put k v m = m ++ [(k, v)].
  Proof.
    induction m as [|[k' v'] m IH]; intros H; cbn in *; auto.
    destruct (beq_bytes_spec k' k); [tauto|]. now rewrite IH by tauto.
  Qed.

Lemma json_nested_ind {D} (P : json D -> Prop) :
  P JNull -> (forall b, P (JBool b)) -> (forall d, P (JNum d)) -> (forall s, P (JStr s)) ->
  (forall l, Forall P l -> P (JArr l)) ->
  (forall m, Forall (fun e => P (snd e)) m -> P (JObj m)) -> forall v, P v.
Proof.
  intros H1 H2 H3 H4 H5 H6. fix go 1. intros [|b|d|s|l|m]; [exact H1|apply H2|apply H3|apply H4| |].
  - apply H5. exact ((fix all (l : list (json D)) : Forall P l :=
      match l with [] => Forall_nil _ | v :: l => Forall_cons v (go v) (all l) end) l).
  - apply H6. exact ((fix all (m : list (bytes * json D)) : Forall (fun e => P (snd e)) m :=
      match m with [] => Forall_nil _ | e :: m => Forall_cons e (go (snd e)) (all m) end) m).
Qed.
