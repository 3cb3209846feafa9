From Verif Require Import Common Vec_Model Vec_Proofs String_Model String_Spec String_Proofs Url_Model Url_Spec.

Lemma strchr_app c a b : ~ In c a -> strchr c (a ++ c :: b) = Some (length a).
Proof.
  induction a; cbn; intros H. { now rewrite N.eqb_refl. }
  destruct (N.eqb_spec a c); [intuition|]. rewrite IHa; auto.
Qed.
Lemma strchr_none c a : ~ In c a -> strchr c a = None.
Proof.
  induction a; cbn; intros H; auto. destruct (N.eqb_spec a c); [intuition|]. rewrite IHa; auto.
Qed.
Lemma strchr_ge c a b k : ~ In c a -> strchr c (a ++ b) = Some k -> length a <= k.
Proof.
  revert k; induction a; cbn; intros k H E; [lia|]. destruct (N.eqb_spec a c); [intuition|].
  destruct (strchr c (a0 ++ b)) eqn:Ec; [|discriminate]. injection E as <-. apply le_n_S, IHa; auto.
Qed.
Lemma index_of_strchr c b : index_of c b = strchr c b.
Proof. induction b; cbn; auto. Qed.

Lemma strstr_scheme s r : ~ In (ch ":") s -> strstr (bs "://") (s ++ bs "://" ++ r) = Some (length s).
Proof.
  induction s as [|c s IH]; intros H; [reflexivity|].
  cbn [app]. cbn [strstr is_prefix bs]. cbn [In] in H.
  destruct (N.eqb_spec (Ascii.N_of_ascii ":") c) as [<-|_]; [intuition|]. cbn [andb].
  change (Ascii.N_of_ascii ":" :: Ascii.N_of_ascii "/" :: Ascii.N_of_ascii "/" :: []) with (bs "://").
  rewrite IH; auto.
Qed.

Lemma digits_value_ok ds : Forall is_digit ds -> forall a,
  digits_value a ds = fold_left (fun a d => 10 * a + (Z.of_N d - 48))%Z ds a.
Proof.
  induction 1; intros a; cbn [digits_value fold_left]; auto. destruct H as [H1 H2].
  pose proof H1 as H0'. apply N.leb_le in H1 as ->. pose proof H2 as H3. apply N.leb_le in H2 as ->. cbn [andb].
  rewrite IHForall. f_equal. lia.
Qed.
Lemma decimal_nonneg ds : Forall is_digit ds -> forall a, (0 <= a)%Z ->
  (0 <= fold_left (fun a d => 10 * a + (Z.of_N d - 48))%Z ds a)%Z.
Proof. induction 1; intros a Ha; cbn [fold_left]; auto. apply IHForall. destruct H. lia. Qed.

Lemma atoi_ok ds : Forall is_digit ds -> (decimal ds < 2 ^ 31)%Z -> atoi ds = Ok (decimal ds).
Proof.
  intros F B. unfold atoi.
  assert (E : skip_space ds = ds).
  { destruct F as [|c t Hc]; auto. cbn. unfold c_space, is_digit in *.
    replace ((c =? 32)%N || ((9 <=? c)%N && (c <=? 13)%N)) with false; auto. lia. }
  rewrite E.
  assert (V : match ds with
    | [] => 0%Z
    | c :: t => if (c =? ch "-")%N then (- digits_value 0 t)%Z
                else if (c =? ch "+")%N then digits_value 0 t else digits_value 0 ds
    end = decimal ds).
  { destruct F as [|c t Hc F]; auto. change (ch "-") with 45%N. change (ch "+") with 43%N.
    unfold is_digit in *. destruct (N.eqb_spec c 45); [lia|]. destruct (N.eqb_spec c 43); [lia|].
    unfold decimal. apply digits_value_ok. constructor; auto. }
  rewrite V. pose proof (decimal_nonneg ds F 0%Z ltac:(lia)) as P. fold (decimal ds) in P.
  destruct (Z.leb_spec (- 2 ^ 31) (decimal ds)); [|lia]. destruct (Z.ltb_spec (decimal ds) (2 ^ 31)); [reflexivity|lia].
Qed.

Lemma fields_one d a : ~ In d a -> fields d a = [a].
Proof.
  induction a; cbn; intros H; auto. rewrite IHa by auto. destruct (N.eqb_spec a d); auto. intuition.
Qed.
Lemma fields_two d a b : ~ In d a -> ~ In d b -> fields d (a ++ d :: b) = [a; b].
Proof.
  induction a; cbn; intros H1 H2.
  - rewrite fields_one by auto. now rewrite N.eqb_refl.
  - rewrite IHa by auto. destruct (N.eqb_spec a d); auto. intuition.
Qed.

Lemma Trimmed_clean b m : (forall c, In c b -> ~ blank c) -> Trimmed b m -> m = b.
Proof.
  intros H (l & r & -> & Hl & Hr & _).
  assert (G : forall w x y, Forall blank w -> (forall c, In c (x ++ w ++ y) -> ~ blank c) -> w = []).
  { intros w x y F C. destruct w; auto. inversion F; subst. exfalso. apply (C n); auto.
    apply in_or_app. right. now left. }
  assert (l = []) by (apply (G l [] (m ++ r)); auto).
  assert (r = []). { apply (G r (l ++ m) []); auto. intros c I. apply H. rewrite app_nil_r, <- app_assoc in I. exact I. }
  subst. now rewrite app_nil_r.
Qed.

Lemma short_le a b : length a <= length b -> short b -> short a.
Proof. unfold short. lia. Qed.

Lemma Forall2_len {A B} (R : A -> B -> Prop) l m : Forall2 R l m -> length l = length m.
Proof. induction 1; cbn; auto. Qed.

Lemma host_port_none hs h d : shold hs h -> short h -> ~ In (ch ":") h ->
  exists r, host_port hs d = Ok (r, d) /\ shold r h.
Proof.
  intros H Hb N. unfold host_port. destruct (ssplit_ok hs h (ch ":") H Hb) as (ps & -> & F). cbn [bind].
  assert (K : exists r, (do h <- cread (data hs); do h <- snew h; Ok (h, d)) = Ok (r, d) /\ shold r h).
  { rewrite (cread_ok _ _ H). cbn [bind]. destruct (snew_ok h) as (r & -> & Hr). cbn [bind].
    rewrite cstr_id in Hr by apply H. eauto. }
  assert (L : length ps <= 1).
  { apply Forall2_len in F. destruct h; [cbn in F; lia|]. rewrite fields_one in F by auto. cbn in F. lia. }
  destruct ps as [|p [|q ps]]; auto. cbn in L. lia.
Qed.

Lemma host_port_some hs h ds d : shold hs (h ++ ch ":" :: ds) -> short (h ++ ch ":" :: ds) ->
  ~ In (ch ":") h -> (forall c, In c h -> ~ blank c) -> Forall is_digit ds -> (decimal ds < 2 ^ 31)%Z ->
  exists r, host_port hs d = Ok (r, decimal ds) /\ shold r h.
Proof.
  intros H Hb N Bl D B. unfold host_port. destruct (ssplit_ok hs _ (ch ":") H Hb) as (ps & -> & F). cbn [bind].
  assert (Nd : ~ In (ch ":") ds).
  { intros I. rewrite Forall_forall in D. apply D in I. unfold is_digit in I. change (ch ":") with 58%N in I. lia. }
  assert (E : match h ++ ch ":" :: ds with [] => [] | _ => fields (ch ":") (h ++ ch ":" :: ds) end = [h; ds]).
  { rewrite fields_two by auto. now destruct h. }
  rewrite E in F. inversion F as [|a ? l ? Ha F']; subst. inversion F' as [|b ? l' ? Hd F'']; subst. inversion F''; subst.
  destruct (strim_ok a h Ha) as (r & m & -> & Hm & T).
  { eapply short_le; [|exact Hb]. rewrite app_length. lia. }
  cbn [bind]. rewrite (cread_ok _ _ Hd). cbn [bind]. rewrite atoi_ok by auto. cbn [bind].
  rewrite (Trimmed_clean _ _ Bl T) in Hm. eauto.
Qed.

Lemma new_ok b : nonul b -> exists v, snew b = Ok v /\ shold v b.
Proof. intros H. destruct (snew_ok b) as (v & E & R). rewrite cstr_id in R by auto. eauto. Qed.

Lemma path_query_ok pa q : nonul (opt pa (bs "/") ++ opt q (bs "?")) ->
  short (opt pa (bs "/") ++ opt q (bs "?")) -> (forall x, pa = Some x -> ~ In (ch "?") x) ->
  exists rp rq, path_query (match pa, q with None, None => None | _, _ => Some (opt pa (bs "/") ++ opt q (bs "?")) end) = Ok (rp, rq) /\
    shold rp (bs "/" ++ match pa with Some x => x | None => [] end) /\
    shold rq (match q with Some x => x | None => [] end).
Proof.
  intros NN Hb NQ. unfold path_query.
  destruct (snew_ok (bs "/")) as (sl & -> & Hsl). destruct (snew_ok []) as (em & -> & Hem). cbn [bind].
  destruct pa as [x|].
  - specialize (NQ x eq_refl).
    destruct (new_ok _ NN) as (rem & Er & Hr).
    assert (T : exists t, opt (Some x) (bs "/") ++ opt q (bs "?") = ch "/" :: t) by (eexists; reflexivity).
    destruct T as [t Et]. rewrite Et in Er. 
    rewrite Et.
    rewrite N.eqb_refl, Er. cbn [bind]. rewrite (sfind_ok _ _ _ Hr). cbn [bind]. rewrite index_of_strchr.
    assert (NS : ~ In (ch "?") (ch "/" :: x)) by (intros [Z|Z]; [discriminate|easy]).
    rewrite (slength_ok _ _ Hr).
    destruct q as [y|]; cbn [opt].
    + set (B := (bs "/" ++ x) ++ bs "?" ++ y) in *.
      assert (EB : B = (ch "/" :: x) ++ ch "?" :: y) by reflexivity.
      replace (strchr (ch "?") B) with (Some (length (ch "/" :: x))) by (rewrite EB; symmetry; now apply strchr_app).
      change (opt (Some x) (bs "/") ++ opt (Some y) (bs "?")) with B in Hr, Hb |- *.
      assert (LB : length B = length (ch "/" :: x) + 1 + length y) by (rewrite EB, app_length; cbn; lia).
      destruct (substr_nat rem B 0 (length (ch "/" :: x)) Hr Hb) as (rp & E1 & R1); [lia|].
      destruct (substr_nat rem B (length (ch "/" :: x) + 1) (length B - length (ch "/" :: x) - 1) Hr Hb) as (rq & E2 & R2); [lia|].
      cbn [N.of_nat] in E1. rewrite E1. cbn [bind]. rewrite E2. cbn [bind].
      exists rp, rq. splits; auto.
      * cbn [skipn] in R1. rewrite EB, firstn_app, Nat.sub_diag, firstn_all in R1. cbn [firstn] in R1.
        rewrite app_nil_r in R1. exact R1.
      * rewrite firstn_all2 in R2 by (rewrite skipn_length; lia).
        rewrite EB, skipn_app, skipn_all2 in R2 by lia.
        replace (length (ch "/" :: x) + 1 - length (ch "/" :: x)) with 1 in R2 by lia. exact R2.
    + set (B := (bs "/" ++ x) ++ []) in *.
      assert (EB : B = ch "/" :: x) by (unfold B; now rewrite app_nil_r).
      change (opt (Some x) (bs "/") ++ opt None (bs "?")) with B in Hr, Hb |- *.
      replace (strchr (ch "?") B) with (@None nat) by (rewrite EB; symmetry; now apply strchr_none).
      destruct (substr_nat rem B 0 (length B) Hr Hb) as (rp & E1 & R1); [lia|].
      cbn [N.of_nat] in E1. rewrite E1. cbn [bind]. exists rp, em. splits; auto.
      cbn [skipn] in R1. rewrite firstn_all, EB in R1. exact R1.
  - destruct q as [y|]; cbn [opt app].
    + cbn [opt app] in NN. cbn [bs app]. change (Ascii.N_of_ascii "?" =? ch "/")%N with false.
      change (Ascii.N_of_ascii "?" =? ch "?")%N with true. cbv iota.
      destruct (new_ok y) as (rq & -> & Hq). { now inversion NN. }
      cbn [bind]. eauto.
    + eauto.
Qed.

(** where the host ends *)
Lemma host_end_ok hp pa q : ~ In (ch "/") hp -> ~ In (ch "?") hp -> (forall x, pa = Some x -> ~ In (ch "?") x) ->
  host_end (hp ++ opt pa (bs "/") ++ opt q (bs "?")) =
  match pa, q with None, None => None | _, _ => Some (length hp) end.
Proof.
  intros N1 N2 NQ. unfold host_end. destruct pa as [x|].
  - assert (E : hp ++ opt (Some x) (bs "/") ++ opt q (bs "?") = hp ++ ch "/" :: (x ++ opt q (bs "?"))) by reflexivity.
    rewrite E, strchr_app by auto.
    destruct (strchr (ch "?") _) as [k|] eqn:Ek.
    + apply strchr_ge in Ek; auto. destruct (Nat.ltb_spec k (length hp)); [lia|]. now destruct q.
    + now destruct q.
  - cbn [opt app]. destruct q as [y|]; cbn [opt].
    + change (bs "?" ++ y) with (ch "?" :: y). rewrite strchr_app by auto.
      destruct (strchr (ch "/") _) as [k|] eqn:Ek; auto.
      change (hp ++ ch "?" :: y) with (hp ++ [ch "?"] ++ y) in Ek. rewrite app_assoc in Ek.
      apply strchr_ge in Ek.
      * rewrite app_length in Ek. cbn in Ek. destruct (Nat.ltb_spec (length hp) k); auto. lia.
      * intros I. apply in_app_or in I as [I|[I|[]]]; [easy|discriminate].
    + rewrite app_nil_r. now rewrite !strchr_none by auto.
Qed.

Lemma nonul_in b : ~ In 0%N b <-> nonul b.
Proof.
  unfold nonul. rewrite Forall_forall. split; [intros H x I ->; easy|intros H I; now apply (H 0%N)].
Qed.

Lemma url_parse_ok raw p : shold raw (url_text p) -> short (url_text p) -> wf_parts p ->
  exists u, url_parse raw = Ok (Some u) /\ shold (scheme u) (p_scheme p) /\ shold (host u) (p_host p) /\
    port u = url_port p /\ shold (path u) (url_path p) /\ shold (query u) (url_query p).
Proof.
  intros H Hb (N0 & NC & HH & HP & HQ). unfold url_parse. rewrite (cread_ok _ _ H). cbn [bind].
  destruct p as [s h po pa q]. unfold url_text in *. cbn [p_scheme p_host p_port p_path p_query] in *.
  rewrite strstr_scheme by auto.
  set (hp := h ++ opt po (bs ":")) in *.
  set (tl := opt pa (bs "/") ++ opt q (bs "?")) in *.
  set (B := s ++ bs "://" ++ h ++ opt po (bs ":") ++ tl) in *.
  assert (EB : B = (s ++ bs "://") ++ hp ++ tl) by (unfold B, hp; now rewrite <- !app_assoc).
  apply nonul_in in N0.
  assert (NN : nonul (s ++ bs "://") /\ nonul hp /\ nonul tl).
  { rewrite EB in N0. apply Forall_app in N0 as [A N0]. apply Forall_app in N0 as [A' N0]. auto. }
  destruct NN as (_ & Nhp & Ntl).
  assert (LB : length B = length s + 3 + length hp + length tl).
  { rewrite EB, !app_length. cbn. lia. }
  destruct (substr_nat raw B 0 (length s) H Hb) as (sc & E1 & R1); [lia|].
  cbn [N.of_nat] in E1. rewrite E1. cbn [bind].
  assert (Rs : shold sc s).
  { cbn [skipn] in R1. unfold B in R1. now rewrite firstn_app, Nat.sub_diag, firstn_all, app_nil_r in R1. }
  unfold seq_str. rewrite (cread_ok _ _ Rs). cbn [bind].
  assert (Er : skipn (length s + 3) B = hp ++ tl).
  { rewrite EB, skipn_app, skipn_all2 by (rewrite app_length; cbn; lia). rewrite app_length. cbn [length bs].
    now rewrite Nat.sub_diag. }
  rewrite Er. clear Er.
  assert (Nh : forall c, In c [ch "/"; ch "?"] -> ~ In c hp).
  { intros c Ic I. apply in_app_or in I as [I|I].
    - apply HH in I. apply I. cbn in Ic |- *. tauto.
    - destruct po as [ds|]; [|easy]. cbn in I. destruct I as [I|I].
      + subst c. destruct Ic as [Z|[Z|[]]]; discriminate.
      + destruct (HP ds eq_refl) as (_ & D & _). rewrite Forall_forall in D. apply D in I. unfold is_digit in I.
        destruct Ic as [Z|[Z|[]]]; subst c; [change (ch "/") with 47%N in I|change (ch "?") with 63%N in I]; lia. }
  assert (HE : host_end (hp ++ tl) = match pa, q with None, None => None | _, _ => Some (length hp) end).
  { apply host_end_ok; auto; apply Nh; cbn; auto. }
  assert (HL : match host_end (hp ++ tl) with Some e => e | None => length (hp ++ tl) end = length hp).
  { rewrite HE. destruct pa, q; auto. unfold tl. cbn. now rewrite app_nil_r. }
  rewrite HL. rewrite firstn_app, Nat.sub_diag, firstn_all, app_nil_r.
  destruct (snew_ok (hp ++ [0%N])) as (hs & -> & Hhs). cbn [bind].
  assert (C : cstr (hp ++ [0%N]) = hp).
  { clear - Nhp. induction Nhp; cbn; auto. destruct (N.eqb_spec x 0); [easy|]. now rewrite IHNhp. }
  rewrite C in Hhs.
  assert (Shp : short hp) by (eapply short_le; [|exact Hb]; lia).
  change (cstr (bs "https")) with (bs "https").
  set (d := if beq_bytes s (bs "https") then 443%Z else 80%Z).
  assert (HPt : exists r, host_port hs d = Ok (r, url_port (mkparts s h po pa q)) /\ shold r h).
  { unfold url_port. cbn [p_port p_scheme]. destruct po as [ds|].
    - destruct (HP ds eq_refl) as (_ & D & B'). apply host_port_some; auto.
      + intros I. apply HH in I. apply I. now left.
      + intros c I Bc. apply HH in I. apply I. unfold blank in Bc. cbn in Bc |- *. tauto.
    - unfold hp in *. cbn [opt] in *. rewrite app_nil_r in *. apply host_port_none; auto.
      intros I. apply HH in I. apply I. now left. }
  destruct HPt as (r & -> & Hr). cbn [bind].
  destruct (path_query_ok pa q) as (rp & rq & E3 & Hp & Hq); auto.
  { eapply short_le; [|exact Hb]. fold tl. lia. }
  fold tl in E3.
  assert (Eo : option_map (fun e => skipn e (hp ++ tl)) (host_end (hp ++ tl)) =
    match pa, q with None, None => None | _, _ => Some tl end).
  { rewrite HE. assert (skipn (length hp) (hp ++ tl) = tl) by now rewrite skipn_app, skipn_all, Nat.sub_diag.
    destruct pa, q; cbn [option_map]; rewrite ?H0; reflexivity. }
  assert (E4 : path_query (option_map (fun e => skipn e (hp ++ tl)) (host_end (hp ++ tl))) = Ok (rp, rq)).
  { rewrite Eo. exact E3. }
  rewrite E4. cbn [bind]. eexists. split; [reflexivity|]. cbn. auto.
Qed.
