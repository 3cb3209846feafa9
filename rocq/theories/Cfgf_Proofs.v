From Verif Require Import Common Cfgf_Model Cfgf_Spec.
Local Open Scope nat_scope.

(** the array holds the list, with a null behind *)
Definition holds (w : white) (l : list bytes) : Prop :=
  match w with None => l = [] | Some b => exists rest, b = map (fun s => Some (Some s)) l ++ Some None :: rest end.
Lemma bget_map (l : list bytes) i s z : nth_error l i = Some s -> bget (map (fun s => Some (Some s)) l ++ z) i = Ok (Some s).
Proof.
  intros H. unfold bget. rewrite nth_error_app1; [|rewrite map_length; apply nth_error_Some; congruence]. rewrite (map_nth_error _ _ _ H). reflexivity.
Qed.
Lemma bget_end (l : list bytes) (z : buf (option bytes)) : bget (map (fun s => Some (Some s)) l ++ Some None :: z) (length l) = Ok None.
Proof. unfold bget. rewrite nth_error_app2, map_length, Nat.sub_diag by (rewrite map_length; lia). reflexivity. Qed.
Lemma upto_ok r : forall l z fuel, length r < fuel -> upto fuel (map (fun s => Some (Some s)) (l ++ r) ++ Some None :: z) (length l) = Ok (length (l ++ r)).
Proof.
  induction r as [|x r IH]; intros l z fuel F; (destruct fuel as [|fuel]; [cbn [length] in F; lia|]); cbn [upto].
  - rewrite app_nil_r, bget_end. reflexivity.
  - erewrite bget_map; [|rewrite nth_error_app2, Nat.sub_diag by lia; reflexivity]. cbn [bind]. specialize (IH (l ++ [x]) z fuel). rewrite <- app_assoc in IH. cbn [app] in IH.
    rewrite app_length in IH. cbn [length] in IH, F. rewrite Nat.add_1_r in IH. rewrite IH by lia. reflexivity.
Qed.
Lemma entries_ok w l : holds w l -> entries w = Ok (length l).
Proof.
  destruct w as [b|]; cbn [holds entries]; [|now intros ->]. intros [z ->]. apply (upto_ok l [] z). rewrite app_length, map_length. lia.
Qed.
Lemma put_ok items : forall l junk, length (strings items) < length junk ->
  exists z, put items (map (fun s => Some (Some s)) l ++ junk) (length l) = Ok (map (fun s => Some (Some s)) (l ++ strings items) ++ Some None :: z).
Proof.
  induction items as [|[s|] items IH]; intros l junk H; cbn [put strings flat_map] in *.
  - unfold bset. destruct (Nat.ltb_spec (length l) (length (map (fun s => Some (Some s)) l ++ junk))); [|rewrite app_length, map_length in *; cbn [length] in H; lia].
    destruct junk as [|j junk]; [cbn in H; lia|]. rewrite upd_app_r, map_length, Nat.sub_diag by (rewrite map_length; lia). cbn [upd]. rewrite app_nil_r. eauto.
  - fold (strings items) in *. cbn [app length] in H. unfold bset. destruct (Nat.ltb_spec (length l) (length (map (fun s => Some (Some s)) l ++ junk))); [|rewrite app_length, map_length in *; lia].
    destruct junk as [|j junk]; [cbn in H; lia|]. rewrite upd_app_r, map_length, Nat.sub_diag by (rewrite map_length; lia). cbn [upd bind].
    destruct (IH (l ++ [s]) junk) as [z E]; [cbn [length] in H; lia|]. rewrite map_app in E. cbn [map] in E. rewrite <- app_assoc in E. cbn [app] in E. rewrite app_length in E. cbn [length] in E. rewrite Nat.add_1_r in E.
    exists z. rewrite E. rewrite <- app_assoc. reflexivity.
  - fold (strings items) in *. cbn [app] in *. apply IH. exact H.
Qed.
Lemma strings_length items : length (strings items) <= length items.
Proof. induction items as [|[s|] its IH]; [cbn; lia| |]; cbn [strings flat_map length app]; fold (strings its); lia. Qed.
Lemma append_ok items w l : holds w l -> exists w', append_whitelist items w = Ok w' /\ holds w' (l ++ strings items).
Proof.
  intros H. unfold append_whitelist. destruct items as [|i items]; [exists w; cbn; rewrite app_nil_r; now split|]. cbn [length Nat.eqb]. rewrite (entries_ok _ _ H). cbn [bind]. cbv zeta.
  set (its := i :: items). assert (Q : exists junk, brealloc match w with Some b => b | None => [] end (length l + S (length items) + 1) = map (fun s => Some (Some s)) l ++ junk /\ length (strings its) < length junk).
  { pose proof (strings_length its) as L. unfold its in L. cbn [length] in L. unfold brealloc. destruct w as [b|]; cbn [holds] in H.
    - destruct H as [z ->]. exists (firstn (S (length items) + 1) (Some None :: z) ++ repeat None (length l + S (length items) + 1 - length (map (fun s : bytes => Some (Some s)) l ++ Some None :: z))). split.
      + rewrite firstn_app, map_length. rewrite firstn_all2 by (rewrite map_length; lia). rewrite <- app_assoc. f_equal. f_equal. f_equal. lia.
      + rewrite app_length, firstn_length, repeat_length, app_length, map_length. cbn [length]. unfold its. lia.
    - subst l. cbn [length Nat.add map app]. exists (repeat None (S (length items) + 1)). rewrite firstn_nil. cbn [app length]. rewrite Nat.sub_0_r, repeat_length. split; [reflexivity|]. unfold its. lia. }
  destruct Q as (junk & -> & L). destruct (put_ok its l junk L) as [z E]. rewrite E. cbn [bind]. eexists. split; [reflexivity|]. cbn [holds]. eauto.
Qed.
Lemma load_ok fs p w l : holds w l -> exists w', load fs p w = Ok (w', match fs p with Some _ => true | None => false end) /\ holds w' (l ++ names (fs p)).
Proof.
  intros H. unfold load, names. destruct (fs p) as [[items|]|].
  - destruct (append_ok items w l H) as (w' & E & H'). rewrite E. cbn [bind]. eauto.
  - exists w. rewrite app_nil_r. now split.
  - exists w. rewrite app_nil_r. now split.
Qed.
Lemma in_dir_ok d : short d -> in_dir d = d ++ bs "/zenc.json".
Proof. unfold short, in_dir. intros H. apply firstn_all2. rewrite app_length. change (length (bs "/zenc.json")) with 10. lia. Qed.
Lemma load_all_ok fs root share : short share -> match root with Some r => short r | None => True end -> exists w, load_all fs root share = Ok w /\ holds w (listed fs root share).
Proof.
  intros Sh Ro. unfold load_all, listed.
  assert (Y : exists w, (do '(w, found) <- match root with Some r => load fs (in_dir r) None | None => Ok (None, false) end;
                         if found then Ok w else do '(w, _) <- load fs (in_dir share) w; Ok w) = Ok w /\ holds w (names (system fs root share))).
  { unfold system. destruct root as [r|].
    - rewrite (in_dir_ok r Ro). destruct (load_ok fs (r ++ bs "/zenc.json") None []) as (w & E & H); [reflexivity|]. rewrite E. cbn [bind]. destruct (fs (r ++ bs "/zenc.json")) as [f|] eqn:F.
      + exists w. split; [reflexivity|]. exact H.
      + cbn [names app] in H. rewrite (in_dir_ok share Sh). destruct (load_ok fs (share ++ bs "/zenc.json") w [] H) as (w' & E' & H'). rewrite E'. cbn [bind]. exists w'. now split.
    - cbn [bind]. rewrite (in_dir_ok share Sh). destruct (load_ok fs (share ++ bs "/zenc.json") None []) as (w' & E' & H'); [reflexivity|]. rewrite E'. cbn [bind]. exists w'. now split. }
  destruct Y as (w1 & E1 & H1).
  destruct (match root with Some r => load fs (in_dir r) None | None => Ok (None, false) end) as [[w0 found]| | |]; try discriminate. cbn [bind] in E1 |- *. rewrite E1. cbn [bind].
  destruct (load_ok fs (bs ".zenc.json") w1 _ H1) as (w2 & E2 & H2). rewrite E2. cbn [bind].
  destruct (load_ok fs (bs "zenc.json") w2 _ H2) as (w3 & E3 & H3). rewrite E3. cbn [bind]. exists w3. split; [reflexivity|]. now rewrite <- app_assoc in H3.
Qed.
(** ** The check *)
Lemma one_of_ok l n : one_of l n = true <-> In n l.
Proof.
  unfold one_of. rewrite existsb_exists. split; [intros (x & I & E); apply beq_bytes_true in E; now subst|]. intros I. exists n. split; [exact I|apply beq_bytes_refl].
Qed.
Lemma among_ok name r : forall l z fuel, length r < fuel -> exists b, among fuel (map (fun s => Some (Some s)) (l ++ r) ++ Some None :: z) (length l) name = Ok b /\ (b = true <-> In name r).
Proof.
  induction r as [|x r IH]; intros l z fuel F; (destruct fuel as [|fuel]; [cbn [length] in F; lia|]); cbn [among].
  - rewrite app_nil_r, bget_end. cbn [bind]. exists false. split; [reflexivity|]. split; [discriminate|intros []].
  - erewrite bget_map; [|rewrite nth_error_app2, Nat.sub_diag by lia; reflexivity]. cbn [bind]. destruct (beq_bytes_spec x name) as [->|Ne]; [exists true; split; [reflexivity|]; split; [now left|reflexivity]|].
    destruct (IH (l ++ [x]) z fuel) as (b & E & B); [cbn [length] in F; lia|]. rewrite <- app_assoc in E. cbn [app] in E. rewrite app_length in E. cbn [length] in E. rewrite Nat.add_1_r in E.
    exists b. split; [exact E|]. rewrite B. cbn [In]. tauto.
Qed.
Lemma whitelisted_ok w l name : holds w l -> exists b, whitelisted w name = Ok b /\ (b = true <-> In name l).
Proof.
  destruct w as [b|]; cbn [holds whitelisted].
  - intros [z ->]. apply (among_ok name l [] z). rewrite app_length, map_length. lia.
  - intros ->. exists false. split; [reflexivity|]. split; [discriminate|intros []].
Qed.
Lemma starts_ok p : forall s, starts p s = true <-> exists r, s = p ++ r.
Proof.
  induction p as [|a p IH]; intros s; cbn [starts app]; [split; eauto|]. destruct s as [|b s]; [split; [discriminate|intros [r H]; discriminate]|].
  rewrite andb_true_iff, N.eqb_eq, IH. split; [intros [-> [r ->]]; eauto|intros [r [= -> ->]]; eauto].
Qed.
Lemma contains_ok p s : contains p s = true <-> has_part p s.
Proof.
  unfold has_part. induction s as [|c s IH]; cbn [contains]; rewrite orb_true_iff, starts_ok.
  - split; [intros [[r E]|]; [now exists [], r|discriminate]|]. intros (a & b & E). destruct a; [|discriminate]. left. now exists b.
  - rewrite IH. split; [intros [[r E]|(a & b & E)]; [now exists [], r|exists (c :: a), b; now rewrite E]|]. intros (a & b & E). destruct a as [|d a]; [left; now exists b|].
    injection E as <- E. right. now exists a, b.
Qed.
