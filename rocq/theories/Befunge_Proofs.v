(** Proofs about the Befunge plugin. *)
From Verif Require Import Common Befunge_Model Befunge_Spec.
Local Open Scope nat_scope.

Lemma lines_cons p : exists l ls, lines p = l :: ls.
Proof. destruct p as [|c p]; cbn [lines]; [eauto|]. destruct (c =? 10)%N; [eauto|]. destruct (lines p); eauto. Qed.
(** the grid after reading from a place *)
Lemma fill_spec p : forall row col g, row < 25 -> col <= 80 -> exists g', fill p row col g = Ok g' /\
  forall r c, r < 25 -> c < 80 -> g' r c = if r <? row then g r c else if r =? row then if c <? col then g r c else nth (c - col) (nth 0 (lines p) []) (g r c) else nth c (nth (r - row) (lines p) []) (g r c).
Proof.
  induction p as [|a p IH]; intros row col g R C; cbn [fill].
  - exists g. split; [reflexivity|]. intros r c Hr Hc. cbn [lines nth]. destruct (r <? row); [reflexivity|]. destruct (r =? row).
    + destruct (c <? col); [reflexivity|]. now destruct (c - col).
    + destruct (r - row) as [|[|k]]; cbn [nth]; now destruct c.
  - destruct (lines_cons p) as (l0 & ls & L). destruct (a =? 10)%N eqn:E.
    + unfold BF_H. destruct (25 <=? S row) eqn:B.
      * apply Nat.leb_le in B. exists g. split; [reflexivity|]. intros r c Hr Hc. cbn [lines]. rewrite E. destruct (r <? row) eqn:F; [reflexivity|]. destruct (r =? row) eqn:G.
        -- destruct (c <? col); [reflexivity|]. cbn [nth]. now destruct (c - col).
        -- apply Nat.ltb_ge in F. apply Nat.eqb_neq in G. lia.
      * apply Nat.leb_gt in B. destruct (IH (S row) 0 g) as (g' & F & G); [lia|lia|]. exists g'. split; [exact F|]. intros r c Hr Hc. rewrite (G r c Hr Hc). cbn [lines]. rewrite E.
        destruct (r <? row) eqn:X; [apply Nat.ltb_lt in X; replace (r <? S row) with true by (symmetry; apply Nat.ltb_lt; lia); reflexivity|]. apply Nat.ltb_ge in X.
        destruct (r =? row) eqn:Y.
        -- apply Nat.eqb_eq in Y. subst r. replace (row <? S row) with true by (symmetry; apply Nat.ltb_lt; lia). destruct (c <? col); [reflexivity|]. cbn [nth]. now destruct (c - col).
        -- apply Nat.eqb_neq in Y. replace (r <? S row) with false by (symmetry; apply Nat.ltb_ge; lia). replace (c <? 0) with false by reflexivity. rewrite Nat.sub_0_r.
           destruct (r - row) as [|k] eqn:K; [lia|]. cbn [nth]. destruct (r =? S row) eqn:W; [apply Nat.eqb_eq in W; now replace k with 0 by lia|]. now replace (r - S row) with k by lia.
    + unfold BF_W. destruct (col <? 80) eqn:B.
      * apply Nat.ltb_lt in B. unfold put, BF_H, BF_W. replace (row <? 25) with true by (symmetry; apply Nat.ltb_lt; lia). replace (col <? 80) with true by (symmetry; apply Nat.ltb_lt; lia). cbn [andb bind].
        destruct (IH row (S col) (fun r' c' => if (r' =? row) && (c' =? col) then a else g r' c')) as (g' & F & G); [lia|lia|]. exists g'. split; [exact F|]. intros r c Hr Hc. rewrite (G r c Hr Hc). cbn [lines]. rewrite E, L.
        destruct (r =? row) eqn:X; cbn [andb].
        -- apply Nat.eqb_eq in X. subst r. rewrite Nat.ltb_irrefl. cbn [nth]. destruct (c =? col) eqn:Y.
           ++ apply Nat.eqb_eq in Y. subst c. replace (col <? S col) with true by (symmetry; apply Nat.ltb_lt; lia). rewrite Nat.ltb_irrefl, Nat.sub_diag. reflexivity.
           ++ apply Nat.eqb_neq in Y. destruct (c <? col) eqn:Z0.
              ** apply Nat.ltb_lt in Z0. now replace (c <? S col) with true by (symmetry; apply Nat.ltb_lt; lia).
              ** apply Nat.ltb_ge in Z0. replace (c <? S col) with false by (symmetry; apply Nat.ltb_ge; lia). destruct (c - col) as [|k] eqn:K; [lia|]. cbn [nth]. now replace (c - S col) with k by lia.
        -- destruct (r <? row) eqn:Y; [reflexivity|]. apply Nat.ltb_ge in Y. apply Nat.eqb_neq in X. destruct (r - row) as [|k] eqn:K; [lia|]. reflexivity.
      * apply Nat.ltb_ge in B. destruct (IH row col g R C) as (g' & F & G). exists g'. split; [exact F|]. intros r c Hr Hc. rewrite (G r c Hr Hc). cbn [lines]. rewrite E, L.
        destruct (r <? row) eqn:X; [reflexivity|]. apply Nat.ltb_ge in X. destruct (r =? row) eqn:Y.
        -- now replace (c <? col) with true by (symmetry; apply Nat.ltb_lt; lia).
        -- apply Nat.eqb_neq in Y. destruct (r - row) as [|k] eqn:K; [lia|]. reflexivity.
Qed.
Lemma load_spec text : exists g, load text = Ok g /\ forall r c, r < 25 -> c < 80 -> g r c = nth c (nth r (lines (skip_newlines text)) []) 32%N.
Proof.
  unfold load. destruct (fill_spec (skip_newlines text) 0 0 blank) as (g & F & G); [lia|lia|]. exists g. split; [exact F|]. intros r c Hr Hc. rewrite (G r c Hr Hc).
  unfold blank. cbn [Nat.ltb Nat.leb]. replace (c <? 0) with false by reflexivity. rewrite !Nat.sub_0_r. destruct (r =? 0) eqn:E; [apply Nat.eqb_eq in E; now subst|reflexivity].
Qed.

(** the stack *)
Lemma top_get (l : list Z) v vs : firstn (S (length vs)) l = rev (v :: vs) -> nth_error l (length vs) = Some v /\ firstn (length vs) l = rev vs.
Proof.
  intros H. cbn [rev] in H. assert (L : length (firstn (S (length vs)) l) = S (length vs)) by (rewrite H, app_length, rev_length; cbn [length]; lia).
  split.
  - rewrite <- (firstn_skipn (S (length vs)) l), H, nth_error_app1 by (rewrite app_length, rev_length; cbn [length]; lia).
    rewrite nth_error_app2 by (rewrite rev_length; lia). rewrite rev_length, Nat.sub_diag. reflexivity.
  - replace (firstn (length vs) l) with (firstn (length vs) (firstn (S (length vs)) l)) by (rewrite firstn_firstn; f_equal; lia). rewrite H, firstn_app, rev_length, Nat.sub_diag. cbn [firstn].
    rewrite app_nil_r. apply firstn_all2. rewrite rev_length. lia.
Qed.
Lemma firstn_upd (l : list Z) i v : i < length l -> firstn (S i) (upd l i v) = firstn i l ++ [v].
Proof. revert i. induction l as [|a l IH]; intros i H; cbn [length] in H; [lia|]. destruct i; [reflexivity|]. change (a :: firstn (S i) (upd l i v) = a :: (firstn i l ++ [v])). now rewrite IH by lia. Qed.
Lemma firstn_upd_lt (l : list Z) i n v : n <= i -> firstn n (upd l i v) = firstn n l.
Proof. revert i n. induction l as [|a l IH]; intros i n H; [now destruct i|]. destruct n; [reflexivity|]. destruct i; [lia|]. cbn [upd firstn]. now rewrite IH by lia. Qed.
Lemma upd_comm (l : list Z) i j u v : i <> j -> upd (upd l i u) j v = upd (upd l j v) i u.
Proof. revert i j. induction l as [|a l IH]; intros i j H; [now destruct i, j|]. destruct i, j; try lia; cbn [upd]; try reflexivity. now rewrite IH by lia. Qed.
Lemma get_top l v vs : firstn (S (length vs)) l = rev (v :: vs) -> get l (length vs) = Ok v.
Proof. intros H. unfold get. now rewrite (proj1 (top_get _ _ _ H)). Qed.
Lemma set_top l v vs : length vs < length l -> firstn (length vs) l = rev vs -> set l (length vs) v = Ok (upd l (length vs) v) /\ firstn (S (length vs)) (upd l (length vs) v) = rev (v :: vs).
Proof. intros H E. unfold set. replace (length vs <? length l) with true by (symmetry; apply Nat.ltb_lt; lia). split; [reflexivity|]. rewrite firstn_upd by lia. cbn [rev]. now rewrite E. Qed.
Lemma wrap_mod v size : (0 < size -> -1 <= v <= size -> wrap v size = v mod size)%Z.
Proof.
  intros S H. unfold wrap. destruct (size <=? v)%Z eqn:E; [apply Z.leb_le in E; replace v with size by lia; symmetry; apply Z.mod_same; lia|]. apply Z.leb_gt in E.
  destruct (v <? 0)%Z eqn:F; [apply Z.ltb_lt in F; replace v with (-1)%Z by lia|apply Z.ltb_ge in F; rewrite Z.mod_small; lia].
  rewrite <- (Z.mod_add (-1) 1 size) by lia. rewrite Z.mod_small; lia.
Qed.

Lemma same_move g m s : same g m s -> same g (move m) (forward s).
Proof.
  intros [(A & B & C & D) (E & F & G & H) I J K L M N]. unfold move, forward. constructor; cbn; auto; rewrite ?A, ?B, ?E, ?F, ?G.
  - rewrite !wrap_mod by lia. pose proof (Z.mod_pos_bound (col s + dcol s) 80). pose proof (Z.mod_pos_bound (row s + drow s) 25). splits; try reflexivity; lia.
Qed.
Lemma same_bridge g m s : same g m s -> (0 <= col s + dcol s < 80 -> 0 <= row s + drow s < 25 ->
  same g (St (x m + dx m) (y m + dy m) (dx m) (dy m) (str m) (stack m) (sp m) (printed m)) (forward s))%Z.
Proof.
  intros [(A & B & C & D) (E & F & G & H) I J K L M N] P Q. unfold forward. constructor; cbn; auto.
  rewrite A, B, E, F. rewrite !Z.mod_small by assumption. auto.
Qed.
Lemma same_vals g m s vs l : same g m s -> length l = Z.to_nat 1024 -> firstn (length vs) l = rev vs -> same g (with_stack m l (length vs)) (vals_ s vs).
Proof. intros [A B C D E F G H] L V. constructor; cbn [with_stack vals_ x y dx dy str stack sp printed col row dcol drow quoted vals cells said]; auto. Qed.
Lemma same_go g m s a b vs : same g m s -> (-1 <= a <= 1)%Z -> (-1 <= b <= 1)%Z -> firstn (length vs) (stack m) = rev vs ->
  same g (turn (with_stack m (stack m) (length vs)) a b) (go s a b vs).
Proof. intros [A B C D E F G H] P Q V. constructor; cbn [turn go with_stack x y dx dy str stack sp printed col row dcol drow quoted vals cells said]; auto. Qed.
Lemma same_say g m s o vs : same g m s -> firstn (length vs) (stack m) = rev vs -> same g (print (with_stack m (stack m) (length vs)) o) (say s o vs).
Proof. intros [A B C D E F G H] V. constructor; cbn [print say with_stack x y dx dy str stack sp printed col row dcol drow quoted vals cells said]; auto. now rewrite D. Qed.
Lemma same_push g m s v : same g m s -> (Z.of_nat (length (vals s)) < 1024)%Z -> exists m', push m v = Ok m' /\ same g m' (vals_ s (v :: vals s)).
Proof.
  intros H L. pose proof H as [A B C D E F G K]. unfold push. rewrite E in *. destruct (set_top (stack m) v (vals s)) as (P & Q); [lia|assumption|]. rewrite P. cbn [bind]. eexists. split; [reflexivity|].
  apply (same_vals g m s (v :: vals s)); auto. now rewrite length_upd.
Qed.
Lemma same_pop g m s v vs : same g m s -> vals s = v :: vs -> pop m = Ok (v, with_stack m (stack m) (length vs)) /\ firstn (length vs) (stack m) = rev vs.
Proof.
  intros H V. pose proof H as [A B C D E F G K]. rewrite V in *. cbn [length] in E. rewrite E in G. unfold pop. rewrite E, (get_top _ _ _ G). split; [reflexivity|]. apply (top_get _ _ _ G).
Qed.
Lemma same_binary g m s f a b vs v : same g m s -> vals s = a :: b :: vs -> f b a = Ok v -> exists m', binary f m = Ok m' /\ same g m' (vals_ s (v :: vs)).
Proof.
  intros H V Fv. destruct (same_pop g m s a (b :: vs) H V) as (P & Q). unfold binary. rewrite P. cbn [bind]. cbn [with_stack sp stack length].
  rewrite (get_top _ _ _ Q). cbn [bind]. rewrite Fv. cbn [bind]. destruct (top_get _ _ _ Q) as (_ & Q'). pose proof H as [A B C D E F G K]. rewrite V in E. cbn [length] in E.
  assert (L : length vs < length (stack m)). { apply nth_error_Some. destruct (top_get _ _ _ Q) as (X & _). rewrite X. discriminate. }
  destruct (set_top (stack m) v vs L Q') as (S1 & S2). rewrite S1. cbn [bind]. eexists. split; [reflexivity|]. apply (same_vals g m s (v :: vs)); auto. now rewrite length_upd.
Qed.
Lemma long_fits v : fits v -> long v = Ok v.
Proof. unfold fits, long. intros H. destruct ((- 2 ^ 63 <=? v) && (v <? 2 ^ 63))%Z eqn:E; [reflexivity|]. apply andb_false_iff in E as [E|E]; [apply Z.leb_gt in E|apply Z.ltb_ge in E]; lia. Qed.

(** the instructions *)
Lemma cell_code_other n : n <> 34%N -> instruction (Z.of_N n) = false -> cell_code n = if ((48 <=? n) && (n <=? 57))%N then CDigit n else CPlain n.
Proof.
  intros Q H. unfold cell_code. destruct (n =? 32)%N eqn:E; [apply N.eqb_eq in E; subst; discriminate H|]. clear E. destruct ((48 <=? n) && (n <=? 57))%N; [reflexivity|].
  apply N.eqb_neq in Q. rewrite Q. clear Q.
  repeat match goal with |- (if (n =? ?k)%N then _ else _) = _ => let E := fresh in destruct (n =? k)%N eqn:E; [apply N.eqb_eq in E; subst n; discriminate H|clear E] end. reflexivity.
Qed.
Lemma instr_other c s : c <> 34%Z -> instruction c = false -> ~ (48 <= c <= 57)%Z -> c <> c_ "g" -> c <> c_ "p" -> quoted s = false -> instr_at c s = Some s.
Proof.
  intros Q H D G P U. unfold instr_at. cbv zeta beta. rewrite U. apply Z.eqb_neq in Q, G, P. rewrite Q.
  replace ((48 <=? c) && (c <=? 57))%Z with false by (symmetry; apply andb_false_iff; destruct (Z.leb_spec 48 c); [right; apply Z.leb_gt; lia|now left]).
  unfold instruction in H. cbn [existsb] in H. rewrite !orb_false_iff in H. destruct H as (? & H). repeat match goal with H : _ /\ _ |- _ => destruct H end.
  repeat match goal with E : (c =? ?k)%Z = false |- _ => rewrite E; clear E end. reflexivity.
Qed.
Ltac bin2 S HN := match type of S with same _ _ ?s => destruct (vals s) as [|a [|b vs]] eqn:V; try (exfalso; cbn [length] in HN; lia); cbn [hd tl] in * end.
Ltac bin1 HN := match type of HN with (_ <= length (vals ?s))%nat => destruct (vals s) as [|a vs] eqn:V; [exfalso; cbn [length] in HN; lia|]; cbn [hd tl] in * end.
Ltac now_go SP VL S := eexists; split; [reflexivity|]; rewrite SP in VL; match type of S with same ?g ?m ?s => match goal with |- same _ (turn _ ?a ?b) _ =>
  replace (turn m a b) with (turn (with_stack m (stack m) (length (vals s))) a b) by (unfold turn, with_stack; cbn [x y str stack sp printed]; now rewrite SP) end end; apply same_go; auto; lia.
Lemma statement_same g m s : same g m s -> handled s ->
  match instr s with
  | Some s' => exists m', statement (cell_code (g (Z.to_nat (y m)) (Z.to_nat (x m)))) m = Ok (inl m') /\ same g m' s'
  | None => exists m', statement (cell_code (g (Z.to_nat (y m)) (Z.to_nat (x m)))) m = Ok (inr m') /\ same g m' s
  end.
Proof.
  intros S [HS HC]. pose proof S as [(X & Y & X1 & Y1) (DX & DY & DX1 & DY1) ST PR SP LN VL CE]. unfold instr. cbv zeta in HS, HC.
  rewrite (CE (row s) (col s) Y1 X1) in *. rewrite X, Y. set (n := g (Z.to_nat (row s)) (Z.to_nat (col s))) in *. clearbody n. clear CE.
  destruct (N.eq_dec n 34) as [->|N34].
  { unfold instr_at. cbn [Z.of_N Z.eqb Pos.eqb]. replace (if quoted s then Some (quote s) else Some (quote s)) with (Some (quote s)) by (now destruct (quoted s)).
    eexists. split; [reflexivity|]. unfold quote. destruct S. constructor; cbn; auto. now rewrite ST. }
  assert (Z34 : Z.of_N n <> 34%Z) by lia.
  destruct (quoted s) eqn:QU.
  - destruct (HS eq_refl) as [E|((A & I) & L)]; [lia|]. rewrite (cell_code_other n N34 I). unfold instr_at. cbv zeta. rewrite QU. apply Z.eqb_neq in Z34. rewrite Z34.
    destruct (same_push g m s (Z.of_N n) S L) as (m' & P & S'). exists m'. split; [|exact S'].
    destruct ((48 <=? n) && (n <=? 57))%N; cbn [statement]; rewrite ST; [now rewrite P|]. unfold char_value. replace (n <? 128)%N with true by (symmetry; apply N.ltb_lt; lia). now rewrite P.
  - clear HS. destruct (HC eq_refl) as (HN & HD & HA & HSu & HM & HQ & HB & HG & HP). clear HC.
    destruct (instruction (Z.of_N n)) eqn:I.
    + unfold instruction in I. apply existsb_exists in I as (t & T & E). apply Z.eqb_eq in E.
      cbn [In] in T.
      repeat (destruct T as [<-|T]; [match type of E with _ = c_ ?u => let v := eval vm_compute in (c_ u) in change (c_ u) with v in E; assert (EN : n = Z.to_N v) by (clear - E; lia); clear E; subst n end|]); [..|destruct T].
      all: match goal with |- context [cell_code ?k] => let v := eval vm_compute in (cell_code k) in change (cell_code k) with v end.
      all: match goal with H : (needs ?k <= _)%nat |- _ => let v := eval vm_compute in (needs k) in change (needs k) with v in H end.
      all: unfold instr_at; cbv zeta beta; rewrite QU.
      all: repeat match goal with |- context [(Z.of_N ?a =? ?b)%Z] => let v := eval vm_compute in (Z.of_N a =? b)%Z in change (Z.of_N a =? b)%Z with v end.
      all: match goal with |- context [((48 <=? ?a) && (?a <=? 57))%Z] => change ((48 <=? a) && (a <=? 57))%Z with false end; cbv iota.
      all: cbn [statement].
      * (* blank *) eauto.
      * bin2 S HN. match goal with |- context [binary ?f m] => destruct (same_binary g m s f a b vs (b + a)%Z S V) as (m' & P & S') end; [now apply long_fits, HA|]. rewrite P. cbn [bind]. eauto.
      * bin2 S HN. match goal with |- context [binary ?f m] => destruct (same_binary g m s f a b vs (b - a)%Z S V) as (m' & P & S') end; [now apply long_fits, HSu|]. rewrite P. cbn [bind]. eauto.
      * bin2 S HN. match goal with |- context [binary ?f m] => destruct (same_binary g m s f a b vs (b * a)%Z S V) as (m' & P & S') end; [now apply long_fits, HM|]. rewrite P. cbn [bind]. eauto.
      * bin2 S HN. match goal with |- context [binary ?f m] => destruct (same_binary g m s f a b vs (if (a =? 0)%Z then 0%Z else Z.quot b a) S V) as (m' & P & S') end.
        { destruct (a =? 0)%Z eqn:A0; [reflexivity|]. apply Z.eqb_neq in A0. apply long_fits, HQ; [now left|assumption]. } rewrite P. cbn [bind]. eauto.
      * bin2 S HN. match goal with |- context [binary ?f m] => destruct (same_binary g m s f a b vs (if (a =? 0)%Z then 0%Z else Z.rem b a) S V) as (m' & P & S') end.
        { destruct (a =? 0)%Z eqn:A0; [reflexivity|]. apply Z.eqb_neq in A0. rewrite long_fits by (apply HQ; [now right|assumption]). reflexivity. } rewrite P. cbn [bind]. eauto.
      * bin2 S HN. match goal with |- context [binary ?f m] => destruct (same_binary g m s f a b vs (if (a <? b)%Z then 1%Z else 0%Z) S V) as (m' & P & S') end; [reflexivity|]. rewrite P. cbn [bind]. eauto.
      * bin2 S HN. cbn [length] in SP. rewrite SP in *. change (Datatypes.S (length vs)) with (length (b :: vs)). rewrite (get_top (stack m) a (b :: vs) VL). cbn [bind].
        destruct (top_get (stack m) a (b :: vs) VL) as (G1 & G2). assert (L1 : length (b :: vs) < length (stack m)) by (apply nth_error_Some; rewrite G1; discriminate).
        rewrite (get_top (stack m) b vs G2). cbn [bind]. destruct (top_get (stack m) b vs G2) as (G3 & G4).
        unfold set. replace (length (b :: vs) <? length (stack m)) with true by (symmetry; now apply Nat.ltb_lt). cbn [bind]. rewrite length_upd. cbn [length] in L1. replace (length vs <? length (stack m)) with true by (symmetry; apply Nat.ltb_lt; lia). cbn [bind].
        eexists. split; [reflexivity|]. apply (same_vals g m s (b :: a :: vs)); [assumption|now rewrite !length_upd|]. cbn [length rev].
        assert (U : upd (upd (stack m) (Datatypes.S (length vs)) b) (length vs) a = upd (upd (stack m) (length vs) a) (Datatypes.S (length vs)) b).
        { apply upd_comm. lia. }
        rewrite U, firstn_upd by (rewrite length_upd; lia). rewrite firstn_upd by lia. rewrite G4. reflexivity.
      * bin1 HN. cbn [length] in SP. rewrite SP in *. rewrite (get_top (stack m) a vs VL). cbn [bind]. destruct (top_get (stack m) a vs VL) as (G1 & G2). assert (L1 : length vs < length (stack m)) by (apply nth_error_Some; rewrite G1; discriminate).
        destruct (set_top (stack m) (if (a =? 0)%Z then 1%Z else 0%Z) vs L1 G2) as (S1 & S2). rewrite S1. cbn [bind]. eexists. split; [reflexivity|]. apply (same_vals g m s (_ :: vs)); [assumption|now rewrite length_upd|exact S2].
      * bin1 HN. destruct (same_pop g m s a vs S V) as (P & Q). rewrite P. cbn [bind]. eexists. split; [reflexivity|]. apply same_go; auto; destruct (a =? 0)%Z; lia.
      * bin1 HN. destruct (same_pop g m s a vs S V) as (P & Q). rewrite P. cbn [bind]. eexists. split; [reflexivity|]. apply same_go; auto; destruct (a =? 0)%Z; lia.
      * bin1 HN. destruct (same_push g m s a S) as (m' & P & S'); [rewrite V; apply HD; now right|]. cbn [length] in SP. rewrite SP in *. rewrite (get_top (stack m) a vs VL). cbn [bind]. rewrite P. cbn [bind]. rewrite V in S'. eauto.
      * bin1 HN. destruct (same_pop g m s a vs S V) as (P & Q). rewrite P. cbn [bind]. eexists. split; [reflexivity|]. now apply same_say.
      * bin1 HN. destruct (same_pop g m s a vs S V) as (P & Q). rewrite P. cbn [bind]. eexists. split; [reflexivity|]. now apply same_say.
      * eexists. split; [reflexivity|]. rewrite SP. destruct (vals s) as [|a vs] eqn:V.
        -- cbn [length pred tl]. apply (same_vals g m s []); auto.
        -- cbn [length pred tl]. apply (same_vals g m s vs); auto. apply (same_pop g m s a vs S V).
      * eexists. split; [reflexivity|]. destruct (HB eq_refl). now apply same_bridge.
      * eexists. split; [reflexivity|]. assumption.
      * now_go SP VL S.
      * now_go SP VL S.
      * now_go SP VL S.
      * now_go SP VL S.
    + rewrite (cell_code_other n N34 I). destruct ((48 <=? n) && (n <=? 57))%N eqn:DG.
      * apply andb_true_iff in DG as (D1 & D2). apply N.leb_le in D1, D2. cbn [statement]. rewrite ST. unfold instr_at. cbv zeta beta. rewrite QU. apply Z.eqb_neq in Z34. rewrite Z34.
        replace ((48 <=? Z.of_N n) && (Z.of_N n <=? 57))%Z with true by (symmetry; apply andb_true_iff; split; apply Z.leb_le; lia).
        destruct (same_push g m s (Z.of_N n - 48)%Z S) as (m' & P & S'); [apply HD; left; lia|]. rewrite P. cbn [bind]. eauto.
      * rewrite instr_other; auto; [cbn [statement]; rewrite ST; eauto|]. intros D. apply andb_false_iff in DG as [D1|D1]; apply N.leb_gt in D1; lia.
Qed.
Lemma step_same g m s : same g m s -> handled s ->
  match bstep s with
  | inl s' => exists m', step g m = Ok (inl m') /\ same g m' s'
  | inr s' => exists m', step g m = Ok (inr m') /\ same g m' s'
  end.
Proof.
  intros S H. pose proof (statement_same g m s S H) as T. pose proof (s_pos _ _ _ S) as (X & Y & X1 & Y1). unfold step, bstep.
  replace ((0 <=? y m) && (y m <? 25) && (0 <=? x m) && (x m <? 80))%Z with true.
  2:{ symmetry. rewrite !andb_true_iff, !Z.leb_le, !Z.ltb_lt. lia. }
  destruct (instr s) as [s'|]; destruct T as (m' & T & U); rewrite T; cbn [bind]; eexists; (split; [reflexivity|]); auto using same_move.
Qed.
Lemma steps_same g n : forall m s, same g m s -> (forall k s', k < n -> bsteps k s = inl s' -> handled s') ->
  match bsteps n s with
  | inl s' => exists m', steps n g m = Ok (inl m') /\ same g m' s'
  | inr s' => exists m', steps n g m = Ok (inr m') /\ same g m' s'
  end.
Proof.
  induction n as [|n IH]; intros m s S H; cbn [bsteps steps]; [eauto|]. pose proof (step_same g m s S (H 0 s ltac:(lia) eq_refl)) as T.
  destruct (bstep s) as [s'|s'] eqn:E; destruct T as (m' & T & U); rewrite T; cbn [bind]; [|eauto].
  apply IH; [exact U|]. intros k t K B. apply (H (Datatypes.S k) t); [lia|]. cbn [bsteps]. now rewrite E.
Qed.
