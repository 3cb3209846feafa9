(** C24: readln. *)
From Verif Require Import Common String_Model Readln_Model.

(** [line] followed by newline and [rest], or the last line without one. *)
Definition next_line (inp line rest : bytes) : Prop :=
  ~ In 10%N line /\ (inp = line ++ 10%N :: rest \/ (inp = line /\ rest = [] /\ line <> [])).

Lemma readln_loop_ok inp : forall line rest, ~ In 10%N line ->
  (inp = line ++ 10%N :: rest \/ (inp = line /\ rest = [])) ->
  forall done tl len cap, len = length done -> len < cap -> 2 <= cap -> length (map Some done ++ tl) = cap ->
  exists b eof tl', readln_loop inp (map Some done ++ tl) len cap =
    Ok (map Some (done ++ line) ++ tl', length (done ++ line), eof, rest) /\
    1 <= length tl' /\ (eof = true <-> inp = line) /\ b = tl'.
Proof.
  induction inp as [|c inp IH]; intros line rest N E done tl len cap -> Lc Lc2 El; cbn [readln_loop].
  - destruct E as [E|[<- ->]]; [destruct line; discriminate|]. exists tl, true, tl.
    rewrite app_nil_r. splits; auto; try easy. rewrite app_length, map_length in El. lia.
  - destruct (N.eqb_spec c 10) as [->|Nc].
    + assert (line = [] /\ inp = rest) as [-> ->].
      { destruct E as [E|[E _]].
        - destruct line; cbn in E; [injection E as ->; auto|]. injection E as <- _. destruct N; now left.
        - subst line. destruct N; now left. }
      exists tl, false, tl. rewrite app_nil_r. splits; auto; try easy.
      rewrite app_length, map_length in El. lia.
    + destruct line as [|d line]. { destruct E as [E|[E _]]; [injection E; easy|discriminate]. }
      assert (d = c /\ (inp = line ++ 10%N :: rest \/ inp = line /\ rest = [])) as [-> E'].
      { destruct E as [E|[E R]]; injection E as <- ->; auto. }
      set (tl0 := if cap <=? length done + 1 then tl ++ repeat None cap else tl).
      set (cap0 := if cap <=? length done + 1 then cap * 2 else cap).
      assert (G : (if cap <=? length done + 1 then brealloc (map Some done ++ tl) (cap * 2) else map Some done ++ tl)
                  = map Some done ++ tl0).
      { unfold tl0. destruct (cap <=? length done + 1); auto.
        unfold brealloc. rewrite firstn_all2 by lia. rewrite El, <- app_assoc. repeat f_equal. lia. }
      fold cap0. cbv zeta. rewrite G.
      assert (G1 : length (map Some done ++ tl0) = cap0 /\ length done + 1 < cap0).
      { unfold tl0, cap0. destruct (Nat.leb_spec cap (length done + 1)); split; try lia.
        rewrite app_assoc, app_length, El, repeat_length. lia. }
      destruct G1 as [El0 Lc0].
      destruct tl0 as [|x tl0]. { rewrite app_nil_r, map_length in El0. lia. }
      unfold bset. destruct (Nat.ltb_spec (length done) (length (map Some done ++ x :: tl0))); [|lia].
      rewrite upd_middle' by now rewrite map_length. cbn [bind].
      replace (map Some done ++ Some c :: tl0) with (map Some (done ++ [c]) ++ tl0)
        by now rewrite map_app, <- app_assoc.
      destruct (IH line rest) with (done := done ++ [c]) (tl := tl0) (len := length done + 1) (cap := cap0)
        as (b & eof & tl' & -> & L' & Ee & ->); auto; try lia.
      { intros I. apply N. now right. }
      { rewrite app_length. reflexivity. }
      { rewrite map_app, <- app_assoc. rewrite app_length in *. cbn [map app length] in *. lia. }
      rewrite <- app_assoc. cbn [app]. do 3 eexists. splits; eauto. rewrite Ee. split; congruence.
Qed.

(** The memory returned holds exactly the next line and a terminator, and exactly the
    line and its newline have been consumed; for lines of every length. *)
Theorem C24_readln :
  (readln [] = Ok (None, [])) /\
  (forall inp line rest, next_line inp line rest ->
   exists tl, readln inp = Ok (Some (map Some (line ++ [0%N]) ++ tl), rest)) /\
  (forall inp, inp <> [] -> exists line rest, next_line inp line rest /\ length rest < length inp).
Proof.
  splits.
  - reflexivity.
  - intros inp line rest [Nn E]. unfold readln.
    assert (E' : inp = line ++ 10%N :: rest \/ inp = line /\ rest = []) by (destruct E as [|(? & ? & ?)]; auto).
    destruct (readln_loop_ok inp line rest Nn E' [] (bnew 64) 0 64) as (b & eof & tl' & Er & L & Ee & _);
      try (cbn; lia); auto.
    cbn [map app] in Er. rewrite Er. cbn [bind].
    assert (Z : (length line =? 0) && eof = false).
    { destruct E as [->|(-> & -> & Nl)].
      - destruct eof; [|now rewrite andb_false_r]. exfalso. pose proof (f_equal (@length N) (proj1 Ee eq_refl)) as X. rewrite app_length in X. cbn in X. lia.
      - destruct line; easy. }
    rewrite Z. destruct tl' as [|x tl']; [cbn in L; lia|]. unfold bset. cbn [app].
    destruct (Nat.ltb_spec (length line) (length (map Some line ++ x :: tl'))).
    2: { rewrite app_length, map_length in H. cbn in H. lia. }
    rewrite upd_middle' by now rewrite map_length. cbn [bind]. exists tl'. rewrite map_app, <- app_assoc. reflexivity.
  - intros inp N.
    assert (G : ~ In 10%N inp \/ exists line rest, ~ In 10%N line /\ inp = line ++ 10%N :: rest).
    { clear N. induction inp as [|c inp [IH|(l & r & Nl & ->)]]; [now left| |].
      - destruct (N.eq_dec c 10) as [->|Nc].
        + right. exists [], inp. auto.
        + left. intros [E|I]; auto.
      - destruct (N.eq_dec c 10) as [->|Nc].
        + right. exists [], (l ++ 10%N :: r). auto.
        + right. exists (c :: l), r. split; auto. intros [E|I]; auto. }
    destruct G as [G|(l & r & Nl & E)].
    + exists inp, []. split; [split; auto|]. destruct inp; [easy|cbn; lia].
    + exists l, r. split; [split; auto|]. rewrite E, app_length. cbn. lia.
Qed.
Print Assumptions C24_readln.

Lemma cread_text line tl : ~ In 0%N line -> cread (map Some (line ++ [0%N]) ++ tl) = Ok line.
Proof.
  induction line; intros N; cbn; auto. destruct (N.eqb_spec a 0) as [->|_]; [destruct N; now left|].
  rewrite IHline; auto. intros I. apply N. now right.
Qed.

(** The lines of a text: pieces ended by newlines, then possibly a last non-empty one. *)
Inductive lines : bytes -> list bytes -> Prop :=
| lines_nil : lines [] []
| lines_cons inp l rest ls : next_line inp l rest -> lines rest ls -> lines inp (l :: ls).

(** Reading until NULL gives the lines of the input, if it has no NUL byte. *)
Theorem C24_all_lines_partial :
  forall inp, ~ In 0%N inp -> exists ls, lines inp ls /\ forall fuel, length inp < fuel -> read_all fuel inp = Ok ls.
Proof.
  destruct C24_readln as (R0 & R1 & R2).
  intros inp. remember (length inp) as n eqn:En. revert inp En.
  induction n as [n IH] using lt_wf_ind. intros inp -> N.
  destruct inp as [|c inp].
  - exists []. split; [constructor|]. intros [|f] L; [lia|]. cbn [read_all]. now rewrite R0.
  - destruct (R2 (c :: inp)) as (l & r & NL & Lr); [easy|].
    assert (N2 : ~ In 0%N l /\ ~ In 0%N r).
    { destruct NL as [_ [E|(E & -> & _)]]; rewrite E in N.
      - split; intros I; apply N; apply in_or_app; [left|right; right]; auto.
      - split; auto. }
    destruct N2 as [Nl Nr]. destruct (IH _ Lr r eq_refl Nr) as (ls & Hls & RA).
    exists (l :: ls). split; [econstructor; eauto|]. intros [|f] L; [lia|]. cbn [read_all].
    destruct (R1 _ _ _ NL) as (tl & ->). cbn [bind]. rewrite cread_text by auto. cbn [bind].
    rewrite RA by lia. reflexivity.
Qed.
Print Assumptions C24_all_lines_partial.

(** A NUL byte hides the rest of its line from the caller. *)
Theorem C24_nul_refuted :
  forall a b, ~ In 0%N a -> ~ In 10%N a -> ~ In 10%N b ->
  exists line, readln (a ++ 0%N :: b) = Ok (Some line, []) /\ cread line = Ok a.
Proof.
  intros a b Na N1 N2. destruct C24_readln as (_ & R1 & _).
  destruct (R1 (a ++ 0%N :: b) (a ++ 0%N :: b) []) as (tl & ->).
  { split. - intros I. apply in_app_or in I as [I|[I|I]]; easy. - right. splits; auto. destruct a; easy. }
  eexists. split; [reflexivity|]. replace ((a ++ 0%N :: b) ++ [0%N]) with ((a ++ [0%N]) ++ b ++ [0%N])
    by now rewrite <- !app_assoc.
  rewrite map_app, <- app_assoc. now apply cread_text.
Qed.
Print Assumptions C24_nul_refuted.

Example C24_example :
  let inp := repeat (ch "a") 200 ++ [10%N] ++ [10%N] ++ bs "end" in
  ~ In 0%N inp /\ next_line inp (repeat (ch "a") 200) ([10%N] ++ bs "end") /\
  read_all 300 inp = Ok [repeat (ch "a") 200; []; bs "end"].
Proof.
  cbv zeta. splits.
  - intros I. apply in_app_or in I as [I|I]. { apply repeat_spec in I. discriminate. }
    cbn in I. repeat (destruct I as [I|I]; [discriminate I|]). destruct I.
  - split. { intros I. apply repeat_spec in I. discriminate. } left. reflexivity.
  - vm_compute. reflexivity.
Qed.
