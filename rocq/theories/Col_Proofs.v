From Verif Require Import Common Col_Model Col_Spec.
Local Open Scope nat_scope.

(** what is left of a text *)
Definition bracket (s : bytes) : bool := match s with c :: _ => (c =? 91)%N | [] => false end.
Fixpoint bare (inside : bool) (s : bytes) : bytes :=
  match s with
  | [] => []
  | c :: r => if inside then bare (negb (c =? 109)%N) r else if (c =? 27)%N && bracket r then bare true r else c :: bare false r
  end.
Fixpoint tail (s : bytes) : bytes := match s with [] => [] | c :: r => if (c =? 109)%N then r else tail r end.
Lemma bare_tail s : bare true s = bare false (tail s).
Proof. induction s as [|c s IH]; [reflexivity|]. cbn [bare tail]. destruct (c =? 109)%N; [reflexivity|exact IH]. Qed.
Lemma tail_length s : length (tail s) <= length s.
Proof. induction s as [|c s IH]; [reflexivity|]. cbn [tail length]. destruct (c =? 109)%N; lia. Qed.
Lemma rd_app a c z : rd (a ++ c :: z) (length a) = Ok c.
Proof. unfold rd. rewrite nth_error_app2, Nat.sub_diag by lia. reflexivity. Qed.
Definition clear (s : bytes) : Prop := ~ In 0%N s.
Lemma clear_cons c s : clear (c :: s) -> c <> 0%N /\ clear s.
Proof. unfold clear. cbn [In]. intros H. split; [intros ->; auto|auto]. Qed.
Lemma past_ok s : clear s -> forall fuel a z, length s < fuel ->
  exists a', past fuel (a ++ s ++ 0%N :: z) (length a) = Ok (length a') /\ a ++ s ++ 0%N :: z = a' ++ tail s ++ 0%N :: z /\ length a <= length a'.
Proof.
  induction s as [|c s IH]; intros C fuel a z F; (destruct fuel as [|fuel]; [cbn [length] in F; lia|]); cbn [past app].
  - rewrite rd_app. cbn [bind]. exists a. splits; auto.
  - rewrite rd_app. cbn [bind]. apply clear_cons in C as [N C]. apply N.eqb_neq in N. rewrite N. cbn [tail].
    replace (a ++ c :: s ++ 0%N :: z) with ((a ++ [c]) ++ s ++ 0%N :: z) by now rewrite <- app_assoc.
    replace (S (length a)) with (length (a ++ [c])) by (rewrite app_length; cbn; lia).
    destruct (c =? 109)%N; [exists (a ++ [c]); splits; auto; rewrite app_length; lia|].
    destruct (IH C fuel (a ++ [c]) z) as (a' & E & Q & L); [cbn [length] in F; lia|]. exists a'. splits; auto. rewrite app_length in L. lia.
Qed.
Lemma tail_clear s : clear s -> clear (tail s).
Proof. induction s as [|c s IH]; intros C; [exact C|]. apply clear_cons in C as [_ C]. cbn [tail]. destruct (c =? 109)%N; auto. Qed.
Lemma upd_at a (m : bytes) c : m <> [] -> exists m', upd (a ++ m) (length a) c = (a ++ [c]) ++ m' /\ length m = S (length m').
Proof.
  intros H. destruct m as [|d m]; [easy|]. exists m. split; [|reflexivity]. rewrite upd_app_r, Nat.sub_diag by lia. cbn [upd]. now rewrite <- app_assoc.
Qed.
(** [done]: written; [m]: between the two places; [s]: to be read *)
Lemma strip_ok n : forall s, length s <= n -> clear s -> forall fuel done m z, length s < fuel ->
  exists rest, strip fuel (done ++ m ++ s ++ 0%N :: z) (length (done ++ m)) (length done) = Ok (done ++ bare false s ++ 0%N :: rest).
Proof.
  induction n as [|n IH]; intros s Ln C fuel done m z F; (destruct fuel as [|fuel]; [lia|]).
  all: assert (End : exists rest, wr (done ++ m ++ 0%N :: z) (length done) 0%N = Ok (done ++ 0%N :: rest))
    by (unfold wr; destruct (Nat.ltb_spec (length done) (length (done ++ m ++ 0%N :: z))); [|rewrite !app_length in *; cbn [length] in *; lia];
        destruct (upd_at done (m ++ 0%N :: z) 0%N) as (m' & -> & _); [now destruct m|]; exists m'; now rewrite <- app_assoc).
  - destruct s; [|cbn [length] in Ln; lia]. cbn [strip app bare]. rewrite app_assoc, rd_app. cbn [bind]. change (0 =? 0)%N with true. cbv iota. now rewrite <- app_assoc.
  - destruct s as [|c s]; cbn [strip app].
    { cbn [bare app]. rewrite app_assoc, rd_app. cbn [bind]. change (0 =? 0)%N with true. cbv iota. now rewrite <- app_assoc. }
    rewrite app_assoc, rd_app. cbn [bind]. apply clear_cons in C as [N C]. apply N.eqb_neq in N. rewrite N. cbn [bare]. cbn [length] in Ln, F.
    assert (Es : (if (c =? 27)%N then do d <- rd ((done ++ m) ++ c :: s ++ 0%N :: z) (S (length (done ++ m))); Ok (d =? 91)%N else Ok false) = Ok ((c =? 27)%N && bracket s)).
    { destruct (c =? 27)%N; [|reflexivity]. cbn [andb]. replace ((done ++ m) ++ c :: s ++ 0%N :: z) with (((done ++ m) ++ [c]) ++ s ++ 0%N :: z) by now rewrite <- app_assoc.
      replace (S (length (done ++ m))) with (length ((done ++ m) ++ [c])) by (rewrite app_length; cbn [length]; lia).
      destruct s as [|d s]; cbn [app]; rewrite rd_app; reflexivity. }
    rewrite Es. cbn [bind]. destruct ((c =? 27)%N && bracket s) eqn:B.
    + apply andb_true_iff in B as [_ B]. destruct s as [|d s]; [discriminate|]. cbn [bracket] in B. apply N.eqb_eq in B. subst d. apply clear_cons in C as [_ C].
      cbn [bare]. change (negb (91 =? 109)%N) with true. rewrite bare_tail. cbn [length] in Ln, F.
      replace ((done ++ m) ++ c :: (91%N :: s) ++ 0%N :: z) with (((done ++ m) ++ [c; 91%N]) ++ s ++ 0%N :: z) by now rewrite <- app_assoc.
      replace (S (S (length (done ++ m)))) with (length ((done ++ m) ++ [c; 91%N])) by (rewrite app_length; cbn [length]; lia).
      destruct (past_ok s C (S (length (((done ++ m) ++ [c; 91%N]) ++ s ++ 0%N :: z))) ((done ++ m) ++ [c; 91%N]) z) as (a' & E & Q & L); [rewrite !app_length; lia|].
      rewrite E. cbn [bind]. rewrite Q.
      assert (Da : exists m', a' = done ++ m').
      { assert (P : firstn (length done) (a' ++ tail s ++ 0%N :: z) = done) by (rewrite <- Q, <- !app_assoc, firstn_app, Nat.sub_diag, firstn_all; cbn [firstn]; apply app_nil_r).
        assert (L2 : length done <= length a') by (rewrite !app_length in L; lia). rewrite firstn_app in P. replace (length done - length a') with 0 in P by lia. cbn [firstn] in P. rewrite app_nil_r in P.
        exists (skipn (length done) a'). rewrite <- P at 1. now rewrite firstn_skipn. }
      destruct Da as [m' ->]. rewrite <- (app_assoc done m'). pose proof (tail_length s). apply IH; [lia|now apply tail_clear|lia].
    + unfold wr. destruct (Nat.ltb_spec (length done) (length ((done ++ m) ++ c :: s ++ 0%N :: z))); [|rewrite !app_length in *; cbn [length] in *; lia].
      rewrite <- app_assoc. cbn [bind].
      destruct m as [|d m].
      * cbn [app]. rewrite app_nil_r. rewrite upd_app_r, Nat.sub_diag by lia. cbn [upd].
        destruct (IH s) with (fuel := fuel) (done := done ++ [c]) (m := [] : bytes) (z := z) as (rest & E); [lia|exact C|lia|].
        cbn [app] in E. rewrite app_nil_r in E. exists rest. rewrite <- !app_assoc in E. cbn [app] in E. rewrite app_length in E. cbn [length] in E. rewrite Nat.add_1_r in E. exact E.
      * cbn [app]. rewrite upd_app_r, Nat.sub_diag by lia. cbn [upd].
        destruct (IH s) with (fuel := fuel) (done := done ++ [c]) (m := m ++ [c]) (z := z) as (rest & E); [lia|exact C|lia|].
        exists rest. rewrite <- !app_assoc in E. cbn [app] in E. rewrite !app_length in E. cbn [length] in E. rewrite app_length.
        replace (length done + 1) with (S (length done)) in E by lia. cbn [length]. rewrite app_length in E. cbn [length] in E.
        replace (length done + S (length m + 1)) with (S (length done + S (length m))) in E by lia. exact E.
Qed.
Lemma bare_clear s : forall i, clear s -> clear (bare i s).
Proof.
  induction s as [|c s IH]; intros i C; [exact C|]. apply clear_cons in C as [N C]. cbn [bare]. destruct i; [auto|]. destruct ((c =? 27)%N && bracket s); [auto|].
  intros [E|E]; [now apply N|]. now apply (IH false C).
Qed.
Lemma cstring_ok s rest : clear s -> cstring (s ++ 0%N :: rest) = Ok s.
Proof. induction s as [|c s IH]; intros C; [reflexivity|]. apply clear_cons in C as [N C]. apply N.eqb_neq in N. cbn [app cstring]. rewrite N, (IH C). reflexivity. Qed.
Lemma print_ok k text : tty k = false -> clear text -> memory k = true \/ length text < 4096 ->
  print k text = Ok (firstn (room k) (bare false text), Z.of_nat (length (bare false text))).
Proof.
  intros T C M. unfold print. rewrite T. assert (E : (4096 <=? length text) && negb (memory k) = false).
  { destruct M as [->|M]; [apply andb_false_r|]. apply Nat.leb_gt in M. now rewrite M. }
  rewrite E. cbv zeta. set (z := if 4096 <=? length text then [] else junk k). 
  destruct (strip_ok (length text) text) with (fuel := S (length (text ++ 0%N :: z))) (done := [] : bytes) (m := [] : bytes) (z := z) as (rest & S1); [lia|exact C|rewrite app_length; lia|].
  cbn [app length] in S1. rewrite S1. cbn [bind]. rewrite cstring_ok by now apply bare_clear. reflexivity.
Qed.
(** ** Pieces *)
Lemma bare_words s p : ~ In 27%N s -> bare false (s ++ p) = s ++ bare false p.
Proof.
  induction s as [|c s IH]; intros H; [reflexivity|]. cbn [app bare]. destruct (N.eqb_spec c 27) as [->|N]; [destruct H; now left|]. cbn [andb]. rewrite IH; [reflexivity|]. intros I. apply H. now right.
Qed.
Lemma bare_in w p : ~ In 109%N w -> bare true (w ++ 109%N :: p) = bare false p.
Proof. induction w as [|c w IH]; intros H; [reflexivity|]. cbn [app bare]. destruct (N.eqb_spec c 109) as [->|N]; [destruct H; now left|]. cbn [negb]. apply IH. intros I. apply H. now right. Qed.
Lemma bare_out w : ~ In 109%N w -> bare true w = [].
Proof. induction w as [|c w IH]; intros H; [reflexivity|]. cbn [bare]. destruct (N.eqb_spec c 109) as [->|N]; [destruct H; now left|]. cbn [negb]. apply IH. intros I. apply H. now right. Qed.
Lemma bare_pieces l : Forall proper l -> bare false (coloured_text l) = words l.
Proof.
  induction 1 as [|p l P _ IH]; [reflexivity|]. unfold coloured_text, words. cbn [flat_map]. fold (coloured_text l) (words l). destruct p as [s|w]; destruct P as [P _].
  - rewrite bare_words by exact P. now rewrite IH.
  - unfold sequence. cbn [app bare]. change ((27 =? 27)%N && bracket (91%N :: (w ++ [109%N]) ++ coloured_text l)) with true. cbv iota. rewrite <- app_assoc. cbn [bare app]. change (negb (91 =? 109)%N) with true. now rewrite bare_in.
Qed.
Lemma clear_pieces l : Forall proper l -> clear (coloured_text l).
Proof.
  unfold clear. induction 1 as [|p l P _ IH]; [intros []|]. unfold coloured_text. cbn [flat_map]. fold (coloured_text l). rewrite in_app_iff. intros [I|I]; [|auto].
  destruct p as [s|w]; destruct P as [_ P]; [auto|]. unfold sequence in I. rewrite !in_app_iff in I. cbn [In] in I. destruct I as [[I|[I|[]]]|[I|[I|[]]]]; try discriminate. auto.
Qed.
