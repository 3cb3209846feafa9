(** C103: the regex plugin. *)
From Verif Require Import Common Rx_Model Rx_Spec Rx_Proofs.
Local Open Scope Z_scope.

(** Whatever the pattern, the function made for it ends on every text and stays within it, if
    it is C at all. *)
Theorem C103_safe : forall body t, ~ In 0%N body -> ~ In 0%N t ->
  run body t = Panic \/ run body t = Ok true \/ run body t = Ok false.
Proof.
  intros body t B T. unfold run. destruct (forallb c_stmt _); auto. right.
  destruct (exec_ok (regex_transpile body)) with (t := t) as [b ->]; auto.
  - unfold regex_transpile. apply emit_nz. intros X. now apply trim_in in X.
  - destruct b; auto.
Qed.
Print Assumptions C103_safe.

(** A text that is accepted matches. *)
Theorem C103_sound : forall p src t, Forall ok_item (items p) -> laid_out src (show p) -> c_text t ->
  run src t = Ok true -> Matches p t.
Proof.
  intros p src t F L T E. unfold run in E. rewrite (emit_show src p F L), (code_c p F) in E.
  apply exec_sound in E; auto. destruct E as (w & b & -> & W & B). exists [], w, b. splits; auto.
Qed.
Print Assumptions C103_sound.

(** For an anchored pattern in which every repetition can take all it can get, the function
    accepts exactly the texts that match. *)
Theorem C103_exact_partial : forall p src t, Forall ok_item (items p) -> laid_out src (show p) -> c_text t ->
  from_start p = true -> greedy p ->
  (run src t = Ok true <-> Matches p t) /\ (run src t = Ok false <-> ~ Matches p t).
Proof.
  intros p src t F L T S0 G.
  assert (A : run src t = Ok true <-> Matches p t).
  { split; [now apply C103_sound|]. intros M0. unfold run. rewrite (emit_show src p F L), (code_c p F).
    apply exec_complete; auto.
    - intros a s r Q c u C A. apply acc_matches. apply (G a s r Q c u C). now apply acc_matches.
    - destruct M0 as (a & w & b & -> & W & A & B). rewrite (A S0). exists w, b. auto. }
  split; auto. rewrite <- A. unfold run. rewrite (emit_show src p F L), (code_c p F).
  destruct (exec_ok (code p)) with (t := t) as [b ->]; [| |destruct b; split; congruence].
  - unfold code. intros X. apply in_app_or in X. destruct X as [X|X].
    + apply in_map_iff in X. destruct X as (i & X & Q). rewrite Forall_forall in F. specialize (F i Q). destruct i; try discriminate.
      injection X as ->. destruct F as (F & _). lia.
    + destruct (to_end p); [destruct X as [X|[]]; discriminate|contradiction].
  - destruct T; auto.
Qed.
Print Assumptions C103_exact_partial.

(** ^[a-z]+ [0-9]*$ meets the hypotheses. *)
Definition letters := Set' false [Rg 97 122]%N.
Definition digits := Set' false [Rg 48 57]%N.
Definition name_pat := Pat true [Some' letters; Many digits] true.
Example C103_exact_ex : Forall ok_item (items name_pat) /\ laid_out (bs " ^[a-z]+ [0-9]*$ ") (show name_pat) /\ greedy name_pat /\
  run (bs " ^[a-z]+ [0-9]*$ ") (bs "ab12") = Ok true /\ run (bs " ^[a-z]+ [0-9]*$ ") (bs "12") = Ok false.
Proof.
  assert (OK : forall c, (48 <= c <= 57 \/ 97 <= c <= 122)%N -> plain_in_set c).
  { intros c H. unfold plain_in_set, blank. splits; try lia. intros X.
    change (In c [94; 93; 45; 39; 92]%N) in X. cbn in X. lia. }
  splits; try reflexivity.
  - repeat constructor; try (apply OK; lia).
  - intros a s l Q c t C M0. cbn [items name_pat to_end] in *.
    apply acc_matches in M0. apply acc_matches. destruct M0 as (w & b & E & W & B). rewrite (B eq_refl) in E. rewrite app_nil_r in E. subst w.
    destruct a as [|i1 a].
    + destruct Q as [Q|Q]; [discriminate|]. injection Q as <- <-. apply many_inv in W. destruct W as (a & r & E & A & W). inversion W; subst r. rewrite app_nil_r in E. subst a.
      inversion_clear A as [|? ? A1 A2]. exfalso. unfold in_set in C, A1. cbn in C, A1. inversion_clear C as [? ? C1|? ? C1]; [|inversion C1].
      inversion_clear A1 as [? ? C2|? ? C2]; [|inversion C2]. cbn in *. lia.
    + destruct a as [|i2 a].
      * destruct Q as [Q|Q]; [|discriminate]. injection Q as <- <- <-. inversion W.
      * destruct Q as [Q|Q]; destruct a; discriminate.
Qed.

(** False without the anchor: a pattern is only tried at the start of the text. *)
Theorem C103_search_refuted :
  (forall l e t, Forall ok_item l -> run (show (Pat false l e)) t = run (show (Pat true l e)) t) /\
  Matches (Pat false [Lit 98%N] false) (bs "ab") /\ run (bs "b") (bs "ab") = Ok false.
Proof.
  splits; try reflexivity.
  - intros l e t F. unfold run.
    assert (NB : forall p, Forall ok_item (items p) -> laid_out (show p) (show p)).
    { clear. intros p F. unfold laid_out. change (sq (show p) = show p).
      assert (AP : forall a b, sq (a ++ b) = sq a ++ sq b) by (intros; apply filter_app).
      assert (EL : forall e, ok_elem e -> sq (show_elem e) = show_elem e).
      { intros [c|a b] E; cbn in E.
        - destruct E as (_ & B & _). apply plain_sp in B. unfold sq. cbn. now rewrite B.
        - destruct E as ((_ & B & _) & (_ & B2 & _)). apply plain_sp in B, B2. unfold sq. cbn. now rewrite B, B2. }
      assert (ES : forall s, Forall ok_elem (elems s) -> sq (show_set s) = show_set s).
      { intros s G. unfold show_set. rewrite !AP. f_equal. f_equal; [destruct (excluded s); reflexivity|]. f_equal.
        induction G as [|e es E G IH]; auto. cbn [flat_map]. now rewrite AP, EL, IH. }
      unfold show. rewrite !AP. f_equal; [destruct (from_start p); reflexivity|]. f_equal; [|destruct (to_end p); reflexivity].
      induction F as [|i l I F IH]; auto. cbn [flat_map]. rewrite AP, IH. f_equal. destruct i as [c| |s|s|s]; cbn [show_item ok_item] in I |- *; [| |now apply ES| |]; [|reflexivity| |].
      - destruct I as (_ & B & _). apply plain_sp in B. unfold sq. cbn [filter]. now rewrite B.
      - rewrite AP, ES; auto.
      - rewrite AP, ES; auto. }
    rewrite (emit_show _ (Pat false l e)), (emit_show _ (Pat true l e)); auto; apply NB; auto.
  - exists [97%N], [98%N], []. splits; auto; try discriminate. repeat constructor.
Qed.
Print Assumptions C103_search_refuted.

(** False of a repetition followed by one of its own characters: the loop takes them all and
    nothing is given back, so no text is accepted. *)
Theorem C103_greedy_refuted : forall s c e src t, Forall ok_elem (elems s) -> plain c -> in_set s c ->
  laid_out src (show (Pat true [Many s; Lit c] e)) -> c_text t ->
  run src t = Ok false /\ Matches (Pat true [Many s; Lit c] e) [c].
Proof.
  intros s c e src t F P C L T.
  assert (OK : Forall ok_item (items (Pat true [Many s; Lit c] e))) by (repeat constructor; auto; apply P). split.
  - unfold run. rewrite (emit_show src _ OK L), (code_c _ OK). unfold code. cbn [map items app conv to_end]. unfold conv_set. cbn [exec].
    destruct (eat_spec s t F T false) as (w & r & -> & W & R & ->). destruct P as (P & _). destruct r as [|x r]; cbn [deref hd adv bind].
    + destruct (N.eqb_spec 0 c); [lia|reflexivity].
    + destruct (N.eqb_spec x c) as [->|]; auto. exfalso. now apply (R c r).
  - exists [], [c], []. splits; auto. apply W_stop. repeat constructor.
Qed.
Print Assumptions C103_greedy_refuted.
Example C103_greedy_ex : run (bs "^[a-z]*z$") (bs "abz") = Ok false /\ laid_out (bs "^[a-z]*z$") (show (Pat true [Many letters; Lit 122%N] true)).
Proof. split; reflexivity. Qed.

(** False of a repetition after anything but a set: the sign is a character of the text. *)
Theorem C103_repeat_refuted : forall c q t, plain c -> q = 42%N \/ q = 43%N ->
  (run [c; q] t = Ok true <-> exists r, t = c :: q :: r) /\
  (run [46%N; q] t = Ok true <-> exists x r, t = x :: q :: r /\ x <> 0%N).
Proof.
  intros c q t (P & B & K) Q.
  assert (NK : c <> 94%N /\ c <> 36%N /\ c <> 91%N /\ c <> 46%N) by (splits; intros ->; apply K; vm_compute; tauto).
  destruct NK as (N1 & N2 & N3 & N4). apply N.eqb_neq in N1, N2, N3, N4.
  assert (SQ : space q = false /\ (q =? 94)%N = false /\ (q =? 36)%N = false /\ (q =? 91)%N = false /\ (q =? 46)%N = false /\ quotable q = true /\ q <> 0%N)
    by (destruct Q as [-> | ->]; splits; auto; discriminate). destruct SQ as (S1 & S2 & S3 & S4 & S5 & S6 & S7).
  assert (E1 : regex_transpile [c; q] = [RLit c; RLit q]).
  { rewrite (transpile_sq _ 2); [|apply sq_len]. rewrite !sq_cons by (auto; now apply plain_sp). change (sq []) with (@nil N).
    rewrite emit_eq, (plain_sp _ B), N1, N2, N3, N4, emit_eq, S1, S2, S3, S4, S5. reflexivity. }
  assert (E2 : regex_transpile [46%N; q] = [RAny; RLit q]).
  { rewrite (transpile_sq _ 2); [|apply sq_len]. rewrite !sq_cons by auto. change (sq []) with (@nil N).
    rewrite emit_dot, emit_eq, S1, S2, S3, S4, S5. reflexivity. }
  assert (QC : quotable c = true) by (apply quotable_spec; intros X; apply K; vm_compute in X |- *; tauto).
  unfold run. rewrite E1, E2. cbn [forallb c_stmt]. rewrite QC, S6. cbn [andb].
  assert (LIT : forall x l (u : bytes), x <> 0%N -> exec (RLit x :: l) u = Ok true <-> exists r, u = x :: r /\ exec l r = Ok true).
  { intros x l u X. cbn [exec]. destruct u as [|y u]; cbn [deref hd adv bind].
    - destruct (N.eqb_spec 0 x); [congruence|]. split; [discriminate|]. intros (r & D & _). discriminate.
    - destruct (N.eqb_spec y x) as [->|D]; [split; [eauto|intros (r & Y & Z0); now injection Y as ->]|].
      split; [discriminate|]. intros (r & Y & _). injection Y as -> ->. congruence. }
  split.
  - rewrite LIT by lia. split.
    + intros (r & -> & H). rewrite LIT in H by auto. destruct H as (r' & -> & _). eauto.
    + intros (r & ->). eexists. split; [reflexivity|]. rewrite LIT by auto. eauto.
  - cbn [exec]. destruct t as [|x t]; cbn [deref hd adv bind].
    + split; [discriminate|]. intros (x & r & D & _). discriminate.
    + change (if (deref t =? q)%N then do c0 <- adv t; Ok true else Ok false) with (exec [RLit q] t). destruct (N.eqb_spec x 0) as [->|D].
      * split; [discriminate|]. intros (x & r & Y & Z0). injection Y as <- _. congruence.
      * rewrite LIT by auto. split; [intros (r & -> & _); eauto|]. intros (x' & r & Y & Z0). injection Y as <- ->. eauto.
Qed.
Print Assumptions C103_repeat_refuted.
Example C103_repeat_ex : plain 97%N /\ run (bs "a+") (bs "aaa") = Ok false /\ run (bs "a+") (bs "a+") = Ok true.
Proof.
  splits; try reflexivity. unfold plain, blank. splits; [lia|lia|lia|]. change (~ In 97%N [94; 36; 91; 46; 42; 43; 39; 92]%N). cbn. lia.
Qed.

(** False of a set that is not closed: the rest of the pattern is dropped without a word, and
    a pattern that starts with it accepts every text. *)
Theorem C103_open_refuted : forall w t, ~ In 93%N w -> run (91%N :: w) t = Ok true.
Proof.
  intros w t H. unfold run. rewrite (transpile_sq _ (S (length w))); [|rewrite sq_cons by reflexivity; cbn [length]; pose proof (sq_len w); lia].
  rewrite sq_cons by reflexivity. rewrite emit_eq. change (space 91) with false. change (91 =? 94)%N with false. change (91 =? 36)%N with false. rewrite N.eqb_refl. cbv iota.
  pose proof (scan_sq w) as K. destruct (scan_class w) as [[a b]|] eqn:E.
  - exfalso. apply scan_parts in E. apply H. rewrite E. apply in_or_app. right. now left.
  - rewrite K. reflexivity.
Qed.
Print Assumptions C103_open_refuted.
Example C103_open_ex : run (bs "[a-z") (bs "12") = Ok true. Proof. reflexivity. Qed.

(** False of a pattern with a quote or a backslash: the C text it becomes does not compile. *)
Theorem C103_quote_refuted : forall a c b t, Forall plain a -> Forall plain b -> c = 39%N \/ c = 92%N ->
  run (a ++ c :: b) t = Panic.
Proof.
  intros a c b t A B C0.
  assert (EM : forall l n, Forall (fun x => space x = false /\ (x =? 94)%N = false /\ (x =? 36)%N = false /\ (x =? 91)%N = false /\ (x =? 46)%N = false) l ->
    (length l <= n)%nat -> emit n l = map RLit l /\ sq l = l).
  { induction l as [|x l IH]; intros n F L; [destruct n; auto|]. apply Forall_cons_iff in F. destruct F as [(S1 & S2 & S3 & S4 & S5) F']. destruct n as [|n]; [cbn in L; lia|].
    cbn [length] in L. destruct (IH n F' ltac:(lia)) as [E1 E2]. rewrite emit_eq, S1, S2, S3, S4, S5, E1. rewrite sq_cons, E2 by auto. auto. }
  assert (PL : forall x, plain x -> space x = false /\ (x =? 94)%N = false /\ (x =? 36)%N = false /\ (x =? 91)%N = false /\ (x =? 46)%N = false).
  { intros x (P & Bx & K). splits; [now apply plain_sp| | | |]; apply N.eqb_neq; intros ->; apply K; vm_compute; tauto. }
  assert (ALL : Forall (fun x => space x = false /\ (x =? 94)%N = false /\ (x =? 36)%N = false /\ (x =? 91)%N = false /\ (x =? 46)%N = false) (a ++ c :: b)).
  { apply Forall_app. split; [eapply Forall_impl; [|exact A]; auto|]. constructor; [|eapply Forall_impl; [|exact B]; auto].
    destruct C0 as [-> | ->]; splits; reflexivity. }
  destruct (EM _ _ ALL (le_n _)) as [E1 E2]. unfold run. rewrite (transpile_sq _ (length (a ++ c :: b))) by apply sq_len. rewrite E2, E1.
  destruct (forallb c_stmt (map RLit (a ++ c :: b))) eqn:G; auto. exfalso. rewrite forallb_forall in G.
  specialize (G (RLit c)). destruct C0 as [-> | ->]; (assert (X : false = true); [|discriminate]); apply G; apply in_map, in_or_app; right; now left.
Qed.
Print Assumptions C103_quote_refuted.
Example C103_quote_ex : Forall plain (bs "it") /\ run (bs "it's") (bs "it's") = Panic.
Proof.
  split; [|reflexivity]. change (bs "it") with [105; 116]%N.
  repeat (constructor; [unfold plain, blank; splits; try lia|]); [| |constructor]; match goal with |- ~ In ?c _ => change (~ In c [94; 36; 91; 46; 42; 43; 39; 92]%N); cbn; lia end.
Qed.
