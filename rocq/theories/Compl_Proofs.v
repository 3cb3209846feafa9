From Verif Require Import Common Compl_Model Compl_Spec.
Local Open Scope nat_scope.

Definition counts (l : list node) : nat := fold_right (fun k m => count k + m) 0 l.
Lemma counts_app a b : counts (a ++ b) = counts a + counts b.
Proof. unfold counts. induction a as [|x a IH]; [reflexivity|]. cbn [app fold_right]. rewrite IH. lia. Qed.
Lemma counts_some o : counts (some o) = match o with Some n => count n | None => 0 end.
Proof. destruct o; [apply Nat.add_0_r|reflexivity]. Qed.
Lemma count_kids n : count n = S (counts (kids n)).
Proof. destruct n; cbn [count kids]; rewrite ?counts_app, ?counts_some; reflexivity. Qed.
Lemma counts_length l : length l <= counts l.
Proof. unfold counts. induction l as [|x l IH]; [reflexivity|]. cbn [length fold_right]. rewrite count_kids. lia. Qed.
(** the search reaches everything if it fits *)
Lemma walk_ok fuel : forall q tail, counts q <= fuel -> tail + counts q < 1024 + length q -> forall x, In x (walk fuel q tail) <-> exists n, In n q /\ within n x.
Proof.
  induction fuel as [|fuel IH]; intros q tail F T x; cbn [walk].
  - destruct q as [|n q]; [split; [intros []|intros (n & [] & _)]|]. unfold counts in F. cbn [fold_right] in F. rewrite count_kids in F. lia.
  - destruct q as [|n q]; [split; [intros []|intros (n & [] & _)]|]. unfold counts in F, T. cbn [fold_right length] in F, T. fold (counts q) in F, T. rewrite count_kids in F, T.
    pose proof (counts_length (kids n)). pose proof (counts_length q). destruct (Nat.leb_spec 1024 tail); [lia|]. cbv zeta. rewrite (firstn_all2 (kids n)) by lia.
    cbn [In]. rewrite IH; [| rewrite counts_app; lia|rewrite counts_app, app_length; lia]. split.
    + intros [<-|(k & I & W)]; [exists n; split; [now left|apply here]|]. apply in_app_iff in I as [I|I]; [exists k; split; [now right|exact W]|].
      exists n. split; [now left|]. eapply deeper; eassumption.
    + intros (k & [<-|I] & W); [|right; exists k; split; [apply in_app_iff; now left|exact W]]. inversion W as [|? k ? Ik Wk]; subst; [now left|]. right. exists k. split; [apply in_app_iff; now right|exact Wk].
Qed.
Lemma visited_ok f x : moderate f -> In x (visited f) <-> exists n, body f = Some n /\ within n x.
Proof.
  unfold moderate, visited. destruct (body f) as [n|]; [|intros _; split; [intros []|intros (n & E & _); discriminate]]. intros M.
  rewrite walk_ok; [|unfold counts; cbn [fold_right]; lia|unfold counts; cbn [fold_right length]; lia].
  split; [intros (k & [<-|[]] & W); eauto|]. intros (k & [= <-] & W). exists n. split; [now left|exact W].
Qed.
(** ** The line *)
Lemma to_line_skip a r k : to_line (a ++ [10%N] ++ r) (S (lines a + k)) = to_line r k.
Proof.
  induction a as [|c a IH]; cbn [app to_line]; [reflexivity|]. unfold lines. cbn [filter]. rewrite (N.eqb_sym c 10). destruct (10 =? c)%N; cbn [length Nat.add]; fold (lines a); exact IH.
Qed.
Lemma to_line_ok above r : (above = [] \/ exists a, above = a ++ [10%N]) -> to_line (above ++ r) (lines above) = r.
Proof.
  intros [->|[a ->]]; [now destruct r|]. replace (lines (a ++ [10%N])) with (S (lines a + 0)); [|unfold lines; rewrite filter_app, app_length; change (length (filter (N.eqb 10) [10%N])) with 1; unfold bytes; lia].
  rewrite <- app_assoc, to_line_skip. now destruct r.
Qed.
Lemma take_while_ok f a r : Forall (fun c => f c = true) a -> (r = [] \/ exists c q, r = c :: q /\ f c = false) -> take_while f (a ++ r) = a.
Proof.
  intros F B. induction F as [|c a H _ IH]; cbn [app take_while]; [|now rewrite H, IH]. destruct B as [->|(c & q & -> & H)]; [reflexivity|]. cbn [take_while]. now rewrite H.
Qed.
Lemma drop_while_ok f a r : Forall (fun c => f c = true) a -> (r = [] \/ exists c q, r = c :: q /\ f c = false) -> drop_while f (a ++ r) = r.
Proof.
  intros F B. induction F as [|c a H _ IH]; cbn [app drop_while]; [|now rewrite H, IH]. destruct B as [->|(c & q & -> & H)]; [reflexivity|]. cbn [drop_while]. now rewrite H.
Qed.
Lemma ident_letter c : ident c = letter c.
Proof.
  destruct (N.ltb_spec c 128) as [L|L].
  - assert (F : forallb (fun n => Bool.eqb (ident (N.of_nat n)) (letter (N.of_nat n))) (seq 0 128) = true) by (vm_compute; reflexivity).
    rewrite forallb_forall in F. specialize (F (N.to_nat c)). rewrite N2Nat.id in F. apply Bool.eqb_prop, F, in_seq. lia.
  - transitivity false.
    + unfold ident. destruct (N.leb_spec c 57); [lia|]. destruct (N.leb_spec c 90); [lia|]. destruct (N.leb_spec c 122); [lia|]. destruct (N.eqb_spec c 95); [lia|]. now rewrite !andb_false_r.
    + symmetry. destruct (letter c) eqn:E; [|reflexivity]. apply existsb_exists in E as (x & I & E). apply N.eqb_eq in E. subst x. assert (F : forallb (fun x => x <? 128)%N (bs "0123456789ABCDEFGHIJKLMNOPQRSTUVWXYZabcdefghijklmnopqrstuvwxyz_") = true) by reflexivity.
      rewrite forallb_forall in F. specialize (F _ I). apply N.ltb_lt in F. lia.
Qed.
Lemma blank_gap c : blank c = gap_byte c.
Proof. unfold blank, gap_byte. cbn [existsb]. now rewrite orb_false_r. Qed.
Lemma letters_b s : Forall (fun c => letter c = true) s -> Forall (fun c => ident c = true) s.
Proof. apply Forall_impl. intros c H. now rewrite ident_letter. Qed.
Lemma ident_blank c : ident c = true -> blank c = false.
Proof. unfold ident, blank. destruct (N.eqb_spec c 32) as [->|]; [discriminate|]. destruct (N.eqb_spec c 9) as [->|]; [discriminate|]. reflexivity. Qed.
Lemma word_ok left name right : dotted left name -> word_at (left ++ right) (length left) = Ok name.
Proof.
  intros (pre & gap & -> & Ne & Id & Bl & P). apply letters_b in Id. assert (Bl' : Forall (fun c => blank c = true) gap) by (eapply Forall_impl; [|exact Bl]; intros c0 H0; now rewrite blank_gap). clear Bl. rename Bl' into Bl.
  assert (P' : pre = [] \/ exists q c, pre = q ++ [c] /\ ident c = false) by (destruct P as [->|(q & c & -> & H0)]; [now left|right; exists q, c; now rewrite ident_letter]). clear P. rename P' into P.
  replace (length (pre ++ name ++ gap ++ [46%N])) with (S (length (pre ++ name ++ gap))) by (rewrite !app_length; cbn [length]; lia). unfold word_at.
  replace (pre ++ name ++ gap ++ [46%N]) with ((pre ++ name ++ gap) ++ [46%N]) by now rewrite <- !app_assoc. rewrite <- !(app_assoc (pre ++ name ++ gap)).
  rewrite nth_error_app2, Nat.sub_diag by lia. cbn [app nth_error]. change (46 =? 46)%N with true. cbv iota. rewrite firstn_app, Nat.sub_diag, firstn_all. cbn [firstn]. rewrite app_nil_r, !rev_app_distr, <- app_assoc.
  rewrite drop_while_ok.
  - rewrite take_while_ok; [now rewrite rev_involutive| |].
    + now apply Forall_rev.
    + destruct P as [->|(q & c & -> & H)]; [now left|]. right. rewrite rev_app_distr. cbn [rev app]. eauto.
  - now apply Forall_rev.
  - right. destruct (rev name) as [|c q] eqn:E; [apply (f_equal (@rev _)) in E; rewrite rev_involutive in E; now destruct Ne|].
    exists c, (q ++ rev pre). split; [reflexivity|]. apply ident_blank. rewrite Forall_forall in Id. apply Id. apply in_rev. rewrite E. now left.
Qed.
Lemma fields_ok l : Forall (fun x => length (snd x) < 250) l -> fields l = Ok (map (fun x => Item (fst x) 5 (Some (bs "field " ++ snd x))) l).
Proof.
  induction 1 as [|[n ty] l H _ IH]; [reflexivity|]. cbn [fields map fst snd] in *. apply Nat.leb_gt in H. rewrite H, IH. reflexivity.
Qed.
(** ** The function *)
Lemma nearest_ok l line : forall best, match best with Some (b, _) => b <= line | None => True end ->
  match nearest l line best with
  | Some (s, f) => s <= line /\ (best = Some (s, f) \/ In (s, f) l) /\ (forall s' f', In (s', f') l -> s' <= line -> s' <= s) /\ (match best with Some (b, _) => b <= s | None => True end)
  | None => best = None /\ forall s' f', In (s', f') l -> line < s'
  end.
Proof.
  induction l as [|[s f] l IH]; intros best Hb; cbn [nearest].
  - destruct best as [[b g]|]; [splits; auto; intros s' f' []|split; [reflexivity|intros s' f' []]].
  - set (best' := if (s <=? line) && _ then Some (s, f) else best). assert (B' : match best' with Some (b, _) => b <= line | None => True end).
    { unfold best'. destruct (Nat.leb_spec s line); cbn [andb]; [|exact Hb]. destruct (match best with None => true | Some (b, _) => b <? s end); [exact H|exact Hb]. }
    specialize (IH best' B'). assert (Q : s <= line -> exists b g, best' = Some (b, g) /\ s <= b).
    { intros L. unfold best'. apply Nat.leb_le in L. rewrite L. cbn [andb]. destruct best as [[b g]|]; [|eauto]. destruct (Nat.ltb_spec b s); eauto. }
    assert (Q2 : best' = best \/ (best' = Some (s, f) /\ match best with Some (b, _) => b <= s | None => True end)).
    { unfold best'. destruct (s <=? line); cbn [andb]; [|now left]. destruct best as [[b g]|]; [|now right]. destruct (Nat.ltb_spec b s); [right; split; [reflexivity|lia]|now left]. }
    destruct (nearest l line best') as [[s1 f1]|].
    + destruct IH as (L & W & M & B). splits; auto.
      * destruct W as [W|W]; [|right; now right]. destruct Q2 as [Q2|[Q2 _]]; [left; congruence|]. right. left. congruence.
      * intros s' f' [[= -> ->]|I] Ls; [|eauto]. destruct (Q Ls) as (b & g & Eb & Lb). rewrite Eb in B. lia.
      * destruct best as [[b g]|]; [|exact I]. destruct Q2 as [Q2|[Q2 Hs]]; rewrite Q2 in B; lia.
    + destruct IH as [E M]. assert (Ls : line < s). { destruct (Nat.leb_spec s line) as [Ls|Ls]; [|exact Ls]. destruct (Q Ls) as (b & g & Eb & _). congruence. }
      split; [destruct Q2 as [Q2|[Q2 _]]; congruence|]. intros s' f' [[= -> ->]|I]; [exact Ls|eauto].
Qed.
