(** Proofs for C68. *)
From Coq Require Import Permutation.
From Verif Require Import Common Cfg_Model Cfg_Spec.

(** * Conditions *)
(** Texts that read as a value at a level, whatever follows that does not continue them *)
Definition lit_toks (l : lit) : list ptok := match l with Has n => [Tdef n] | Not n => [Tbang; Tdef n] end.
Definition atom (c : clause) : list ptok :=
  let fix join op ls := match ls with [] => [] | [l] => lit_toks l | l :: r => lit_toks l ++ op :: join op r end in
  match c with
  | One l => lit_toks l
  | Any ls => Tlp :: join Tor ls ++ [Trp]
  | All ls => Tlp :: join Tand ls ++ [Trp]
  end.
Fixpoint join (op : ptok) (ls : list lit) : list ptok :=
  match ls with [] => [] | [l] => lit_toks l | l :: r => lit_toks l ++ op :: join op r end.
Lemma atom_any ls : atom (Any ls) = Tlp :: join Tor ls ++ [Trp]. Proof. reflexivity. Qed.
Lemma atom_all ls : atom (All ls) = Tlp :: join Tand ls ++ [Trp]. Proof. reflexivity. Qed.
Fixpoint conj (cs : list clause) : list ptok :=
  match cs with [] => [] | [c] => atom c | c :: r => atom c ++ Tand :: conj r end.

Section Env.
Variable env : bytes -> bool.

Lemma peval_S fuel level ts : peval env (S fuel) level ts =
    match level with
    | O =>
      match ts with
      | Tdef n :: r => Some (env n, r)
      | Tbang :: r => match peval env fuel 0 r with Some (v, r') => Some (negb v, r') | None => None end
      | Tlp :: r => match peval env fuel 2 r with Some (v, Trp :: r') => Some (v, r') | _ => None end
      | _ => None
      end
    | S O =>
      match peval env fuel 0 ts with
      | Some (v, Tand :: r) => match peval env fuel 1 r with Some (w, r') => Some (v && w, r') | None => None end
      | x => x
      end
    | _ =>
      match peval env fuel 1 ts with
      | Some (v, Tor :: r) => match peval env fuel 2 r with Some (w, r') => Some (v || w, r') | None => None end
      | x => x
      end
    end.
Proof. reflexivity. Qed.

Lemma lit_ok l r fuel : (2 <= fuel)%nat -> peval env fuel 0 (lit_toks l ++ r) = Some (lit_true env l, r).
Proof. intros L. destruct fuel as [|[|f]]; try lia. destruct l; reflexivity. Qed.
Definition no_op (r : list ptok) : Prop := match r with Tand :: _ => False | Tor :: _ => False | _ => True end.
Definition no_and (r : list ptok) : Prop := match r with Tand :: _ => False | _ => True end.

Lemma level1_stop ts v r fuel : peval env fuel 0 ts = Some (v, r) -> no_and r -> peval env (S fuel) 1 ts = Some (v, r).
Proof. intros E N. rewrite peval_S, E. destruct r as [|[] r]; try reflexivity. contradiction. Qed.
Lemma level2_stop ts v r fuel : peval env fuel 1 ts = Some (v, r) -> no_op r -> peval env (S fuel) 2 ts = Some (v, r).
Proof. intros E N. rewrite peval_S, E. destruct r as [|[] r]; try reflexivity. contradiction. Qed.

Lemma or_ok ls : ls <> [] -> forall r fuel, no_op r -> (length ls + 4 <= fuel)%nat ->
  peval env fuel 2 (join Tor ls ++ r) = Some (existsb (lit_true env) ls, r).
Proof.
  intros N. induction ls as [|l ls IH]; [contradiction|]. intros r fuel Nr L. cbn [length] in L.
  destruct fuel as [|fuel]; [lia|]. destruct ls as [|l' ls].
  - cbn [join existsb]. rewrite orb_false_r. destruct fuel as [|fuel]; [lia|].
    apply level2_stop; [|exact Nr]. apply level1_stop; [apply lit_ok; lia|]. destruct r as [|[] r]; try exact I. exact Nr.
  - change (join Tor (l :: l' :: ls)) with (lit_toks l ++ Tor :: join Tor (l' :: ls)).
    change (existsb (lit_true env) (l :: l' :: ls)) with (lit_true env l || existsb (lit_true env) (l' :: ls)).
    rewrite <- app_assoc, peval_S. destruct fuel as [|fuel]; [lia|].
    rewrite (level1_stop (lit_toks l ++ (Tor :: join Tor (l' :: ls)) ++ r) (lit_true env l) ((Tor :: join Tor (l' :: ls)) ++ r));
      [|apply lit_ok; cbn [length] in L; lia|exact I].
    cbn [app]. rewrite IH; [reflexivity|discriminate|exact Nr|cbn [length] in *; lia].
Qed.
Lemma and_ok ls : ls <> [] -> forall r fuel, no_and r -> (length ls + 3 <= fuel)%nat ->
  peval env fuel 1 (join Tand ls ++ r) = Some (forallb (lit_true env) ls, r).
Proof.
  intros N. induction ls as [|l ls IH]; [contradiction|]. intros r fuel Nr L. cbn [length] in L.
  destruct fuel as [|fuel]; [lia|]. destruct ls as [|l' ls].
  - cbn [join forallb]. rewrite andb_true_r. apply level1_stop; [apply lit_ok; lia|exact Nr].
  - change (join Tand (l :: l' :: ls)) with (lit_toks l ++ Tand :: join Tand (l' :: ls)).
    change (forallb (lit_true env) (l :: l' :: ls)) with (lit_true env l && forallb (lit_true env) (l' :: ls)).
    rewrite <- app_assoc, peval_S. rewrite lit_ok by (cbn [length] in L; lia).
    cbn [app]. rewrite IH; [reflexivity|discriminate|exact Nr|cbn [length] in *; lia].
Qed.

Definition nonempty (c : clause) : Prop := match c with One _ => True | Any ls | All ls => ls <> [] end.
Lemma lit_len l : (1 <= length (lit_toks l) <= 2)%nat. Proof. destruct l; cbn; lia. Qed.
Lemma join_len op ls : (length ls <= length (join op ls))%nat.
Proof.
  induction ls as [|l [|l' ls] IH]; [cbn; lia|cbn; pose proof (lit_len l); lia|].
  change (join op (l :: l' :: ls)) with (lit_toks l ++ op :: join op (l' :: ls)). rewrite app_length. cbn [length] in *.
  pose proof (lit_len l). lia.
Qed.
Lemma atom_ok c r fuel : nonempty c -> (length (atom c) + 5 <= fuel)%nat -> peval env fuel 0 (atom c ++ r) = Some (clause_true env c, r).
Proof.
  intros N L. destruct c as [l|ls|ls].
  - apply lit_ok. lia.
  - rewrite atom_any in *. cbn [length] in L. rewrite app_length in L. pose proof (join_len Tor ls). destruct fuel as [|fuel]; [cbn in L; lia|].
    cbn [app]. rewrite peval_S, <- app_assoc. rewrite or_ok; [reflexivity|exact N|exact I|cbn in L; lia].
  - rewrite atom_all in *. cbn [length] in L. rewrite app_length in L. pose proof (join_len Tand ls). destruct fuel as [|[|fuel]]; [cbn in L; lia|cbn in L; lia|].
    cbn [app]. rewrite peval_S, <- app_assoc. rewrite (level2_stop _ (forallb (lit_true env) ls) ([Trp] ++ r)); [reflexivity| |exact I].
    apply and_ok; [exact N|exact I|cbn in L; lia].
Qed.

Lemma conj_ok cs : cs <> [] -> Forall nonempty cs -> forall r fuel, no_and r -> (length (conj cs) + 6 <= fuel)%nat ->
  peval env fuel 1 (conj cs ++ r) = Some (forallb (clause_true env) cs, r).
Proof.
  intros N F. induction cs as [|c cs IH]; [contradiction|]. intros r fuel Nr L. inversion F; subst.
  destruct fuel as [|fuel]; [lia|]. destruct cs as [|c' cs].
  - cbn [conj forallb] in *. rewrite andb_true_r. apply level1_stop; [apply atom_ok; auto; lia|exact Nr].
  - change (conj (c :: c' :: cs)) with (atom c ++ Tand :: conj (c' :: cs)) in *.
    change (forallb (clause_true env) (c :: c' :: cs)) with (clause_true env c && forallb (clause_true env) (c' :: cs)).
    rewrite app_length in L. cbn [length] in L.
    rewrite <- app_assoc, peval_S. rewrite atom_ok by (auto; lia).
    cbn [app]. rewrite IH; [reflexivity|discriminate|assumption|exact Nr|lia].
Qed.
Lemma atom_len c : (1 <= length (atom c))%nat.
Proof. destruct c as [l|ls|ls]; [pose proof (lit_len l); cbn; lia|cbn; lia|cbn; lia]. Qed.
Lemma conj_len cs : cs <> [] -> (1 <= length (conj cs))%nat.
Proof.
  destruct cs as [|c [|c' cs]]; intros N; [contradiction|apply atom_len|].
  change (conj (c :: c' :: cs)) with (atom c ++ Tand :: conj (c' :: cs)). rewrite app_length. pose proof (atom_len c). lia.
Qed.
Lemma if_conj cs : cs <> [] -> Forall nonempty cs -> if_value env (conj cs) = Some (forallb (clause_true env) cs).
Proof.
  intros N F. unfold if_value. pose proof (conj_len cs N).
  replace (4 * length (conj cs) + 4)%nat with (S (4 * length (conj cs) + 3)) by lia.
  rewrite <- (app_nil_r (conj cs)) at 2.
  rewrite (level2_stop _ (forallb (clause_true env) cs) []); [reflexivity| |exact I].
  apply conj_ok; [exact N|exact F|exact I|lia].
Qed.
End Env.

(** * Parsing *)
Lemma beq_false a b : a <> b -> beq_bytes a b = false.
Proof. intros N. destruct (beq_bytes a b) eqn:E; [apply beq_bytes_true in E; contradiction|reflexivity]. Qed.

Lemma add_join op old l : add_cond op (Some old) (lit_toks l) = Some (old ++ op :: lit_toks l). Proof. reflexivity. Qed.
Definition glue (op : ptok) (cond : option (list ptok)) (ts : list ptok) : list ptok :=
  match cond with None => ts | Some old => old ++ op :: ts end.
Lemma list_ok t op ls : ls <> [] -> only_not ls -> forall cond r fuel, (length ls <= fuel)%nat ->
  list_loop fuel t op cond (show_lits ls ++ ZRp :: r) = Ok (Some (glue op cond (join op ls)), r).
Proof.
  intros N F. induction ls as [|l ls IH]; [contradiction|]. inversion F as [|? ? [n ->] F']; subst. intros cond r fuel L.
  cbn [length] in L. destruct fuel as [|fuel]; [lia|]. destruct ls as [|l' ls].
  - cbn [show_lits show_lit app list_loop join lit_toks].
    change (beq_bytes (bs "not") (bs "not")) with true. cbv iota. destruct cond; reflexivity.
  - change (show_lits (Not n :: l' :: ls)) with (show_lit (Not n) ++ ZComma :: show_lits (l' :: ls)).
    rewrite <- app_assoc. cbn [show_lit app list_loop].
    change (beq_bytes (bs "not") (bs "not")) with true. cbv iota.
    rewrite IH; [|discriminate|exact F'|cbn [length] in *; lia].
    do 2 f_equal. change (join op (Not n :: l' :: ls)) with ([Tbang; Tdef n] ++ op :: join op (l' :: ls)).
    destruct cond; cbn [glue add_cond]; [|reflexivity]. rewrite <- app_assoc. reflexivity.
Qed.

Lemma show_len ls : (length ls <= length (show_lits ls))%nat.
Proof.
  induction ls as [|l [|l' ls] IH]; [cbn; lia|destruct l; cbn; lia|].
  change (show_lits (l :: l' :: ls)) with (show_lit l ++ ZComma :: show_lits (l' :: ls)). rewrite app_length. cbn [length] in *. lia.
Qed.
Lemma attr_ok t cond c r : writable c ->
  cfg_attr t cond (skipn 2 (show_clause c) ++ r) = Ok (Some (glue Tand cond (atom c)), r).
Proof.
  intros W. destruct c as [[n|n]|ls|ls].
  - destruct W as (W1 & W2 & W3). unfold cfg_attr. cbn [show_clause skipn app show_lit].
    rewrite (beq_false _ _ W1), (beq_false _ _ W2), (beq_false _ _ W3). cbn. destruct cond; reflexivity.
  - unfold cfg_attr. cbn [show_clause skipn app show_lit]. change (beq_bytes (bs "not") (bs "not")) with true. cbn.
    destruct cond; reflexivity.
  - destruct W as [N F]. unfold cfg_attr. cbn [show_clause skipn app].
    change (beq_bytes (bs "any") (bs "not")) with false. change (beq_bytes (bs "any") (bs "any")) with true. cbv iota. cbn [orb].
    rewrite <- !app_assoc. cbn [app]. rewrite (list_ok t Tor ls N F); [|rewrite app_length; pose proof (show_len ls); lia].
    cbn [bind]. rewrite atom_any. destruct cond; reflexivity.
  - destruct W as [N F]. unfold cfg_attr. cbn [show_clause skipn app].
    change (beq_bytes (bs "all") (bs "not")) with false. change (beq_bytes (bs "all") (bs "any")) with false.
    change (beq_bytes (bs "all") (bs "all")) with true. cbv iota. cbn [orb].
    rewrite <- !app_assoc. cbn [app]. rewrite (list_ok t Tand ls N F); [|rewrite app_length; pose proof (show_len ls); lia].
    cbn [bind]. rewrite atom_all. destruct cond; reflexivity.
Qed.
Lemma show_head c : show_clause c = ZAt :: ZId (bs "cfg") :: skipn 2 (show_clause c). Proof. reflexivity. Qed.
Lemma attrs_ok cs : Forall writable cs -> forall cond r fuel, starts_item r -> (length cs < fuel)%nat ->
  attrs fuel cond (show_clauses cs ++ r) = Ok (match cs with [] => cond | _ => Some (glue Tand cond (conj cs)) end, r).
Proof.
  induction 1 as [|c cs W F IH]; intros cond r fuel S L; destruct fuel as [|fuel]; cbn [length] in L; try lia.
  - cbn [show_clauses map concat app]. destruct r as [|[] r]; try reflexivity. contradiction.
  - change (show_clauses (c :: cs)) with (show_clause c ++ show_clauses cs). rewrite <- app_assoc, (show_head c).
    cbn [app attrs]. change (beq_bytes (bs "cfg") (bs "cfg")) with true. cbv iota.
    rewrite attr_ok by exact W. cbn [bind]. rewrite IH; [|exact S|lia]. f_equal. f_equal.
    destruct cs as [|c' cs]; [reflexivity|]. f_equal. change (conj (c :: c' :: cs)) with (atom c ++ Tand :: conj (c' :: cs)).
    destruct cond; cbn [glue]; [|reflexivity]. now rewrite <- app_assoc.
Qed.
Lemma writable_nonempty c : writable c -> nonempty c.
Proof. destruct c as [l|ls|ls]; cbn; tauto. Qed.

(** A plain name in a list stops the compiler. *)
Lemma list_panic op ls : Exists (fun l => exists n, l = Has n /\ n <> bs "not") ls -> forall cond r fuel, (length ls <= fuel)%nat ->
  list_loop fuel ZAt op cond (show_lits ls ++ ZRp :: r) = Panic.
Proof.
  induction ls as [|l ls IH]; intros E cond r fuel L; [inversion E|]. cbn [length] in L. destruct fuel as [|fuel]; [lia|].
  assert ((exists n, l = Has n) \/ (exists n, l = Not n)) as [[n ->]|[n ->]] by (destruct l; eauto).
  - destruct (beq_bytes n (bs "not")) eqn:Q.
    + assert (Exists (fun l => exists n, l = Has n /\ n <> bs "not") ls) as E'.
      { inversion E as [? ? (m & M & Nm)|]; subst; [|assumption]. injection M as <-. apply beq_bytes_true in Q. contradiction. }
      assert (exists x y, show_lits (Has n :: ls) ++ ZRp :: r = ZId n :: x :: y /\ (x = ZComma \/ x = ZRp)) as (x & y & -> & X).
      { destruct ls as [|l' ls]; [inversion E'|]. eexists ZComma, _. split; [reflexivity|now left]. }
      cbn [list_loop]. rewrite Q. destruct X as [-> | ->]; reflexivity.
    + assert (exists y, show_lits (Has n :: ls) ++ ZRp :: r = ZId n :: y) as (y & ->).
      { destruct ls as [|l' ls]; eexists; reflexivity. }
      cbn [list_loop]. rewrite Q. reflexivity.
  - assert (Exists (fun l => exists n, l = Has n /\ n <> bs "not") ls) as E'.
    { inversion E as [? ? (m & M & Nm)|]; subst; [discriminate|assumption]. }
    destruct ls as [|l' ls]; [inversion E'|].
    change (show_lits (Not n :: l' :: ls)) with (show_lit (Not n) ++ ZComma :: show_lits (l' :: ls)).
    rewrite <- app_assoc. cbn [show_lit app list_loop].
    change (beq_bytes (bs "not") (bs "not")) with true. cbv iota. apply IH; [exact E'|lia].
Qed.

(** * Emission *)
Lemma filter_rev_ {A} (f : A -> bool) l : filter f (rev l) = rev (filter f l).
Proof.
  induction l as [|x l IH]; [reflexivity|]. cbn [rev filter]. rewrite filter_app, IH. cbn [filter].
  destruct (f x); cbn [rev]; [reflexivity|apply app_nil_r].
Qed.
Section Emit.
Variable env : bytes -> bool.
Definition clean (a o : list line) : Prop := forall rest, cpp env [] (a ++ rest) = option_map (app o) (cpp env [] rest).
Lemma clean_nil : clean [] [].
Proof. intros rest. cbn [app]. destruct (cpp env [] rest); reflexivity. Qed.
Lemma clean_app a o b p : clean a o -> clean b p -> clean (a ++ b) (o ++ p).
Proof.
  intros A B rest. rewrite <- app_assoc, A, B. destruct (cpp env [] rest); cbn; [|reflexivity]. now rewrite app_assoc.
Qed.
Definition fixed (i : item) : item := mkitem (ikind i) (iname i) None.
Definition good_item (i : item) : Prop := match icond i with None => True | Some c => if_value env c <> None end.
Lemma clean_guarded p i : good_item i -> clean (guarded p i) (if keep env i then guarded p (fixed i) else []).
Proof.
  intros G rest. unfold guarded, keep, good_item in *. destruct (icond i) as [c|]; cbn [icond fixed app cpp forallb ikind iname].
  - destruct (if_value env c) as [v|]; [|congruence].
    destruct (cpp env [] rest) as [o|]; destruct v; reflexivity.
  - destruct (cpp env [] rest); reflexivity.
Qed.
Lemma clean_bare p i : icond i = None -> clean (bare p i) (if keep env i then bare p (fixed i) else []).
Proof. intros G rest. unfold bare, keep. rewrite G. cbn [app cpp forallb fixed ikind iname]. destruct (cpp env [] rest); reflexivity. Qed.
Lemma clean_opened p i : icond i = None -> clean (opened p i) (if keep env i then opened p (fixed i) else []).
Proof. intros G rest. unfold opened, keep. rewrite G. cbn [app cpp forallb fixed icond ikind iname]. destruct (cpp env [] rest); reflexivity. Qed.

Lemma clean_map (f : item -> list line) l :
  Forall (fun i => clean (f i) (if keep env i then f (fixed i) else [])) l ->
  clean (concat (map f l)) (concat (map f (selected env l))).
Proof.
  induction 1 as [|i l H F IH]; [apply clean_nil|]. unfold selected in *. cbn [map concat filter].
  destruct (keep env i) eqn:K; cbn [map concat].
  - apply clean_app; assumption.
  - change (concat (map f (map (fun j => mkitem (ikind j) (iname j) None) (filter (keep env) l))))
      with ([] ++ concat (map f (map (fun j => mkitem (ikind j) (iname j) None) (filter (keep env) l)))).
    apply clean_app; assumption.
Qed.
Lemma filter_selected ks l : filter (of_kind ks) (selected env l) = selected env (filter (of_kind ks) l).
Proof.
  unfold selected. induction l as [|i l IH]; [reflexivity|]. cbn [filter]. destruct (of_kind ks i) eqn:O, (keep env i) eqn:K; cbn [filter map].
  - change (of_kind ks (mkitem (ikind i) (iname i) None)) with (of_kind ks i). rewrite O, K. cbn [map]. now rewrite IH.
  - now rewrite K.
  - change (of_kind ks (mkitem (ikind i) (iname i) None)) with (of_kind ks i). now rewrite O.
  - exact IH.
Qed.
Lemma rev_selected l : rev (selected env l) = selected env (rev l).
Proof.
  unfold selected. rewrite <- map_rev. f_equal. induction l as [|i l IH]; [reflexivity|]. cbn [filter rev]. rewrite filter_app. cbn [filter].
  destruct (keep env i); cbn [rev app]; [now rewrite IH|]. now rewrite app_nil_r.
Qed.
Lemma clean_pass ks f l :
  Forall (fun i => of_kind ks i = true -> clean (f i) (if keep env i then f (fixed i) else [])) l ->
  clean (pass_over ks f l) (pass_over ks f (selected env l)).
Proof.
  intros F. unfold pass_over. rewrite filter_selected. apply clean_map. apply Forall_forall. intros i I. apply filter_In in I.
  rewrite Forall_forall in F. apply F; tauto.
Qed.

Lemma merge_distinct l : forall acc, NoDup (map iname (l ++ acc)) -> merge_globals acc l = rev l ++ acc.
Proof.
  induction l as [|i l IH]; intros acc N; [reflexivity|]. cbn [merge_globals app map rev] in *. inversion N as [|? ? H N']; subst.
  destruct (existsb (fun j => beq_bytes (iname j) (iname i)) acc) eqn:E.
  - apply existsb_exists in E. destruct E as (j & J & B). apply beq_bytes_true in B. elim H. rewrite <- B. apply in_map. apply in_or_app. now right.
  - rewrite IH; [now rewrite <- app_assoc|].
    eapply Permutation_NoDup; [|exact N]. change (iname i :: map iname (l ++ acc)) with (map iname (i :: l ++ acc)).
    apply Permutation_map. apply Permutation_middle.
Qed.
Lemma NoDup_selected l : NoDup (map iname l) -> NoDup (map iname (selected env l)).
Proof.
  unfold selected. rewrite map_map. cbn [iname]. induction l as [|i l IH]; intros N; [constructor|]. inversion N as [|? ? H N']; subst. cbn [filter].
  destruct (keep env i); [|now apply IH]. cbn [map]. constructor; [|now apply IH]. intros X. apply H.
  apply in_map_iff in X. destruct X as (j & E & J). apply filter_In in J. rewrite <- E. apply in_map. tauto.
Qed.
End Emit.
