(** Lemmas for C111. *)
From Verif Require Import Common Asm_Model Asm_Spec.
Local Open Scope nat_scope.

Lemma c_string_quote t : c_string Between (quote t) = Ok (t ++ [10%N]).
Proof.
  unfold quote. change (c_string Between ([34%N] ++ flat_map escape t ++ bs "\n" ++ [34%N])) with (c_string Within (flat_map escape t ++ bs "\n" ++ [34%N])).
  induction t as [|c t IH]; [reflexivity|]. cbn [flat_map]. rewrite <- app_assoc. unfold escape at 1.
  destruct (N.eqb_spec c 10) as [->|N1].
  - change ((do r <- c_string Within (flat_map escape t ++ bs "\n" ++ [34%N]); Ok (10%N :: r)) = Ok ((10%N :: t) ++ [10%N])). rewrite IH. reflexivity.
  - destruct (N.eqb_spec c 34) as [->|N2].
    + change ((do r <- c_string Within (flat_map escape t ++ bs "\n" ++ [34%N]); Ok (34%N :: r)) = Ok ((34%N :: t) ++ [10%N])). rewrite IH. reflexivity.
    + destruct (N.eqb_spec c 92) as [->|N3].
      * change ((do r <- c_string Within (flat_map escape t ++ bs "\n" ++ [34%N]); Ok (92%N :: r)) = Ok ((92%N :: t) ++ [10%N])). rewrite IH. reflexivity.
      * cbn [app c_string]. apply N.eqb_neq in N1, N2, N3. rewrite N2, N3, N1. change ([92%N; 110%N; 34%N]) with (bs "\n" ++ [34%N]) in *. rewrite IH. reflexivity.
Qed.

Definition dbl (s : bytes) : bytes := flat_map (fun c => if (c =? 37)%N then [c; c] else [c]) s.
Lemma transform_skip ext outs ins a : forall l, transform ext outs ins (length a) (a ++ l) = transform ext outs ins 0 l.
Proof. induction a as [|c a IH]; intros l; [reflexivity|]. cbn [length app transform]. apply IH. Qed.
Lemma to_brace_app v l : ~ In 125%N v -> to_brace (v ++ 125%N :: l) = Some v.
Proof.
  induction v as [|c v IH]; intros N; cbn [app to_brace]; [reflexivity|]. destruct (N.eqb_spec c 125) as [->|D]; [exfalso; apply N; now left|].
  rewrite IH; [reflexivity|]. intros I. apply N. now right.
Qed.
Lemma transform_lit outs ins s : forall l, forallb (fun c => negb (dialect c)) s = true ->
  transform true outs ins 0 (s ++ l) = do r <- transform true outs ins 0 l; Ok (dbl s ++ r).
Proof.
  induction s as [|c s IH]; intros l H. - cbn [app dbl flat_map]. destruct (transform true outs ins 0 l); reflexivity.
  - cbn [forallb] in H. apply andb_prop in H as (H1 & H2). cbn [app transform]. unfold dialect in H1. destruct (c =? 123)%N; [discriminate|].
    rewrite IH by exact H2. destruct (transform true outs ins 0 l) as [r| | |]; cbn [bind]; try reflexivity. unfold dbl. cbn [flat_map]. rewrite andb_true_r. destruct (c =? 37)%N; reflexivity.
Qed.
Lemma transform_hole ext outs ins v l : length v < 64 -> ~ In 125%N v ->
  transform ext outs ins 0 ((bs "{" ++ v ++ bs "}") ++ l) =
  do r <- transform ext outs ins 0 l; Ok ((match find_operand outs ins v with Some i => 37%N :: show i | None => bs "{" ++ v ++ bs "}" end) ++ r).
Proof.
  intros L N. change ((bs "{" ++ v ++ bs "}") ++ l) with (123%N :: (v ++ bs "}") ++ l). rewrite <- app_assoc. change (bs "}" ++ l) with (125%N :: l).
  cbn [transform]. change ((123 =? 123)%N) with true. cbn iota. rewrite to_brace_app by exact N. destruct (Nat.leb_spec 64 (length v)); [lia|].
  replace (transform ext outs ins (S (length v)) (v ++ 125%N :: l)) with (transform ext outs ins 0 l); [reflexivity|].
  replace (S (length v)) with (length (v ++ [125%N])) by (rewrite app_length; cbn; lia). change (125%N :: l) with ([125%N] ++ l). rewrite app_assoc. now rewrite transform_skip.
Qed.
Lemma index_of_app v a b : index_of v (a ++ b) = match index_of v a with Some i => Some i | None => match index_of v b with Some i => Some (length a + i) | None => None end end.
Proof.
  induction a as [|x a IH]; cbn [app index_of length]; [destruct (index_of v b); reflexivity|]. destruct (beq_bytes x v); [reflexivity|]. rewrite IH.
  destruct (index_of v a); [reflexivity|]. destruct (index_of v b); reflexivity.
Qed.
Lemma find_operand_index outs ins v : find_operand outs ins v = index_of v (outs ++ ins).
Proof. unfold find_operand. now rewrite index_of_app. Qed.
Lemma index_of_nth v l i : index_of v l = Some i -> nth_error l i = Some v.
Proof.
  revert i. induction l as [|x l IH]; intros i H; cbn [index_of] in H; [discriminate|]. destruct (beq_bytes x v) eqn:E.
  - injection H as <-. apply beq_bytes_true in E. now subst.
  - destruct (index_of v l); [|discriminate]. injection H as <-. cbn [nth_error]. auto.
Qed.
Lemma index_of_in v l : In v l -> exists i, index_of v l = Some i.
Proof.
  induction l as [|x l IH]; [contradiction|]. intros I. cbn [index_of]. destruct (beq_bytes x v) eqn:E; [eauto|]. destruct I as [->|I]; [rewrite beq_bytes_refl in E; discriminate|].
  destruct (IH I) as (i & ->). eauto.
Qed.

Definition tr (names : list bytes) (p : part) : bytes :=
  match p with Lit s => dbl s | Hole v => match index_of v names with Some i => 37%N :: show i | None => [] end end.
Lemma transform_source outs ins l : good (outs ++ ins) l -> transform true outs ins 0 (source l) = Ok (flat_map (tr (outs ++ ins)) l).
Proof.
  induction l as [|p l IH]; intros G; [reflexivity|]. unfold source. cbn [flat_map]. fold (source l). destruct p as [s|v]; cbn [good] in G.
  - destruct G as (D & G). rewrite transform_lit by exact D. rewrite IH by exact G. reflexivity.
  - destruct G as (I & L & N & _ & G). rewrite transform_hole by auto. rewrite IH by exact G. cbn [bind tr]. rewrite find_operand_index. destruct (index_of_in _ _ I) as (i & ->). reflexivity.
Qed.

Lemma expand_lit n s : forall t, forallb (fun c => negb (dialect c)) s = true -> expand n Plain (dbl s ++ t) = do r <- expand n Plain t; Ok (map Ch s ++ r).
Proof.
  induction s as [|c s IH]; intros t H. - cbn [dbl flat_map app map]. destruct (expand n Plain t); reflexivity.
  - cbn [forallb] in H. apply andb_prop in H as (H1 & H2). unfold dbl. cbn [flat_map]. fold (dbl s). rewrite <- app_assoc.
    destruct (N.eqb_spec c 37) as [->|D].
    + change ([37%N; 37%N] ++ dbl s ++ t) with (37%N :: 37%N :: (dbl s ++ t)).
      change (expand n Plain (37%N :: 37%N :: (dbl s ++ t))) with (do r <- expand n Plain (dbl s ++ t); Ok (Ch 37 :: r)). rewrite IH by exact H2. destruct (expand n Plain t); reflexivity.
    + change ([c] ++ dbl s ++ t) with (c :: (dbl s ++ t)). cbn [expand]. apply N.eqb_neq in D. rewrite D. destruct (dialect c); [discriminate|]. rewrite IH by exact H2. destruct (expand n Plain t); reflexivity.
Qed.
Lemma digit_of d : d < 10 -> digit (48 + N.of_nat d) = Some d.
Proof. intros L. unfold digit. replace ((48 <=? 48 + N.of_nat d)%N && (48 + N.of_nat d <=? 57)%N) with true by (symmetry; apply andb_true_intro; split; apply N.leb_le; lia). f_equal. lia. Qed.
Lemma expand_num n i t : i < n -> (forall c r, t = c :: r -> digit c = None) -> expand n (Num i) t = do r <- expand n Plain t; Ok (Op i :: r).
Proof.
  intros L H. destruct t as [|c t].
  - cbn [expand]. destruct (Nat.ltb_spec i n); [reflexivity|lia].
  - cbn [expand]. rewrite (H c t eq_refl). destruct (Nat.ltb_spec i n); [reflexivity|lia].
Qed.
Lemma expand_hole n i t : i < n -> i < 100 -> (forall c r, t = c :: r -> digit c = None) ->
  expand n Plain (37%N :: show i ++ t) = do r <- expand n Plain t; Ok (Op i :: r).
Proof.
  intros L B H. change (expand n Plain (37%N :: show i ++ t)) with (expand n Percent (show i ++ t)). unfold show. destruct (Nat.ltb_spec i 10) as [S|S].
  - cbn [app expand]. rewrite (digit_of i) by exact S. now apply expand_num.
  - cbn [app]. assert (i / 10 < 10) by (apply Nat.div_lt_upper_bound; lia). assert (i mod 10 < 10) by (apply Nat.mod_upper_bound; lia).
    cbn [expand]. rewrite (digit_of (i / 10)) by assumption. cbn [expand]. rewrite (digit_of (i mod 10)) by assumption.
    rewrite <- Nat.div_mod by lia. now apply expand_num.
Qed.
Lemma head_tr names l t : good names l -> (forall c r, t = c :: r -> digit c = None) -> (forall c r, source l = c :: r -> digit c = None) ->
  forall c r, flat_map (tr names) l ++ t = c :: r -> digit c = None.
Proof.
  induction l as [|p l IH]; intros G T S c r E; cbn [flat_map app] in E; [eauto|]. destruct p as [s|v]; cbn [good] in G.
  - destruct G as (_ & G). destruct s as [|x s].
    + apply (IH G T) with (r := r); auto.
    + unfold tr, dbl in E. cbn [flat_map] in E. destruct (N.eqb_spec x 37) as [->|D]; cbn [app] in E; injection E as <- _; [reflexivity|]. eapply S. unfold source. cbn [flat_map app]. reflexivity.
  - destruct G as (I & _). unfold tr in E. destruct (index_of_in _ _ I) as (i & X). rewrite X in E. cbn [app] in E. injection E as <- _. reflexivity.
Qed.
Lemma expand_source names l n : good names l -> length names <= n -> n <= 100 -> expand n Plain (flat_map (tr names) l ++ [10%N]) = Ok (flat_map (meant names) l ++ [Ch 10]).
Proof.
  intros G L B. induction l as [|p l IH]; [reflexivity|]. cbn [flat_map]. rewrite <- !app_assoc. destruct p as [s|v]; cbn [good] in G.
  - destruct G as (D & G). cbn [tr meant]. rewrite expand_lit by exact D. rewrite IH by exact G. reflexivity.
  - destruct G as (I & _ & _ & D & G). cbn [tr meant]. destruct (index_of_in _ _ I) as (i & X). rewrite X. cbn [app].
    assert (i < length names). { apply nth_error_Some. rewrite (index_of_nth _ _ _ X). discriminate. }
    rewrite expand_hole; try lia. + rewrite IH by exact G. reflexivity.
    + apply head_tr; auto. intros c r E. injection E as <- _. reflexivity.
Qed.

Lemma forallb_map_true {A B} (f : B -> bool) (g : A -> B) l : (forall a, f (g a) = true) -> forallb f (map g l) = true.
Proof. intros H. induction l; cbn; [reflexivity|]. now rewrite H, IHl. Qed.
Lemma sections_ok outs ins clobs : outs <> [] \/ (ins = [] /\ clobs = []) -> c_sections (sections outs ins clobs) = Ok (map out_operand outs, map In_ ins, map Clob clobs).
Proof.
  intros [N|(-> & ->)].
  - destruct outs as [|o outs]; [congruence|]. set (os := o :: outs) in *. unfold sections. replace (match os with [] => [] | _ :: _ => [map out_operand os] end) with [map out_operand os] by reflexivity.
    replace (match ins with [] => match os with [] => [] | _ :: _ => [map In_ ins] end | _ :: _ => [map In_ ins] end) with [map In_ ins] by (destruct ins; reflexivity).
    unfold c_sections. destruct clobs as [|c cs].
    + cbn [app nth length]. rewrite !forallb_map_true by reflexivity. reflexivity.
    + cbn [app nth length]. rewrite !forallb_map_true by reflexivity. reflexivity.
  - destruct outs as [|o outs]; [reflexivity|]. unfold sections, c_sections. cbn [app nth length]. rewrite !forallb_map_true by reflexivity. reflexivity.
Qed.
