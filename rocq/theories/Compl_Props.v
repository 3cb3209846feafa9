From Verif Require Import Common Compl_Model Compl_Spec Compl_Proofs.
Local Open Scope nat_scope.

Lemma last_ok p line f : last_function p line f -> target p line = Some f.
Proof.
  intros (s & I & L & M). unfold target. pose proof (nearest_ok (index p) line None Logic.I) as H.
  destruct (nearest (index p) line None) as [[s1 f1]|]; [|destruct H as [_ H]; specialize (H s f I); lia]. destruct H as (L1 & [W|W] & Mx & _); [discriminate|].
  specialize (Mx s f I L). destruct (M s1 f1 W L1) as [X|[= -> ->]]; [lia|reflexivity].
Qed.
Lemma none_ok p line : none_above p line -> target p line = None.
Proof.
  intros H. unfold target. pose proof (nearest_ok (index p) line None Logic.I) as N. destruct (nearest (index p) line None) as [[s f]|]; [|reflexivity]. destruct N as (L & [W|W] & _); [discriminate|]. specialize (H s f W). lia.
Qed.
Lemma find_pair {B} (l : list (bytes * B)) n x : NoDup (map fst l) -> In (n, x) l -> find (fun y => beq_bytes (fst y) n) l = Some (n, x).
Proof.
  induction l as [|[k v] l IH]; intros Nd I; [destruct I|]. cbn [map fst] in Nd. inversion Nd as [|? ? Na Nl]; subst. cbn [find fst]. destruct I as [[= -> ->]|I]; [now rewrite beq_bytes_refl|].
  destruct (beq_bytes_spec k n) as [->|_]; [|auto]. destruct Na. now apply (in_map fst) in I.
Qed.
Lemma typed_ok p f name ty : typed f name ty -> type_of p (Some f) name = Some ty.
Proof.
  unfold type_of. intros [[Nd I]|(Np & M & (l & Lo) & Al)]; [now rewrite (find_pair _ _ _ Nd I)|].
  assert (E : find (fun x => beq_bytes (fst x) name) (params f) = None).
  { destruct (find _ (params f)) as [[k v]|] eqn:E; [|reflexivity]. apply find_some in E as [I E]. cbn [fst] in E. apply beq_bytes_true in E. subst. destruct Np. now apply (in_map fst) in I. }
  rewrite E. unfold find_local. assert (E2 : existsb (fun q => beq_bytes (fst q) name) (params f) = false).
  { destruct (existsb _ _) eqn:X; [|reflexivity]. apply existsb_exists in X as ((k & v) & I & X). cbn [fst] in X. apply beq_bytes_true in X. subst. destruct Np. now apply (in_map fst) in I. }
  rewrite E2. destruct (find (declares name) (visited f)) as [n|] eqn:Fi.
  - apply find_some in Fi as [I D]. apply visited_ok in I; [|exact M]. destruct n as [x l' t'| | | | |]; try discriminate. cbn [declares] in D. apply beq_bytes_true in D. subst x. rewrite (Al l' t' I). reflexivity.
  - exfalso. destruct Lo as (n & B & W). assert (I : In (Decl name l (Some ty)) (visited f)) by (apply visited_ok; [exact M|eauto]). pose proof (find_none _ _ Fi _ I) as H. cbn [declares] in H. now rewrite beq_bytes_refl in H.
Qed.
Lemma starts_split q : forall s, starts q s = true -> exists r, s = q ++ r.
Proof. induction q as [|a q IH]; intros s H; [now exists s|]. destruct s as [|b s]; [discriminate|]. cbn [starts] in H. apply andb_true_iff in H as [E H]. apply N.eqb_eq in E. destruct (IH s H) as [r ->]. subst. now exists r. Qed.
Lemma clean_ok ty s : struct_type ty s -> clean ty = s.
Proof.
  intros (stars & St & Id & H). apply letters_b in Id.
  assert (Ta : take_while (fun c => negb (c =? 42)%N) (s ++ stars) = s).
  { apply take_while_ok; [eapply Forall_impl; [|exact Id]; intros c Hc; destruct (N.eqb_spec c 42) as [->|]; [discriminate|reflexivity]|].
    destruct stars as [|c stars]; [now left|]. apply Forall_inv in St. subst c. right. exists 42%N, stars. now split. }
  destruct H as [-> | ->]; unfold clean.
  - destruct (starts (bs "struct ") (s ++ stars)) eqn:E; [|exact Ta]. exfalso. apply starts_split in E as [r E]. assert (I : In 32%N (s ++ stars)) by (rewrite E; apply in_or_app; left; vm_compute; tauto).
    apply in_app_iff in I as [I|I]; [rewrite Forall_forall in Id; now specialize (Id _ I)|rewrite Forall_forall in St; now specialize (St _ I)].
  - change (starts (bs "struct ") (bs "struct " ++ s ++ stars)) with true. cbv iota. change (skipn 7 (bs "struct " ++ s ++ stars)) with (s ++ stars). exact Ta.
Qed.
(** C123: behind a name and a dot exactly the fields of the struct of the name are offered, in their order, with their types *)
Theorem C123_fields_partial : forall p line col above left name f ty s fs,
  cursor (source p) line col above left -> dotted left name -> length name < 256 -> last_function p line f -> typed f name ty -> struct_type ty s -> length s < 256 ->
  NoDup (map fst (structs p)) -> In (s, fs) (structs p) -> Forall (fun x => length (snd x) < 250) fs ->
  completion p line col = Ok (map (fun x => Item (fst x) 5 (Some (bs "field " ++ snd x))) fs).
Proof.
  intros p line col above left name f ty s fs (right & So & Ab & _ & -> & ->) D Ln La Ty St Ls Nd I Fi. unfold completion. cbv zeta. rewrite (last_ok _ _ _ La), So, to_line_ok by exact Ab. rewrite (word_ok _ _ right D). cbn [bind].
  assert (Ne : name <> []) by (destruct D as (? & ? & _ & Ne & _); exact Ne). destruct name as [|c0 name]; [easy|]. set (nm := c0 :: name) in *. destruct (Nat.leb_spec 256 (length nm)); [lia|].
  rewrite (typed_ok p f nm ty Ty). rewrite (clean_ok _ _ St). destruct (Nat.leb_spec 256 (length s)); [lia|]. rewrite (find_pair _ _ _ Nd I). now apply fields_ok.
Qed.
Print Assumptions C123_fields_partial.

(** C123: elsewhere the keywords, the names of the program, the parameters and the variables of the function are offered,
    and nothing else; of the variables those whose line, counted from 1, is below that of the cursor, counted from 0 *)
Definition offered (p : project) (i : item) : Prop :=
  exists x, (In x keywords /\ i = Item x 14 None) \/ (In x (globals p) /\ i = Item x 21 None) \/ (In x (map fst (structs p)) /\ i = Item x 22 None) \/ (In x (functions p) /\ i = Item x 3 None).
Definition offered_in (f : func) (line : nat) (i : item) : Prop :=
  exists x, (In x (map fst (params f)) /\ i = Item x 6 (Some (bs "argument"))) \/ ((exists l ty, local f x l ty /\ l < line) /\ i = Item x 6 None).
Lemma general_none p line i : In i (general p None line) <-> offered p i.
Proof.
  unfold general, offered. rewrite !in_app_iff, !in_map_iff. split.
  - intros [(k & <- & I)|[(k & <- & I)|[(k & <- & I)|[(k & <- & I)|[]]]]]; [exists k; auto|exists k; auto| |exists k; auto 6]. exists (fst k). right. right. left. split; [now apply in_map|reflexivity].
  - intros (x & [(I & ->)|[(I & ->)|[(I & ->)|(I & ->)]]]); [left; eauto|right; left; eauto| |do 3 right; left; eauto]. apply in_map_iff in I as (k & <- & I). right. right. left. eauto.
Qed.
Lemma general_some p f line i : moderate f -> In i (general p (Some f) line) <-> offered p i \/ offered_in f line i.
Proof.
  intros M. rewrite <- (general_none p line). unfold general, offered_in. rewrite !in_app_iff. cbn [In]. split.
  - intros [I|[I|[I|[I|[I|I]]]]]; auto 6.
    + right. apply in_map_iff in I as (k & <- & I). exists (fst k). left. split; [now apply in_map|reflexivity].
    + right. apply in_flat_map in I as (n & I & J). destruct n as [y l ty| | | | |]; cbn [local_item] in J; try (now destruct J). destruct (Nat.ltb_spec l line); [|destruct J]. destruct J as [<-|[]].
      exists y. right. split; [|reflexivity]. exists l, ty. split; [|assumption]. now apply visited_ok in I.
  - intros [I|(x & [(I & ->)|((l & ty & I & L) & ->)])]; [tauto| |].
    + apply in_map_iff in I as (k & <- & I). do 4 right. left. apply in_map_iff. eauto.
    + do 5 right. apply in_flat_map. exists (Decl x l ty). split; [now apply visited_ok|]. cbn [local_item]. apply Nat.ltb_lt in L. rewrite L. now left.
Qed.
Lemma no_dot p line col above left : cursor (source p) line col above left -> (forall l, left <> l ++ [46%N]) -> completion p line col = Ok (general p (target p line) line).
Proof.
  intros (right & So & Ab & _ & -> & ->) D. unfold completion. cbv zeta. rewrite So, to_line_ok by exact Ab.
  assert (W : word_at (left ++ right) (length left) = Ok []); [|now rewrite W].
  destruct left as [|c0 left0] eqn:El using rev_ind; [reflexivity|]. clear IHleft0. unfold word_at. replace (length (left0 ++ [c0])) with (S (length left0)) by (rewrite app_length; cbn [length]; lia).
  rewrite <- !app_assoc, nth_error_app2, Nat.sub_diag by lia. cbn [app nth_error]. destruct (N.eqb_spec c0 46) as [->|]; [|reflexivity]. now destruct (D left0).
Qed.
Theorem C123_names_partial : forall p line col above left, cursor (source p) line col above left -> (forall l, left <> l ++ [46%N]) ->
  (none_above p line -> exists r, completion p line col = Ok r /\ forall i, In i r <-> offered p i) /\
  (forall f, last_function p line f -> moderate f -> exists r, completion p line col = Ok r /\ forall i, In i r <-> offered p i \/ offered_in f line i).
Proof.
  intros p line col above left C D. rewrite (no_dot _ _ _ _ _ C D). split.
  - intros N. rewrite (none_ok _ _ N). eexists. split; [reflexivity|]. intros i. apply general_none.
  - intros f L M. rewrite (last_ok _ _ _ L). eexists. split; [reflexivity|]. intros i. now apply general_some.
Qed.
Print Assumptions C123_names_partial.
(** C123, refuted: a variable declared on the line just above the cursor is not offered *)
Theorem C123_above_refuted : forall p line col above left f x, cursor (source p) line col above left -> (forall l, left <> l ++ [46%N]) -> last_function p line f -> moderate f ->
  (exists ty, local f x line ty) -> (forall l ty, local f x l ty -> l = line) -> (forall i, offered p i -> label i <> x) -> ~ In x (map fst (params f)) ->
  exists r, completion p line col = Ok r /\ forall i, In i r -> label i <> x.
Proof.
  intros p line col above left f x C D L M _ Al No Np. destruct (proj2 (C123_names_partial p line col above left C D) f L M) as (r & E & H). exists r. split; [exact E|]. intros i I Lb.
  apply H in I as [I|(y & [(I & ->)|((l & ty & I & Ll) & ->)])]; [now apply (No i)| |]; cbn [label] in Lb; subst y; [auto|]. specialize (Al l ty I). lia.
Qed.
Print Assumptions C123_above_refuted.

Definition text : bytes := bs "fn f(p: P*) {" ++ [10%N] ++ bs "  let a = 1;" ++ [10%N] ++ bs "  let b = p ." ++ [10%N] ++ bs "}".
Definition the_f : func := Func [(bs "p", bs "struct P*")] (Some (Block [Decl (bs "a") 2 (Some (bs "int")); While (Some (Block [Leaf]))])).
Definition proj : project := Project [(0, the_f); (9, Func [] None)] text [(bs "Q", []); (bs "P", [(bs "x", bs "int"); (bs "y", bs "Q")])] [bs "g"] [bs "f"] (fun _ => None).
Example C123_witness :
  cursor text 2 13 (bs "fn f(p: P*) {" ++ [10%N] ++ bs "  let a = 1;" ++ [10%N]) (bs "  let b = p .") /\ dotted (bs "  let b = p .") (bs "p") /\ last_function proj 2 the_f /\ typed the_f (bs "p") (bs "struct P*") /\ struct_type (bs "struct P*") (bs "P") /\
  moderate the_f /\ local the_f (bs "a") 2 (Some (bs "int")) /\
  completion proj 2 13 = Ok [Item (bs "x") 5 (Some (bs "field int")); Item (bs "y") 5 (Some (bs "field Q"))] /\
  exists r, completion proj 2 2 = Ok r /\ forallb (fun i => negb (beq_bytes (label i) (bs "a"))) r = true.
Proof.
  splits.
  - exists ([10%N] ++ bs "}"). splits; [reflexivity|right; exists (bs "fn f(p: P*) {" ++ [10%N] ++ bs "  let a = 1;"); reflexivity| |reflexivity|reflexivity].
    vm_compute. intros I. repeat (destruct I as [I|I]; [discriminate|]). destruct I.
  - exists (bs "  let b = "), (bs " "). splits; [reflexivity|discriminate|repeat constructor|repeat constructor|]. right. exists (bs "  let b ="), 32%N. now split.
  - exists 0. splits; [now left|lia|]. intros s' f' [[= <- <-]|[[= <- <-]|[]]] L; [now right|lia].
  - left. split; [repeat constructor; intros []|now left].
  - exists (bs "*"). splits; [repeat constructor|repeat constructor|now right].
  - unfold moderate. cbn. lia.
  - eexists. split; [reflexivity|]. eapply deeper; [left; reflexivity|]. apply here.
  - reflexivity.
  - eexists. split; reflexivity.
Qed.

(** C123, refuted: of two variables of one name the outer is taken, wherever the cursor is *)
Theorem C123_shadow_refuted : exists p line col f, last_function p line f /\ body f = Some (Block [Decl (bs "v") 2 (Some (bs "A")); Block [Decl (bs "v") 3 (Some (bs "B")); Leaf]]) /\ line = 3 /\
  structs p = [(bs "A", [(bs "a", bs "int")]); (bs "B", [(bs "b", bs "int")])] /\ completion p line col = Ok [Item (bs "a") 5 (Some (bs "field int"))].
Proof.
  set (f := Func [] (Some (Block [Decl (bs "v") 2 (Some (bs "A")); Block [Decl (bs "v") 3 (Some (bs "B")); Leaf]]))).
  exists (Project [(0, f)] (bs "fn f() {" ++ [10%N] ++ bs "let v: A;" ++ [10%N] ++ bs "{ let v: B;" ++ [10%N] ++ bs "v.") [(bs "A", [(bs "a", bs "int")]); (bs "B", [(bs "b", bs "int")])] [] [] (fun _ => None)), 3, 2, f.
  splits; try reflexivity. exists 0. splits; [now left|lia|]. intros s' f' [[= <- <-]|[]] _. now right.
Qed.
Print Assumptions C123_shadow_refuted.
(** C123, refuted: in a function with 1023 statements or more no variable is offered *)
Theorem C123_many_refuted : forall p line ps l, 1023 <= length l ->
  general p (Some (Func ps (Some (Block l)))) line = general p (Some (Func ps None)) line.
Proof.
  intros p line ps l L. assert (V : visited (Func ps (Some (Block l))) = [Block l]).
  { unfold visited. cbn [body]. assert (W : forall k n, k + 1 = 1023 -> walk (S (S n)) [Block l] 1 = [Block l]); [|exact (W 1022 1022 eq_refl)]. intros k n _. cbn [walk kids app]. change (1024 <=? 1) with false. cbv iota zeta.
    assert (Q : length (firstn (1024 - 1) l) = 1023) by (rewrite firstn_length; lia). rewrite Q. destruct (firstn (1024 - 1) l) as [|x q]; [reflexivity|]. change (1024 <=? 1 + 1023) with true. reflexivity. }
  unfold general. rewrite V. reflexivity.
Qed.
Print Assumptions C123_many_refuted.
(** C123, refuted: a column behind the end of the text, or a long name, is undefined *)
Theorem C123_outside_refuted : forall p line col, length (to_line (source p) line) + 1 < col -> completion p line col = UB.
Proof.
  intros p line col L. unfold completion. cbv zeta. destruct col as [|k]; [lia|]. unfold word_at. assert (E : nth_error (to_line (source p) line ++ [0%N]) k = None) by (apply nth_error_None; rewrite app_length; cbn [length]; lia). rewrite E. reflexivity.
Qed.
Print Assumptions C123_outside_refuted.
Theorem C123_long_refuted : forall p line col above left name, cursor (source p) line col above left -> dotted left name -> 256 <= length name -> completion p line col = UB.
Proof.
  intros p line col above left name (right & So & Ab & _ & -> & ->) D L. unfold completion. cbv zeta. rewrite So, to_line_ok by exact Ab. rewrite (word_ok _ _ right D). cbn [bind].
  destruct name as [|c name]; [cbn [length] in L; lia|]. apply Nat.leb_le in L. now rewrite L.
Qed.
Print Assumptions C123_long_refuted.
Theorem C123_type_refuted : forall p line col above left name f ty s, cursor (source p) line col above left -> dotted left name -> length name < 256 -> last_function p line f -> typed f name ty -> struct_type ty s ->
  256 <= length s \/ (length s < 256 /\ NoDup (map fst (structs p)) /\ exists n t fs, In (s, (n, t) :: fs) (structs p) /\ 250 <= length t) -> completion p line col = UB.
Proof.
  intros p line col above left name f ty s (right & So & Ab & _ & -> & ->) D Ln La Ty St H. unfold completion. cbv zeta. rewrite (last_ok _ _ _ La), So, to_line_ok by exact Ab. rewrite (word_ok _ _ right D). cbn [bind].
  assert (Ne : name <> []) by (destruct D as (? & ? & _ & Ne & _); exact Ne). destruct name as [|c0 name]; [easy|]. set (nm := c0 :: name) in *. destruct (Nat.leb_spec 256 (length nm)); [lia|].
  rewrite (typed_ok p f nm ty Ty). rewrite (clean_ok _ _ St). destruct H as [H|(H & Nd & n & t & fs & I & L)]; [apply Nat.leb_le in H; now rewrite H|].
  destruct (Nat.leb_spec 256 (length s)); [lia|]. rewrite (find_pair _ _ _ Nd I). cbn [fields]. apply Nat.leb_le in L. now rewrite L.
Qed.
Print Assumptions C123_type_refuted.
