From Verif Require Import Common Io_Model Io_Spec.
Local Open Scope Z_scope.

(** ** Numerals *)
Lemma digits_app a b : digits a -> digits b -> digits (a ++ b).
Proof. intros. apply Forall_app. auto. Qed.
Definition val (s : bytes) : Z := fold_left (fun a d => 10 * a + (Z.of_N d - 48)) s 0.
Lemma val_snoc s d : val (s ++ [d]) = 10 * val s + (Z.of_N d - 48).
Proof. unfold val. now rewrite fold_left_app. Qed.
Lemma pow10_S k : 10 ^ Z.of_nat (S k) = 10 * 10 ^ Z.of_nat k.
Proof. rewrite Nat2Z.inj_succ, Z.pow_succ_r by lia. reflexivity. Qed.
Lemma digit_ok n : 0 <= n < 10 -> (48 <= Z.to_N (48 + n) <= 57)%N /\ Z.of_N (Z.to_N (48 + n)) - 48 = n.
Proof. intros H. split; [split; apply N2Z.inj_le; rewrite Z2N.id by lia; lia|]. rewrite Z2N.id; lia. Qed.
Lemma dec_digits_ok fuel : forall n, 0 <= n < 10 ^ Z.of_nat fuel ->
  (0 < fuel)%nat -> digits (dec_digits fuel n) /\ val (dec_digits fuel n) = n /\ (length (dec_digits fuel n) <= fuel)%nat /\ dec_digits fuel n <> [] /\
  (1 <= n -> exists d ds, dec_digits fuel n = d :: ds /\ (49 <= d <= 57)%N).
Proof.
  induction fuel as [|fuel IH]; intros n H Hf; [lia|].
  cbn [dec_digits]. destruct (Z.ltb_spec n 10) as [L|L].
  - destruct (digit_ok n ltac:(lia)) as [D1 D2].
    split; [constructor; auto; constructor|]. split; [unfold val; cbn [fold_left]; lia|]. split; [cbn; lia|]. split; [discriminate|].
    intros N. exists (Z.to_N (48 + n)), []. split; auto. split; [|lia]. apply N2Z.inj_le. rewrite Z2N.id by lia. lia.
  - rewrite pow10_S in H.
    assert (Q : 0 <= n / 10 < 10 ^ Z.of_nat fuel) by (split; [apply Z.div_pos; lia|apply Z.div_lt_upper_bound; lia]).
    assert (F : (0 < fuel)%nat).
    { destruct fuel; [|lia]. cbn in H. lia. }
    destruct (IH (n / 10) Q F) as (D & V & Ln & Ne & Lead).
    pose proof (Z.mod_pos_bound n 10 ltac:(lia)) as M. pose proof (Z.div_mod n 10 ltac:(lia)) as E.
    destruct (digit_ok (n mod 10) M) as [D1 D2].
    split; [apply digits_app; auto; constructor; auto; constructor|].
    split; [rewrite val_snoc, V, D2; lia|].
    split; [rewrite app_length; cbn [length]; lia|].
    split; [intros X; apply app_eq_nil in X as [_ X]; discriminate|].
    intros _. destruct (Lead ltac:(apply Z.div_le_lower_bound; lia)) as (d & ds & -> & Hd). eexists d, _. split; [reflexivity|auto].
Qed.
Lemma val_value s : digits s -> value s = val s.
Proof.
  intros D. unfold value, val. destruct s as [|d s]; auto. inversion D as [|x l Hd Hl]; subst.
  destruct d as [|p]; auto. do 6 (destruct p as [p|p|]; auto; try lia).
Qed.
Lemma dec_nat_ok n : uint n -> digits (dec_nat n) /\ value (dec_nat n) = n /\ numeral (dec_nat n) /\ (length (dec_nat n) <= 10)%nat.
Proof.
  intros H. unfold uint in H. unfold dec_nat.
  destruct (dec_digits_ok 10 n) as (D & V & L & Ne & Lead); [change (10 ^ Z.of_nat 10) with 10000000000; lia|lia|].
  split; auto. split; [rewrite val_value; auto|]. split; auto.
  destruct (Z.eq_dec n 0) as [->|N]; [now left|]. right. destruct (Lead ltac:(lia)) as (d & ds & E & Hd).
  exists d, ds. split; auto. split; auto. rewrite E in D. now inversion D.
Qed.
Lemma dec_int_ok n : int n -> value (dec_int n) = n /\ numeral (dec_int n) /\ (length (dec_int n) <= 11)%nat /\ text (dec_int n).
Proof.
  intros H. unfold int in H. unfold dec_int. destruct (Z.ltb_spec n 0) as [L|L].
  - destruct (dec_nat_ok (- n)) as (D & V & N & Ln); [unfold uint; lia|].
    split; [|split; [|split]].
    + rewrite val_value in V by auto. unfold val in V. cbn [value]. rewrite V. lia.
    + destruct N as [E|(d & ds & Hd & Dd & [E|E])].
      * exfalso. rewrite E in V. change (value (bs "0")) with 0 in V. lia.
      * right. exists d, ds. split; auto. split; auto. right. now rewrite E.
      * exfalso. rewrite E in D. inversion D; subst. lia.
    + cbn [length]. lia.
    + intros [X|X]; [discriminate|]. unfold digits in D. rewrite Forall_forall in D. apply D in X. lia.
  - destruct (dec_nat_ok n) as (D & V & N & Ln); [unfold uint; lia|].
    split; auto. split; auto. split; [lia|]. intros X. unfold digits in D. rewrite Forall_forall in D. apply D in X. lia.
Qed.

(** ** Buffers *)
Lemma cstr_text t r : text t -> cstr (t ++ 0%N :: r) = t.
Proof.
  unfold text. induction t as [|c t IH]; cbn [cstr app]; intros H; [reflexivity|].
  destruct (N.eqb_spec c 0) as [->|]; [exfalso; apply H; now left|]. rewrite IH; auto. intros X. apply H. now right.
Qed.
Lemma text_firstn k t : text t -> text (firstn k t).
Proof. intros H X. apply H. rewrite <- (firstn_skipn k t). apply in_or_app. now left. Qed.
Lemma vsnprintf_ok buf k t : length buf = S k -> exists b, vsnprintf buf (S k) t = Ok (b, Z.of_nat (length t)) /\ length b = S k /\
  (text t -> cstr b = firstn k t).
Proof.
  intros L. cbn [vsnprintf]. assert (W : (length (firstn k t ++ [0%N]) <= S k)%nat).
  { rewrite app_length, firstn_length. cbn [length]. lia. }
  rewrite L. destruct (Nat.leb_spec (length (firstn k t ++ [0%N])) (S k)); [|lia].
  eexists. split; [reflexivity|]. split; [rewrite app_length, skipn_length; lia|].
  intros T. rewrite <- app_assoc. cbn [app]. apply cstr_text. now apply text_firstn.
Qed.
Lemma sprintf_ok buf t : (length t < length buf)%nat -> exists b, sprintf buf t = Ok b /\ length b = length buf /\ (text t -> cstr b = t).
Proof.
  intros L. unfold sprintf. rewrite app_length. cbn [length].
  destruct (Nat.leb_spec (length t + 1) (length buf)); [|lia]. eexists. split; [reflexivity|].
  split; [rewrite !app_length, skipn_length; cbn [length]; lia|]. intros T. rewrite <- app_assoc. cbn [app]. now apply cstr_text.
Qed.

(** ** Histories *)
Definition wf (st : state) : Prop := length (st_format st) = 1024%nat /\ length (st_itos st) = 32%nat /\ length (st_utos st) = 32%nat.
Definition fresh (o : op) : bool := match o with FormatNew _ (Some _) | ItosNew _ (Some _) => true | _ => false end.
Lemma step_ok st o : wf st -> good o -> exists st' p, step st o = Ok (st', p) /\ wf st' /\
  (p = PNull \/ read st' p = Some (given o)) /\
  (p = PNull -> exists t, o = FormatNew t None \/ exists n, o = ItosNew n None) /\
  (forall w, shared o = Some w -> p = PStatic w) /\ (shared o = None -> p = PNull \/ p = PHeap (length (st_heap st))) /\
  (forall w, shared o <> Some w -> block st' (PStatic w) = block st (PStatic w)) /\
  (exists l, st_heap st' = st_heap st ++ l).
Proof.
  intros (W1 & W2 & W3) G. destruct o as [t|t g|n|n g|n]; cbn [good] in G.
  - destruct (vsnprintf_ok (st_format st) 1023 t W1) as (b & E & L & C).
    cbn [step]. rewrite E. cbn [bind]. do 2 eexists. split; [reflexivity|]. split; [split; auto|].
    split; [right; unfold read; cbn [block option_map st_format]; rewrite C by auto; reflexivity|].
    split; [discriminate|]. split; [intros w X; now injection X as <-|]. split; [discriminate|].
    split; [intros [] X; auto; exfalso; now apply X|]. exists []. cbn. now rewrite app_nil_r.
  - destruct G as [T G]. destruct g as [g|].
    + destruct (vsnprintf_ok g 1023 t (G g eq_refl)) as (b & E & L & C).
      cbn [step]. rewrite E. cbn [bind]. do 2 eexists. split; [reflexivity|]. split; [split; auto|].
      split; [right; unfold read; cbn [block st_heap]; rewrite nth_error_app2, Nat.sub_diag by lia; cbn [nth_error option_map]; rewrite C by auto; reflexivity|].
      split; [discriminate|]. split; [discriminate|]. split; [auto|]. split; [intros []; auto|]. exists [b]. reflexivity.
    + cbn [step]. do 2 eexists. split; [reflexivity|]. split; [split; auto|]. split; auto. split; [eauto|]. split; [discriminate|]. split; auto.
      split; [auto|]. exists []. now rewrite app_nil_r.
  - destruct (dec_int_ok n G) as (_ & _ & Ln & T). destruct (sprintf_ok (st_itos st) (dec_int n) ltac:(lia)) as (b & E & L & C).
    cbn [step]. rewrite E. cbn [bind]. do 2 eexists. split; [reflexivity|]. split; [split; auto; split; auto; cbn; lia|].
    split; [right; unfold read; cbn [block option_map st_itos]; rewrite C by auto; reflexivity|].
    split; [discriminate|]. split; [intros w X; now injection X as <-|]. split; [discriminate|].
    split; [intros [] X; auto; exfalso; now apply X|]. exists []. cbn. now rewrite app_nil_r.
  - destruct G as [H G]. destruct (dec_int_ok n H) as (_ & _ & Ln & T). destruct g as [g|].
    + destruct (sprintf_ok g (dec_int n) ltac:(rewrite (G g eq_refl); lia)) as (b & E & L & C).
      cbn [step]. rewrite E. cbn [bind]. do 2 eexists. split; [reflexivity|]. split; [split; auto|].
      split; [right; unfold read; cbn [block st_heap]; rewrite nth_error_app2, Nat.sub_diag by lia; cbn [nth_error option_map]; rewrite C by auto; reflexivity|].
      split; [discriminate|]. split; [discriminate|]. split; [auto|]. split; [intros []; auto|]. exists [b]. reflexivity.
    + cbn [step]. do 2 eexists. split; [reflexivity|]. split; [split; auto|]. split; auto. split; [intros _; exists []; right; eauto|]. split; [discriminate|]. split; auto.
      split; [auto|]. exists []. now rewrite app_nil_r.
  - destruct (dec_nat_ok n G) as (D & _ & _ & Ln).
    assert (T : text (dec_nat n)) by (intros X; unfold digits in D; rewrite Forall_forall in D; apply D in X; lia).
    destruct (sprintf_ok (st_utos st) (dec_nat n) ltac:(lia)) as (b & E & L & C).
    cbn [step]. rewrite E. cbn [bind]. do 2 eexists. split; [reflexivity|]. split; [split; auto; split; auto; cbn; lia|].
    split; [right; unfold read; cbn [block option_map st_utos]; rewrite C by auto; reflexivity|].
    split; [discriminate|]. split; [intros w X; now injection X as <-|]. split; [discriminate|].
    split; [intros [] X; auto; exfalso; now apply X|]. exists []. cbn. now rewrite app_nil_r.
Qed.
Lemma run_ok l : Forall good l -> forall st, wf st -> exists st', run st l = Ok st' /\ wf st' /\
  (forall w, (forall o, In o l -> shared o <> Some w) -> block st' (PStatic w) = block st (PStatic w)) /\
  (exists x, st_heap st' = st_heap st ++ x).
Proof.
  induction 1 as [|o l G Gl IH]; intros st W.
  - exists st. cbn. split; auto. split; auto. split; auto. exists []. now rewrite app_nil_r.
  - destruct (step_ok st o W G) as (st1 & p & E & W1 & _ & _ & _ & _ & B1 & x1 & H1).
    destruct (IH st1 W1) as (st2 & E2 & W2 & B2 & x2 & H2).
    exists st2. cbn [run]. rewrite E. cbn [bind]. split; auto. split; auto. split.
    + intros w N. rewrite B2 by (intros o0 I0; apply N; now right). apply B1. apply N. now left.
    + exists (x1 ++ x2). now rewrite H2, H1, app_assoc.
Qed.
Lemma wf_init : wf init.
Proof. split; [|split]; reflexivity. Qed.

Theorem lasting l1 o l2 : Forall good l1 -> good o -> Forall good l2 -> (forall w o', shared o = Some w -> In o' l2 -> shared o' <> Some w) ->
  exists st1 st2 p st3, run init l1 = Ok st1 /\ step st1 o = Ok (st2, p) /\ run st2 l2 = Ok st3 /\
    (p <> PNull -> read st3 p = Some (given o)) /\ (p = PNull -> exists t, o = FormatNew t None \/ exists n, o = ItosNew n None).
Proof.
  intros G1 G G2 N. destruct (run_ok l1 G1 init wf_init) as (st1 & E1 & W1 & _ & _).
  destruct (step_ok st1 o W1 G) as (st2 & p & E2 & W2 & R & Nl & Sh & Un & _ & x0 & H0).
  destruct (run_ok l2 G2 st2 W2) as (st3 & E3 & W3 & B & x & H).
  exists st1, st2, p, st3. split; auto. split; auto. split; auto. split; auto.
  intros NP. destruct R as [R|R]; [contradiction|]. destruct (shared o) as [w|] eqn:S.
  - rewrite (Sh w eq_refl) in *. unfold read in *. rewrite (B w (fun o0 I => N w o0 eq_refl I)). exact R.
  - destruct (Un eq_refl) as [->| ->]; [contradiction|]. unfold read in *. cbn [block] in *.
    destruct (nth_error (st_heap st2) (length (st_heap st1))) as [b|] eqn:Q; [|discriminate].
    rewrite H, nth_error_app1, Q; auto. apply nth_error_Some. congruence.
Qed.
Lemma skipn_skipn' {A} a b (l : list A) : skipn a (skipn b l) = skipn (b + a) l.
Proof. revert l. induction b as [|b IH]; intros [|x l]; cbn [skipn Nat.add]; auto. destruct a; reflexivity. Qed.
Theorem into buf size t : (size <= length buf)%nat -> exists b, format_into buf size t = Ok (b, Z.of_nat (length t)) /\ length b = length buf /\
  skipn size b = skipn size buf /\ (size = 0%nat -> b = buf) /\ ((0 < size)%nat -> text t -> cstr b = firstn (size - 1) t).
Proof.
  intros L. unfold format_into. destruct size as [|k].
  - exists buf. cbn. split; auto. split; auto. split; auto. split; auto. lia.
  - cbn [vsnprintf]. assert (W : (length (firstn k t ++ [0%N]) <= S k)%nat).
    { rewrite app_length, firstn_length. cbn [length]. lia. }
    destruct (Nat.leb_spec (length (firstn k t ++ [0%N])) (length buf)); [|lia].
    eexists. split; [reflexivity|]. split; [rewrite app_length, skipn_length; lia|]. split.
    { rewrite skipn_app, (skipn_all2 _ W). cbn [app]. rewrite skipn_skipn'. f_equal. lia. }
    split; [discriminate|]. intros _ T. replace (S k - 1)%nat with k by lia. rewrite <- app_assoc. cbn [app]. apply cstr_text. now apply text_firstn.
Qed.
