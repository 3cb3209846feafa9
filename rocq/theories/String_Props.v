(** Properties C11, C12, C13, C14: String. *)
From Verif Require Import Common Vec_Model Vec_Proofs Vec_Props
  String_Model String_Spec String_Sys String_Proofs.

(** The string [v] is well formed and its text is [b]: its vector holds [b] followed
    by one NUL, and [b] has no NUL. *)
Definition text (v : str) (b : bytes) : Prop :=
  holds v (b ++ [0%N]) /\ ~ In 0%N b.

Lemma text_shold v b : text v b <-> shold v b.
Proof.
  unfold text, shold. rewrite holds_vrep. apply and_iff_compat_l.
  unfold nonul. rewrite Forall_forall. split.
  - intros H c I ->. auto.
  - intros H I. now apply (H _ I).
Qed.

(** C11 for programs that do not append a string to itself. *)
Theorem C11_strings_partial :
  forall ops : list strop,
  Forall no_self_append ops -> Forall usize_args ops -> stays_short [] ops ->
  match str_spec_run [] ops with
  | None => str_run [] ops = Panic
  | Some (ls, outs) => exists st, str_run [] ops = Ok (st, outs) /\ Forall2 text st ls
  end.
Proof.
  intros ops NA US SS.
  pose proof (str_run_ok ops [] [] (Forall2_nil _) SS NA US) as H.
  destruct (str_spec_run [] ops) as [[ls outs]|]; cbn in H; auto.
  destruct H as (st & E & R). exists st. split; auto.
  clear E. induction R; constructor; auto. now apply text_shold.
Qed.
Print Assumptions C11_strings_partial.

Fixpoint stays_shortb (st : list bytes) (ops : list strop) : bool :=
  forallb (fun b => N.of_nat (length b) <? 2 ^ 31)%N st &&
  match ops with
  | [] => true
  | op :: ops => match str_spec_step st op with
                 | None => true
                 | Some (st, _) => stays_shortb st ops
                 end
  end.
Lemma stays_shortb_ok ops : forall st, stays_shortb st ops = true -> stays_short st ops.
Proof.
  assert (K : forall st, forallb (fun b => N.of_nat (length b) <? 2 ^ 31)%N st = true -> Forall short st).
  { intros st H. rewrite forallb_forall in H. apply Forall_forall. intros b I.
    apply N.ltb_lt. now apply H. }
  induction ops; intros st H; cbn [stays_shortb stays_short] in *; apply andb_prop in H as [H1 H2];
    split; auto.
  destruct (str_spec_step st a) as [[st' o]|]; auto.
Qed.

Definition C11_prog : list strop :=
  [SNew (bs "hello"); SNew (bs ", wor"); SAppend 0 1; SAppendC 0 (bs "ld"); SAdd 0 1; SReserve 1 100;
   SSubstring 0 3 4; SLength 2; SCStr 0; SCStr 3; SFind 0 (ch "w"); SStartsWith 0 (bs "hell");
   SEndsWith 0 (bs "ld"); SEq 0 1; SSplit 0 (ch "o"); SCStr 6; SSubstring 0 5 18446744073709551612].
Example C11_example :
  Forall no_self_append C11_prog /\ Forall usize_args C11_prog /\ stays_short [] C11_prog /\
  str_spec_run [] C11_prog = None /\
  str_spec_run [] (firstn 16 C11_prog) =
    Some ([bs "hello, world"; bs ", wor"; bs "hello, world, wor"; bs "lo, "; bs "hell"; bs ", w"; bs "rld"],
          [TUnit; TUnit; TUnit; TUnit; TUnit; TUnit; TUnit; TNum 17; TBytes (bs "hello, world");
           TBytes (bs "lo, "); TPos (Some 7); TBool true; TBool true; TBool false; TUnit;
           TBytes (bs "rld")]).
Proof.
  splits.
  - unfold C11_prog. repeat constructor. discriminate.
  - unfold C11_prog. repeat (constructor; [cbn; lia || exact I|]). constructor.
  - apply stays_shortb_ok. vm_compute. reflexivity.
  - vm_compute. reflexivity.
  - vm_compute. reflexivity.
Qed.

(** The unrestricted C11 is false: [s.append(&s)] loses the terminator. *)
Theorem C11_self_append_refuted :
  str_spec_run [] [SNew (bs "ab"); SAppend 0 0; SLength 0; SCStr 0]
    = Some ([bs "abab"], [TUnit; TUnit; TNum 4; TBytes (bs "abab")]) /\
  (exists st, str_run [] [SNew (bs "ab"); SAppend 0 0; SLength 0] = Ok (st, [TUnit; TUnit; TNum 3])) /\
  str_run [] [SNew (bs "ab"); SAppend 0 0; SCStr 0] = UB.
Proof. splits; [|eexists|]; vm_compute; reflexivity. Qed.
Print Assumptions C11_self_append_refuted.

(** C12.  Searching. *)
Theorem C12_find :
  forall v b c, text v b ->
  exists o, sfind v c = Ok o /\ scontains v c = Ok (match o with Some _ => true | None => false end) /\
  match o with
  | Some i => nth_error b i = Some c /\ forall j, j < i -> nth_error b j <> Some c
  | None => ~ In c b
  end.
Proof.
  intros v b c H. apply text_shold in H. exists (index_of c b). unfold scontains.
  rewrite (sfind_ok _ _ _ H). splits; auto. clear v H.
  induction b as [|x b IH]; cbn; auto. destruct (N.eqb_spec x c) as [->|Nx]; cbn.
  - split; auto. intros j Hj; lia.
  - destruct (index_of c b); cbn.
    + destruct IH as [I1 I2]. split; auto. intros j Hj. destruct j; cbn.
      * congruence.
      * apply I2. lia.
    + intros [|]; auto.
Qed.
Print Assumptions C12_find.

Theorem C12_tests :
  forall v b w c s, text v b -> text w c -> ~ In 0%N s ->
  (exists r, s_eq v w = Ok r /\ (r = true <-> b = c)) /\
  (exists r, seq_str v s = Ok r /\ (r = true <-> b = s)) /\
  (exists r, sstarts_with v s = Ok r /\ (r = true <-> exists rest, b = s ++ rest)) /\
  (exists r, sends_with v s = Ok r /\ (r = true <-> exists front, b = front ++ s)) /\
  slength v = length b /\ (sis_empty v = true <-> b = []).
Proof.
  intros v b w c s Hv Hw Hs. apply text_shold in Hv, Hw.
  assert (Es : cstr s = s).
  { apply cstr_id. apply Forall_forall. intros x I ->. auto. }
  splits.
  - unfold s_eq. rewrite (cread_ok _ _ Hv), (cread_ok _ _ Hw). cbn. eexists; split; [reflexivity|].
    destruct (beq_bytes_spec b c); split; congruence.
  - unfold seq_str. rewrite (cread_ok _ _ Hv), Es. cbn. eexists; split; [reflexivity|].
    destruct (beq_bytes_spec b s); split; congruence.
  - rewrite (sstarts_ok _ _ _ Hv), Es. eexists; split; [reflexivity|]. apply is_prefix_spec.
  - rewrite (sends_ok _ _ _ Hv), Es. eexists; split; [reflexivity|]. apply is_suffix_spec.
  - now apply slength_ok.
  - unfold sis_empty. rewrite (slength_ok _ _ Hv). destruct b; cbn; split; congruence.
Qed.
Print Assumptions C12_tests.

(** A concrete string built by the library meets the hypotheses. *)
Example C12_example :
  exists v, snew (bs "banana") = Ok v /\ text v (bs "banana") /\
    sfind v (ch "n") = Ok (Some 2) /\ sends_with v (bs "nana") = Ok true /\
    sstarts_with v (bs "bananas") = Ok false.
Proof.
  destruct (snew_ok (bs "banana")) as (v & E & H). exists v. splits; auto.
  - now apply text_shold.
  - vm_compute in E. injection E as <-. reflexivity.
  - vm_compute in E. injection E as <-. reflexivity.
  - vm_compute in E. injection E as <-. reflexivity.
Qed.

(** C13.  split: the pieces contain no delimiter and joined with it give the string
    back (an empty string has no pieces). *)
Theorem C13_split :
  forall v b d, text v b -> short b ->
  exists ps pieces, ssplit v d = Ok ps /\ Forall2 text ps pieces /\
    (b = [] -> pieces = []) /\
    (b <> [] -> pieces <> [] /\ join d pieces = b /\ Forall (fun p => ~ In d p) pieces).
Proof.
  intros v b d H Hb. apply text_shold in H.
  destruct (ssplit_ok v b d H Hb) as (ps & E & F).
  exists ps, (match b with [] => [] | _ => fields d b end). splits; auto.
  - clear E. induction F; constructor; auto. now apply text_shold.
  - now intros ->.
  - intros Nb. destruct b; [easy|]. splits.
    + destruct (fields_nonempty d (n :: b)) as (p & r & ->). discriminate.
    + apply fields_join.
    + apply fields_clean.
Qed.
Print Assumptions C13_split.

(** The pieces are determined by that description. *)
Theorem C13_split_unique :
  forall d ps qs, ps <> [] -> qs <> [] ->
  Forall (fun p => ~ In d p) ps -> Forall (fun p => ~ In d p) qs ->
  join d ps = join d qs -> ps = qs.
Proof.
  assert (K : forall (d : N) (p : bytes), ~ In d p -> forall r q s, ~ In d q ->
    p ++ d :: r = q ++ d :: s -> p = q /\ r = s).
  { intros d p. induction p as [|x p IH]; intros Np r q s Nq E; destruct q as [|y q]; cbn in *.
    - split; congruence.
    - injection E as -> _. destruct Nq; auto.
    - injection E as -> _. destruct Np; auto.
    - injection E as -> E. destruct (IH ltac:(tauto) r q s ltac:(tauto) E) as [-> ->]. auto. }
  intros d ps. induction ps as [|p ps IH]; intros qs Np Nq Fp Fq E; [easy|].
  destruct qs as [|q qs]; [easy|]. inversion Fp; inversion Fq; subst.
  destruct ps as [|p2 ps], qs as [|q2 qs]; cbn [join] in E.
  - congruence.
  - exfalso. apply H1. rewrite E. apply in_or_app. right; left; auto.
  - exfalso. apply H5. rewrite <- E. apply in_or_app. right; left; auto.
  - destruct (K d p H1 _ q _ H5 E) as [-> E']. f_equal. apply IH; auto; discriminate.
Qed.
Print Assumptions C13_split_unique.

Theorem C13_trim :
  forall v b, text v b -> short b ->
  exists v' m, strim v = Ok v' /\ text v' m /\ Trimmed b m.
Proof.
  intros v b H Hb. apply text_shold in H. destruct (strim_ok v b H Hb) as (v' & m & E & R & T).
  exists v', m. splits; auto. now apply text_shold.
Qed.
Print Assumptions C13_trim.

Theorem C13_replace :
  forall v b t r, text v b -> short b -> ~ In 0%N t -> ~ In 0%N r ->
  exists v' out, sreplace v t r = Ok v' /\ text v' out /\
    (t <> [] -> Replaced t r b out) /\ (t = [] -> out = b).
Proof.
  intros v b t r H Hb Nt Nr. apply text_shold in H.
  assert (E : forall s, ~ In 0%N s -> cstr s = s).
  { intros s Hs. apply cstr_id. apply Forall_forall. intros x I ->. auto. }
  destruct t as [|c t].
  - destruct (sreplace_empty v b [] r H Hb eq_refl) as (v' & Ev & R).
    exists v', b. splits; auto. { now apply text_shold. } easy.
  - destruct (sreplace_ok v b (c :: t) r H Hb) as (v' & o & Ev & R & X).
    { rewrite E; auto. discriminate. }
    rewrite !E in X by auto. exists v', o. splits; auto. { now apply text_shold. } easy.
Qed.
Print Assumptions C13_replace.

(** [Replaced] determines the result. *)
Theorem C13_replace_unique :
  forall t r b o1 o2, t <> [] -> Replaced t r b o1 -> Replaced t r b o2 -> o1 = o2.
Proof. intros. eapply Replaced_det; eauto. Qed.
Print Assumptions C13_replace_unique.

Example C13_example :
  exists v w x y z, snew (bs "  aa,b,,caaa ") = Ok v /\ short (bs "  aa,b,,caaa ") /\
    ssplit v (ch ",") = Ok w /\ length w = 4 /\
    strim v = Ok x /\ cread (data x) = Ok (bs "aa,b,,caaa") /\
    sreplace v (bs "aa") (bs "X") = Ok y /\ cread (data y) = Ok (bs "  X,b,,cXa ") /\
    sreplace v (bs "") (bs "X") = Ok z /\ cread (data z) = Ok (bs "  aa,b,,caaa ").
Proof. do 5 eexists. splits; try (vm_compute; reflexivity). Qed.

(** C14 on well-formed UTF-8. *)
Theorem C14_utf8_partial :
  forall v cs, Forall code_point cs -> text v (utf8_text cs) -> short (utf8_text cs) ->
  sutf8_len v = Ok (length cs) /\
  (forall i, exists w, sutf8_at v i = Ok w /\
     text w (match nth_error cs i with Some c => utf8_encode c | None => [] end)) /\
  (forall start n, exists w, sutf8_substr v start n = Ok w /\
     text w (utf8_text (firstn n (skipn start cs)))).
Proof.
  intros v cs CP H Hs. apply text_shold in H. splits.
  - now apply sutf8_len_ok.
  - intros i. destruct (sutf8_at_ok v cs H Hs CP i) as (w & E & R).
    exists w. split; auto. now apply text_shold.
  - intros s n. destruct (sutf8_substr_ok v cs H Hs CP s n) as (w & E & R).
    exists w. split; auto. now apply text_shold.
Qed.
Print Assumptions C14_utf8_partial.

Example C14_example :
  let cs := [0x61; 0xE9; 0x20AC; 0x1F600; 0x62]%N in
  Forall code_point cs /\
  utf8_text cs = [0x61; 0xC3; 0xA9; 0xE2; 0x82; 0xAC; 0xF0; 0x9F; 0x98; 0x80; 0x62]%N /\
  exists v w, snew (utf8_text cs) = Ok v /\ text v (utf8_text cs) /\ sutf8_len v = Ok 5 /\
    sutf8_substr v 1 2 = Ok w /\ cread (data w) = Ok [0xC3; 0xA9; 0xE2; 0x82; 0xAC]%N.
Proof.
  cbn zeta. splits.
  - repeat constructor; lia.
  - reflexivity.
  - destruct (snew_ok (utf8_text [0x61; 0xE9; 0x20AC; 0x1F600; 0x62]%N)) as (v & E & H).
    exists v. assert (T : text v (utf8_text [0x61; 0xE9; 0x20AC; 0x1F600; 0x62]%N)).
    { now apply text_shold. }
    clear H. vm_compute in E. injection E as <-. eexists. splits; auto; vm_compute; reflexivity.
Qed.

(** Arbitrary bytes: the count never fails ... *)
Theorem C14_len_total :
  forall v b, text v b -> exists n, sutf8_len v = Ok n /\ n <= length b.
Proof.
  intros v b H. apply text_shold in H. unfold sutf8_len. rewrite (slength_ok _ _ H).
  destruct (utf8_len_total v b H (S (length b)) 0 0) as (n & E & L); [lia|].
  exists n. split; auto. lia.
Qed.
Print Assumptions C14_len_total.

(** ... but indexing a string that ends inside a multi-byte sequence panics. *)
Theorem C14_truncated_refuted :
  exists v, snew [0x61; 0xC3]%N = Ok v /\ text v [0x61; 0xC3]%N /\
    sutf8_len v = Ok 2 /\ sutf8_at v 1 = Panic /\ sutf8_substr v 0 2 = Panic.
Proof.
  destruct (snew_ok [0x61; 0xC3]%N) as (v & E & H). exists v.
  assert (T : text v [0x61; 0xC3]%N) by now apply text_shold.
  clear H. vm_compute in E. injection E as <-. splits; auto; vm_compute; reflexivity.
Qed.
Print Assumptions C14_truncated_refuted.
