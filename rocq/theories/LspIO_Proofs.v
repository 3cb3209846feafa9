From Verif Require Import Common LspIO_Model LspIO_Spec.
Local Open Scope nat_scope.

Lemma fgets_loop_split : forall k s line rest, fgets_loop k s = (line, rest) -> s = line ++ rest.
Proof.
  induction k as [|k IH]; intros s line rest E; [injection E as <- <-; reflexivity|].
  destruct s as [|c s]; [injection E as <- <-; reflexivity|]. cbn [fgets_loop] in E.
  destruct (c =? 10)%N; [injection E as <- <-; reflexivity|].
  destruct (fgets_loop k s) as [l r] eqn:F. injection E as <- <-. cbn. f_equal. now apply IH.
Qed.
Lemma fgets_loop_pos k c s line rest : fgets_loop (S k) (c :: s) = (line, rest) -> length rest <= length s.
Proof.
  intros E. cbn [fgets_loop] in E. destruct (c =? 10)%N; [injection E as <- <-; lia|].
  destruct (fgets_loop k s) as [l r] eqn:F. injection E as <- <-. apply fgets_loop_split in F. subst s.
  rewrite app_length. lia.
Qed.
Lemma fgets_loop_line : forall h k rest, ~ In 10%N h -> length h < k -> fgets_loop k (h ++ 10%N :: rest) = (h ++ [10%N], rest).
Proof.
  induction h as [|c h IH]; intros k rest N L; (destruct k as [|k]; [cbn in L; lia|]); cbn [app fgets_loop].
  - reflexivity.
  - destruct (N.eqb_spec c 10) as [->|_]; [exfalso; apply N; now left|].
    rewrite IH; [reflexivity| |cbn in L; lia]. intros X. apply N. now right.
Qed.
Lemma fgets_line h rest : ~ In 10%N h -> short h -> fgets (h ++ CRLF ++ rest) = Some (h ++ CRLF, rest).
Proof.
  intros N L. unfold fgets. unfold short in L.
  assert (E : h ++ CRLF ++ rest = (h ++ [13%N]) ++ 10%N :: rest) by now rewrite <- app_assoc.
  assert (F : match h ++ CRLF ++ rest with [] => None | _ => Some (fgets_loop line_max (h ++ CRLF ++ rest)) end =
    Some (fgets_loop line_max (h ++ CRLF ++ rest))) by (destruct h; reflexivity).
  rewrite F, E, fgets_loop_line.
  - now rewrite <- app_assoc.
  - intros X. apply in_app_or in X. destruct X as [X|[X|[]]]; [contradiction|discriminate].
  - rewrite app_length. cbn [length]. unfold line_max. lia.
Qed.
Lemma cstr_crlf l : cstr l = CRLF -> exists r, l = CRLF ++ r.
Proof.
  destruct l as [|a [|b l]]; cbn [cstr]; try discriminate.
  - destruct (a =? 0)%N; discriminate.
  - destruct (a =? 0)%N; [discriminate|]. destruct (b =? 0)%N; [discriminate|]. intros E. injection E as -> -> E. eexists. reflexivity.
Qed.
(** a header line is not the empty line *)
Lemma header_not_blank h : h <> [] -> ~ In 10%N h -> beq_bytes (cstr (h ++ CRLF)) CRLF = false.
Proof.
  intros NE N. destruct (beq_bytes_spec (cstr (h ++ CRLF)) CRLF) as [E|]; [|reflexivity]. exfalso.
  apply cstr_crlf in E. destruct E as [r E]. destruct h as [|a h]; [congruence|]. cbn in E. injection E as -> E.
  destruct h as [|b h]; [cbn in E; discriminate|]. cbn in E. injection E as -> E. apply N. right. now left.
Qed.
Lemma prefix_crlf h : ~ (exists r, h = bs "Content-Length: " ++ r) -> ~ In 10%N h ->
  is_prefix (bs "Content-Length: ") (h ++ CRLF) = false.
Proof.
  intros N _. destruct (is_prefix (bs "Content-Length: ") (h ++ CRLF)) eqn:E; [|reflexivity]. exfalso.
  apply is_prefix_spec in E. destruct E as [r E]. apply N.
  assert (G : forall p h r, ~ In 13%N p -> ~ In 10%N p -> h ++ CRLF = p ++ r -> exists r', h = p ++ r').
  { clear. induction p as [|c p IH]; intros h r N1 N2 E; [now exists h|].
    destruct h as [|d h].
    - cbn in E. injection E as <- _. exfalso. apply N1. now left.
    - cbn in E. injection E as -> E. destruct (IH h r) as [r' ->]; auto; [intros X; apply N1; now right|intros X; apply N2; now right|].
      now exists r'. }
  eapply G; [| |exact E]; cbn; intuition discriminate.
Qed.
Lemma read_header k n h rest : header_ok h -> short h ->
  read_headers (S k) n (h ++ CRLF ++ rest) = read_headers k n rest.
Proof.
  intros (H1 & H2 & H3) S. cbn [read_headers]. rewrite (fgets_line h rest H2 S).
  change [13; 10]%N with CRLF. rewrite (header_not_blank h H1 H2), (prefix_crlf h H3 H2). reflexivity.
Qed.
Lemma read_hdrs : forall hs k n rest, Forall header_ok hs -> Forall short hs -> length hs <= k ->
  read_headers k n (concat (map (fun h => h ++ CRLF) hs) ++ rest) = read_headers (k - length hs) n rest.
Proof.
  induction hs as [|h hs IH]; intros k n rest H S L.
  - cbn. now rewrite Nat.sub_0_r.
  - inversion H; subst. inversion S; subst. destruct k as [|k]; [cbn in L; lia|]. cbn [map concat length].
    rewrite <- !app_assoc. rewrite read_header by assumption. rewrite IH by (auto; cbn in L; lia). now rewrite Nat.sub_succ.
Qed.

Lemma digits_number : forall ds acc rest, Forall (fun d => (48 <= d <= 57)%N) ds ->
  digits acc (ds ++ 13%N :: rest) = fold_left (fun a d => (a * 10 + (Z.of_N d - 48))%Z) ds acc.
Proof.
  induction ds as [|d ds IH]; intros acc rest F; [reflexivity|]. inversion F; subst. cbn [app digits fold_left].
  assert (I : isdigit d = true) by (unfold isdigit; apply Bool.andb_true_iff; rewrite !N.leb_le; lia). rewrite I. now apply IH.
Qed.
Lemma atoi_number ds : ds <> [] -> Forall (fun d => (48 <= d <= 57)%N) ds ->
  (0 <= number ds <= 2147483647)%Z -> atoi (ds ++ CRLF) = Ok (number ds).
Proof.
  intros NE F R. unfold atoi.
  assert (S : skip_space (ds ++ CRLF) = ds ++ CRLF).
  { destruct ds as [|d ds]; [congruence|]. inversion F; subst. cbn [app skip_space].
    replace (isspace d) with false; [reflexivity|]. unfold isspace. destruct (N.eqb_spec d 32); [lia|].
    destruct (N.leb_spec d 13); [lia|]. now rewrite Bool.andb_false_r. }
  rewrite S.
  assert (D : match ds ++ CRLF with 45%N :: s' => (- digits 0 s')%Z | 43%N :: s' => digits 0 s' | s' => digits 0 s' end = digits 0 (ds ++ CRLF)).
  { destruct ds as [|d ds]; [congruence|]. inversion F; subst. cbn [app].
    destruct d as [|p]; [reflexivity|]. repeat (destruct p as [p|p|]; try reflexivity; try lia). }
  rewrite D. unfold CRLF. rewrite digits_number by assumption. fold (number ds).
  replace ((-2147483648 <=? number ds) && (number ds <=? 2147483647))%Z with true; [reflexivity|].
  symmetry. apply Bool.andb_true_iff. rewrite !Z.leb_le. lia.
Qed.
Lemma cstr_nonul : forall l, ~ In 0%N l -> cstr l = l.
Proof.
  induction l as [|c l IH]; intros N; [reflexivity|]. cbn [cstr]. destruct (N.eqb_spec c 0) as [->|_].
  - exfalso. apply N. now left.
  - f_equal. apply IH. intros X. apply N. now right.
Qed.
Lemma digits_clean ds : Forall (fun d => (48 <= d <= 57)%N) ds -> ~ In 0%N ds /\ ~ In 10%N ds.
Proof. intros F. rewrite Forall_forall in F. split; intros X; apply F in X; lia. Qed.

Lemma read_msg k m rest : msg_ok m -> msg_short m -> length (m_pre m) + length (m_post m) + 2 <= k ->
  read_headers k 0 (wire m ++ rest) = Ok (Z.of_nat (length (m_body m)), m_body m ++ rest, false).
Proof.
  intros (P1 & P2 & D1 & D2 & D3 & D4 & _) (S1 & S2 & S3) K. unfold wire.
  destruct (digits_clean _ D2) as [DN DL].
  rewrite <- !app_assoc. rewrite read_hdrs by (auto; lia).
  destruct (k - length (m_pre m)) as [|k1] eqn:K1; [lia|]. cbn [read_headers].
  rewrite !app_assoc. rewrite <- (app_assoc (bs "Content-Length: ") (m_digits m) CRLF).
  rewrite <- !(app_assoc (_ ++ m_digits m ++ CRLF)). rewrite (app_assoc (bs "Content-Length: ")).
  rewrite <- (app_assoc (bs "Content-Length: " ++ m_digits m)).
  rewrite fgets_line.
  2: { intros X. apply in_app_or in X. destruct X as [X|X]; [cbn in X; intuition discriminate|contradiction]. }
  2: exact S3.
  change [13; 10]%N with CRLF. rewrite header_not_blank.
  2: discriminate.
  2: { intros X. apply in_app_or in X. destruct X as [X|X]; [cbn in X; intuition discriminate|contradiction]. }
  rewrite <- (app_assoc (bs "Content-Length: ")).
  rewrite (proj2 (is_prefix_spec _ (bs "Content-Length: " ++ m_digits m ++ CRLF))) by (now eexists).
  change (skipn 16 (bs "Content-Length: " ++ m_digits m ++ CRLF)) with (m_digits m ++ CRLF).
  rewrite cstr_nonul.
  2: { intros X. apply in_app_or in X. destruct X as [X|X]; [contradiction|]. cbn in X. intuition discriminate. }
  rewrite atoi_number by (auto; lia). cbn [bind]. rewrite D3.
  rewrite <- !app_assoc. rewrite read_hdrs by (auto; lia).
  destruct (k1 - length (m_post m)) as [|k2] eqn:K2; [lia|]. cbn [read_headers].
  change (CRLF ++ m_body m ++ rest) with ([] ++ CRLF ++ m_body m ++ rest).
  rewrite fgets_line; [reflexivity|intros []|unfold short; cbn; lia].
Qed.
Lemma wire_length m : length (m_pre m) + length (m_post m) + 2 <= length (wire m).
Proof.
  unfold wire. assert (G : forall hs : list bytes, length hs <= length (concat (map (fun h => h ++ CRLF) hs))).
  { induction hs as [|h hs IH]; cbn [map concat length]; [lia|]. rewrite !app_length. cbn [length CRLF]. lia. }
  rewrite !app_length. pose proof (G (m_pre m)). pose proof (G (m_post m)). unfold bytes in *. cbn [CRLF length]. lia.
Qed.
Lemma main_msgs : forall ms k, Forall msg_ok ms -> Forall msg_short ms -> length ms < k ->
  lsp_main k (concat (map wire ms)) = Ok (map m_body ms).
Proof.
  induction ms as [|m ms IH]; intros k O S L; (destruct k as [|k]; [lia|]).
  - reflexivity.
  - inversion O as [|? ? O1 O2]; subst. inversion S as [|? ? S1 S2]; subst. cbn [map concat lsp_main].
    rewrite read_msg; auto.
    2: { rewrite app_length. pose proof (wire_length m). lia. }
    destruct O1 as (_ & _ & _ & _ & D3 & D4 & D5). cbn [bind].
    destruct (Z.leb_spec (Z.of_nat (length (m_body m))) 0); [lia|].
    destruct (Z.ltb_spec body_max (Z.of_nat (length (m_body m)))) as [X|_]; [unfold body_max in X; lia|].
    rewrite app_length. destruct (Z.ltb_spec (Z.of_nat (length (m_body m) + length (concat (map wire ms)))) (Z.of_nat (length (m_body m)))); [lia|].
    rewrite Nat2Z.id. rewrite skipn_app, skipn_all, Nat.sub_diag. cbn [app skipn].
    rewrite IH by (auto; cbn in L; lia). cbn [bind].
    rewrite firstn_app, firstn_all, Nat.sub_diag. cbn [firstn]. rewrite app_nil_r, cstr_nonul by assumption. reflexivity.
Qed.

(** * Any input *)
Lemma fgets_split s line rest : fgets s = Some (line, rest) -> s = line ++ rest /\ length rest < length s.
Proof.
  unfold fgets. destruct s as [|c s]; [discriminate|].
  assert (P : exists k, line_max = S k) by (exists 510; reflexivity). destruct P as [k ->].
  intros E. assert (E' : fgets_loop (S k) (c :: s) = (line, rest)) by congruence. clear E.
  split; [now apply fgets_loop_split in E'|]. apply fgets_loop_pos in E'. cbn [length]. lia.
Qed.
Lemma read_headers_total : forall k s n, length s < k ->
  read_headers k n s = UB \/ exists n' s' e, read_headers k n s = Ok (n', s', e) /\
    (exists gap, s = gap ++ s') /\ (e = false -> length s' < length s).
Proof.
  induction k as [|k IH]; intros s n L; [lia|]. cbn [read_headers].
  destruct (fgets s) as [[line rest]|] eqn:F.
  - apply fgets_split in F. destruct F as [F1 F2].
    assert (G : forall m, read_headers k m rest = UB \/ exists n' s' e, read_headers k m rest = Ok (n', s', e) /\
      (exists gap, s = gap ++ s') /\ (e = false -> length s' < length s)).
    { intros m. destruct (IH rest m) as [U|(n' & s' & e & E & (gap & Gp) & Le)]; [lia|now left|right].
      exists n', s', e. split; [exact E|]. split; [exists (line ++ gap); now rewrite <- app_assoc, <- Gp|]. intros X. specialize (Le X). lia. }
    destruct (beq_bytes (cstr line) [13; 10]%N).
    + right. exists n, rest, false. split; [reflexivity|]. split; [now exists line|auto].
    + destruct (is_prefix (bs "Content-Length: ") line); [|apply G].
      unfold atoi. destruct (_ && _); cbn [bind]; [apply G|now left].
  - right. exists n, s, true. split; [reflexivity|]. split; [now exists []|discriminate].
Qed.
Lemma parts_gap gap s l : parts s l -> parts (gap ++ s) l.
Proof. intros P. inversion P; subst; [constructor|]. rewrite app_assoc. now constructor. Qed.
Lemma main_total : forall k s, length s < k -> lsp_main k s = UB \/ exists l, lsp_main k s = Ok l /\ parts s l.
Proof.
  induction k as [|k IH]; intros s L; [lia|]. cbn [lsp_main].
  destruct (read_headers_total (length s + 1) s 0) as [->|(n & s1 & e & -> & (gap & G) & Le)]; [lia|now left|].
  cbn [bind]. assert (Ls : length s1 <= length s) by (rewrite G, app_length; lia).
  destruct (Z.leb_spec n 0).
  - destruct e; [right; exists []; split; [reflexivity|constructor]|]. specialize (Le eq_refl).
    destruct (IH s1) as [U|(l & E & P)]; [lia|now left|]. right. exists l. split; [exact E|]. rewrite G. now apply parts_gap.
  - destruct (body_max <? n)%Z; [right; exists []; split; [reflexivity|constructor]|].
    destruct (Z.ltb_spec (Z.of_nat (length s1)) n); [right; exists []; split; [reflexivity|constructor]|].
    destruct (IH (skipn (Z.to_nat n) s1)) as [U|(l & E & P)]; [rewrite skipn_length; lia|rewrite U; now left|].
    rewrite E. cbn [bind]. right. eexists. split; [reflexivity|]. rewrite G, <- (firstn_skipn (Z.to_nat n) s1) at 1.
    rewrite firstn_skipn at 1.
    rewrite <- (firstn_skipn (Z.to_nat n) s1) at 1. constructor; [exact P|]. rewrite firstn_length. lia.
Qed.
