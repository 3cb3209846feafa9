From Verif Require Import Common Compl_Model Compl_Spec Compl_Proofs Help_Model Help_Spec.
Local Open Scope nat_scope.

Lemma before_ok src line col above left : at_position src line col above left -> before src line col = Some (above ++ left).
Proof.
  intros (right & -> & Ab & -> & ->). unfold before. cbv zeta. change (length (filter (N.eqb 10) above)) with (lines above). rewrite (to_line_ok above _ Ab).
  replace (length (above ++ left ++ right) - length (left ++ right) + length left) with (length (above ++ left)) by (rewrite !app_length; lia).
  destruct (Nat.ltb_spec (length (above ++ left ++ right)) (length (above ++ left))) as [H|_]; [rewrite !app_length in H; lia|].
  rewrite app_assoc, firstn_app, Nat.sub_diag, firstn_all. cbn [firstn]. now rewrite app_nil_r.
Qed.
Lemma scan_skip a r : ~ In 40%N a -> ~ In 41%N a -> scan (a ++ r) = scan r.
Proof.
  induction a as [|c a IH]; intros H1 H2; [reflexivity|]. cbn [app scan]. destruct (N.eqb_spec c 41) as [->|_]; [destruct H2; now left|]. destruct (N.eqb_spec c 40) as [->|_]; [destruct H1; now left|].
  apply IH; intros H; [apply H1|apply H2]; now right.
Qed.
Lemma ident_space c : ident c = true -> space c = false.
Proof. unfold ident, space. intros H. destruct (N.eqb_spec c 32) as [->|]; [discriminate|]. destruct (N.leb_spec c 13); [|now rewrite andb_false_r]. exfalso. repeat (apply orb_true_iff in H as [H|H] || apply andb_true_iff in H as [? H]); rewrite ?N.leb_le, ?N.eqb_eq in *; lia. Qed.
Lemma space_white c : space c = white c.
Proof.
  unfold space, white. cbn [existsb]. destruct (N.eqb_spec c 32); [reflexivity|]. cbn [orb]. destruct (N.leb_spec 9 c), (N.leb_spec c 13); cbn [andb];
    destruct (N.eqb_spec c 9), (N.eqb_spec c 10), (N.eqb_spec c 11), (N.eqb_spec c 12), (N.eqb_spec c 13); cbn [orb]; try reflexivity; exfalso; lia.
Qed.
Definition called (s name : bytes) : Prop :=
  exists pre gap args, s = pre ++ name ++ gap ++ bs "(" ++ args /\ name <> [] /\ Forall (fun c => ident c = true) name /\ Forall (fun c => space c = true) gap /\
    ~ In 40%N args /\ ~ In 41%N args /\ (pre = [] \/ exists q c, pre = q ++ [c] /\ ident c = false).
Lemma called_iff s name : called s name <-> in_call s name.
Proof.
  split; intros (pre & gap & args & E & Ne & Id & Sp & N1 & N2 & P); exists pre, gap, args; (split; [exact E|]); (split; [exact Ne|]).
  - split; [eapply Forall_impl; [|exact Id]; intros c H; now rewrite <- ident_letter|]. split; [eapply Forall_impl; [|exact Sp]; intros c H; now rewrite <- space_white|]. split; [exact N1|]. split; [exact N2|].
    destruct P as [->|(q & c & -> & H)]; [now left|]. right. exists q, c. now rewrite <- ident_letter.
  - split; [eapply Forall_impl; [|exact Id]; intros c H; now rewrite ident_letter|]. split; [eapply Forall_impl; [|exact Sp]; intros c H; now rewrite space_white|]. split; [exact N1|]. split; [exact N2|].
    destruct P as [->|(q & c & -> & H)]; [now left|]. right. exists q, c. now rewrite ident_letter.
Qed.
Lemma scan_ok s name : in_call s name -> scan (rev s) = name.
Proof.
  intros C. apply called_iff in C as (pre & gap & args & -> & Ne & Id & Sp & N1 & N2 & P). rewrite !rev_app_distr, <- !app_assoc.
  rewrite scan_skip by (rewrite <- in_rev; assumption). change (rev (bs "(")) with [40%N]. cbn [app scan]. change ((40 =? 41)%N) with false. change ((40 =? 40)%N) with true. cbv iota.
  rewrite drop_while_ok; [|now apply Forall_rev|].
  - rewrite take_while_ok; [apply rev_involutive|now apply Forall_rev|]. destruct P as [->|(q & c & -> & H)]; [now left|]. right. exists c, (rev q). now rewrite rev_app_distr.
  - right. destruct (rev name) as [|c r] eqn:E; [apply (f_equal (@rev N)) in E; rewrite rev_involutive in E; now subst|]. exists c, (r ++ rev pre). split; [reflexivity|]. apply ident_space. apply Forall_rev in Id. rewrite E in Id. now apply Forall_inv in Id.
Qed.
Lemma take_while_split f s : exists r, s = take_while f s ++ r /\ Forall (fun c => f c = true) (take_while f s) /\ (r = [] \/ exists c q, r = c :: q /\ f c = false).
Proof.
  induction s as [|c s (r & E & F & B)]; [exists []; cbn; auto|]. cbn [take_while]. destruct (f c) eqn:Fc.
  - exists r. cbn [app]. rewrite <- E. split; [reflexivity|]. split; [now constructor|exact B].
  - exists (c :: s). split; [reflexivity|]. split; [constructor|]. right. now exists c, s.
Qed.
Lemma drop_while_split f s : exists a, s = a ++ drop_while f s /\ Forall (fun c => f c = true) a.
Proof.
  induction s as [|c s (a & E & F)]; [now exists []|]. cbn [drop_while]. destruct (f c) eqn:Fc; [|now exists []]. exists (c :: a). cbn [app]. rewrite <- E. split; [reflexivity|now constructor].
Qed.
Lemma scan_only s name : scan s = name -> name <> [] -> in_call (rev s) name.
Proof.
  intros E Ne. apply called_iff. cut (exists args r gap q, s = args ++ [40%N] ++ gap ++ rev name ++ q /\ r = name /\ ~ In 40%N args /\ ~ In 41%N args /\ Forall (fun c => space c = true) gap /\ Forall (fun c => ident c = true) name /\ (q = [] \/ exists c t, q = c :: t /\ ident c = false)).
  { intros (args & _ & gap & q & -> & _ & A1 & A2 & G & Id & Q). exists (rev q), (rev gap), (rev args). rewrite !rev_app_distr, rev_involutive, <- !app_assoc. split; [reflexivity|]. split; [exact Ne|]. split; [exact Id|].
    split; [now apply Forall_rev|]. rewrite <- !in_rev. split; [exact A1|]. split; [exact A2|]. destruct Q as [->|(c & t & -> & H)]; [now left|]. right. now exists (rev t), c. }
  induction s as [|c s IH]; cbn [scan] in E; [now subst|]. destruct (N.eqb_spec c 41) as [->|N1]; [now subst|]. destruct (N.eqb_spec c 40) as [->|N2].
  - destruct (drop_while_split space s) as (gap & Es & G). destruct (take_while_split ident (drop_while space s)) as (q & Ed & F & B). exists [], name, gap, q.
    assert (R : rev name = take_while ident (drop_while space s)) by (rewrite <- E; apply rev_involutive). rewrite R. cbn [app]. rewrite <- Ed, <- Es. split; [reflexivity|]. split; [reflexivity|]. split; [intros []|]. split; [intros []|]. split; [exact G|].
    split; [|exact B]. rewrite <- E. now apply Forall_rev.
  - destruct (IH E) as (args & r & gap & q & -> & ? & A1 & A2 & ?). exists (c :: args), r, gap, q. split; [reflexivity|]. split; [assumption|]. split; [intros [->|H1]; [now apply N2|now apply A1]|]. split; [intros [->|H1]; [now apply N1|now apply A2]|]. assumption.
Qed.
Definition sum (l : list bytes) : nat := list_sum (map (fun t => length t + 2) l).
Lemma params_more l : forall acc s, commas l s -> l <> [] -> length acc + sum l < 1024 -> params_text false (map Some l) acc = Ok (acc ++ bs ", " ++ s).
Proof.
  induction l as [|t l IH]; intros acc s C Ne Le; [easy|]. cbn [map params_text text]. cbv zeta. unfold sum in *. cbn [map list_sum fold_right] in Le.
  change (fold_right Init.Nat.add 0 (map (fun t0 => length t0 + 2) l)) with (list_sum (map (fun t0 : bytes => length t0 + 2) l)) in Le.
  change (list_sum ((length t + 2) :: map (fun t0 : bytes => length t0 + 2) l)) with (length t + 2 + list_sum (map (fun t0 : bytes => length t0 + 2) l)) in Le.
  assert (L : length (acc ++ bs ", " ++ t) = length acc + (2 + length t)) by (rewrite !app_length; reflexivity).
  destruct (Nat.leb_spec 1024 (length (acc ++ bs ", " ++ t))); [lia|]. inversion C as [|t0|t0 u l0 s0 C0]; subst.
  - reflexivity.
  - rewrite (IH _ s0 C0); [|easy|unfold bytes in *; lia]. now rewrite <- !app_assoc.
Qed.
Lemma params_ok l s : commas l s -> sum l < 1024 -> params_text true (map Some l) [] = Ok s /\ length s <= sum l.
Proof.
  intros C Le. split.
  - destruct l as [|t l]; [now inversion C|]. cbn [map params_text text app]. cbv zeta. change (sum (t :: l)) with (length t + 2 + sum l) in Le.
    destruct (Nat.leb_spec 1024 (length t)); [lia|]. inversion C as [|t0|t0 u l0 s0 C0]; subst; [reflexivity|]. rewrite (params_more _ t s0 C0); [reflexivity|easy|unfold bytes in *; lia].
  - clear Le. induction C as [|t|t u l s C IH]; [auto|cbn; lia|]. change (sum (t :: u :: l)) with (length t + 2 + sum (u :: l)). rewrite !app_length. change (length (bs ", ")) with 2. lia.
Qed.
Lemma commas_ex l : exists s, commas l s.
Proof. induction l as [|t l [s IH]]; [now exists []; constructor|]. destruct l as [|u l]; [exists t; constructor|]. eexists. apply c_more. exact IH. Qed.
Lemma params_texts os args : Forall2 (type_text (bs "unknown")) os args -> forall b acc, params_text b os acc = params_text b (map Some args) acc.
Proof.
  induction 1 as [|o t os args H _ IH]; intros b acc; [reflexivity|]. cbn [map params_text]. cbv zeta. assert (E : text o = text (Some t)) by (destruct H as [->|[-> ->]]; reflexivity). rewrite E.
  destruct (1024 <=? _); [reflexivity|apply IH].
Qed.
Lemma label_ok f args ret s : known f args ret -> signature (s_name f) args ret s -> label_of f = Ok s.
Proof.
  intros (Ea & Er & Ln & Ls & Lr) (ps & C & ->). destruct (params_ok _ _ C Ls) as [E L]. unfold label_of. rewrite (params_texts _ _ Ea), E. cbn [bind]. cbv zeta.  fold (sum args) in Ls.
  destruct Er as [->|[-> ->]]; (match goal with |- context [2048 <=? ?n] => destruct (Nat.leb_spec 2048 n) as [H|_]; [|reflexivity] end); exfalso; rewrite !app_length in H; change (length (bs "fn ")) with 3 in H; change (length (bs "(")) with 1 in H; change (length (bs ") -> ")) with 5 in H; unfold bytes in *; lia.
Qed.

Lemma entries_ok src d : match d with D _ _ _ _ _ fs => at_name src d /\ Forall (fun f => match f with D w (Some _) _ _ _ fs => w = WField /\ at_name src f /\ fs = [] | _ => False end) fs end ->
  if listed d then exists e, symbol_of d = [e] /\ entry_for src d e else symbol_of d = [].
Proof.
  destruct d as [w n l c len fs]. intros [A F]. destruct n as [n|]; [|now destruct w]. cbn [at_name] in A. destruct A as (_ & _ & A).
  destruct w; cbn [listed]; [| | | | | |reflexivity]; try (eexists; split; [reflexivity|]; apply e_plain; [cbn; tauto|exact A]).
  destruct fs as [|f fs]; eexists; (split; [reflexivity|]); [now apply e_empty|apply e_struct; [exact A|]].
  clear A. induction F as [|f0 l0 H _ IH]; [constructor|]. destruct f0 as [w0 [n0|] l1 c1 len1 fs1]; [|destruct H]. destruct H as (-> & (_ & _ & A) & ->). cbn [flat_map symbol_of number app]. constructor; [|exact IH]. apply e_plain; [cbn; tauto|exact A].
Qed.
