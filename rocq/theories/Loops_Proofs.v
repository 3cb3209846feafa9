(** Proofs about loops and jumps. *)
From Verif Require Import Common Loops_Model Loops_Spec.
Local Open Scope nat_scope.

Scheme stmt_mut := Induction for stmt Sort Prop with stmts_mut := Induction for stmts Sort Prop.
Combined Scheme stmt_ind2 from stmt_mut, stmts_mut.

(** ** Parsing *)
Definition lab (o : option bytes) (k : asts) : asts := match o with None => k | Some l => ACons (ALabel l) k end.
Definition jmp (l : option bytes) (k : asts) : asts := match l with None => k | Some l => ACons (AName l) k end.
(** what the parser makes of a statement followed by [k] *)
Fixpoint made (p : stmt) (k : asts) : asts :=
  match p with
  | Call f a => ACons (ACall f a) k
  | Break l => ACons (ABreak None) (jmp l k)
  | Continue l => ACons (AContinue None) (jmp l k)
  | If c t => ACons (AIf c (made_all t ANil) ANil) k
  | IfElse c t e => ACons (AIf c (made_all t ANil) (made_all e ANil)) k
  | Unless c b | Guard c b => ACons (AUnless c (made_all b ANil)) k
  | While o c b => lab o (ACons (AWhile c (made_all b ANil)) k)
  | Loop o b => lab o (ACons (ALoop (made_all b ANil)) k)
  | Repeat o n b => lab o (ACons (ARepeat n (made_all b ANil)) k)
  end
with made_all (l : stmts) (k : asts) : asts := match l with Nil => k | Cons s l => made s (made_all l k) end.

Definition parses (n : nat) (ts : list tok) (k : asts) (rest : list tok) : Prop := forall f, n <= f -> block f ts = Ok (k, rest).
Definition not_else (ts : list tok) : Prop := match ts with [] => True | t :: _ => word_prefix t (bs "else") = false end.

Lemma name_word w : name w -> forall k, In k keywords -> word (Word w) k = false.
Proof.
  intros [N _] k I. cbn [word]. destruct (beq_bytes w k) eqn:E; [|reflexivity]. apply beq_bytes_true in E. subst. contradiction.
Qed.
Lemma name_not_else w : name w -> word_prefix (Word w) (bs "else") = false.
Proof.
  intros [_ N]. cbn [word_prefix]. destruct (is_prefix (bs "else") w) eqn:E; [|reflexivity].
  exfalso. apply N. apply is_prefix_spec in E. exact E.
Qed.
Lemma plain_statement w : name w -> forall f r, statement (S f) (Word w :: r) =
  match r with
  | Colon :: Colon :: _ => Panic
  | Colon :: r => Ok (ALabel w, r)
  | Args a :: r => Ok (ACall w a, eat_semi r)
  | r => Ok (AName w, eat_semi r)
  end.
Proof.
  intros N f r. cbn [statement].
  rewrite !(name_word w N) by (unfold keywords; cbn [In]; tauto).
  destruct r as [|[] r]; try reflexivity.
Qed.
Lemma block_word f w r : block (S f) (Word w :: r) = do '(s, r) <- statement f (Word w :: r); do '(l, r) <- block f r; Ok (ACons s l, r).
Proof. reflexivity. Qed.
Lemma label_parses o n w r k rest : name_opt o -> parses n (Word w :: r) k rest ->
  parses (n + 2 * length (written_label o)) (written_label o ++ Word w :: r) (lab o k) rest.
Proof.
  intros N P f L. destruct o as [l|]; cbn [written_label length app lab] in *; [|apply P; lia].
  destruct f as [|[|f]]; try lia. rewrite block_word, plain_statement by exact N. cbn [bind]. rewrite P by lia. reflexivity.
Qed.
Lemma written_head s r : named s -> not_else (written s ++ r).
Proof.
  assert (K : forall o w r, name_opt o -> word_prefix (Word w) (bs "else") = false -> not_else (written_label o ++ Word w :: r)).
  { intros [l|] w r0 N H; cbn [written_label app not_else]; [now apply name_not_else|exact H]. }
  destruct s as [g a|l|l|c t|c t e|c b|c b|o c b|o b|o n b]; cbn [named written]; intros N; rewrite <- ?app_assoc; cbn [app not_else];
    try reflexivity; try (destruct l; reflexivity); try (apply name_not_else, N); apply K; try apply N; reflexivity.
Qed.
Lemma written_all_head l r : named_all l -> not_else r -> not_else (written_all l ++ r).
Proof. destruct l; cbn [named_all written_all app]; auto. intros [N _] _. rewrite <- app_assoc. now apply written_head. Qed.

Lemma parse_written :
  (forall s, named s -> forall n r k rest, not_else r -> parses n r k rest -> parses (n + 2 * length (written s)) (written s ++ r) (made s k) rest) /\
  (forall l, named_all l -> forall n r k rest, not_else r -> parses n r k rest -> parses (n + 2 * length (written_all l)) (written_all l ++ r) (made_all l k) rest).
Proof.
  assert (Body : forall l, (forall n r k rest, not_else r -> parses n r k rest -> parses (n + 2 * length (written_all l)) (written_all l ++ r) (made_all l k) rest) ->
    forall r f, 1 + 2 * length (written_all l) <= f -> block f (written_all l ++ RBrace :: r) = Ok (made_all l ANil, r)).
  { intros l H r f L. apply (H 1 (RBrace :: r) ANil r); [reflexivity| |exact L]. intros [|g] Lg; [lia|reflexivity]. }
  apply stmt_ind2.
  - intros g a N n r k rest Ne P f L. cbn [written length app made] in *. destruct f as [|[|f]]; try lia.
    rewrite block_word, plain_statement by exact N. cbn [bind eat_semi]. rewrite P by lia. reflexivity.
  - intros o N n r k rest Ne P f L. cbn [written made]. cbn [written] in L. destruct o as [l|]; cbn [written_jump length app jmp] in *.
    + destruct f as [|[|[|f]]]; try lia. rewrite block_word.
      change (statement (S (S f)) (Word (bs "break") :: Word l :: Semi :: r)) with (Ok (ABreak None, Word l :: Semi :: r)). cbn [bind].
      rewrite block_word, plain_statement by exact N. cbn [bind eat_semi]. rewrite P by lia. reflexivity.
    + destruct f as [|[|f]]; try lia. rewrite block_word.
      change (statement (S f) (Word (bs "break") :: Semi :: r)) with (Ok (ABreak None, r)). cbn [bind]. rewrite P by lia. reflexivity.
  - intros o N n r k rest Ne P f L. cbn [written made]. cbn [written] in L. destruct o as [l|]; cbn [written_jump length app jmp] in *.
    + destruct f as [|[|[|f]]]; try lia. rewrite block_word.
      change (statement (S (S f)) (Word (bs "continue") :: Word l :: Semi :: r)) with (Ok (AContinue None, Word l :: Semi :: r)). cbn [bind].
      rewrite block_word, plain_statement by exact N. cbn [bind eat_semi]. rewrite P by lia. reflexivity.
    + destruct f as [|[|f]]; try lia. rewrite block_word.
      change (statement (S f) (Word (bs "continue") :: Semi :: r)) with (Ok (AContinue None, r)). cbn [bind]. rewrite P by lia. reflexivity.
  - intros c t IH N n r k rest Ne P f L. cbn [named] in N. specialize (IH N). pose proof (Body t IH) as B.
    cbn [written made] in *. rewrite !app_length in L. cbn [length] in L. rewrite <- !app_assoc. cbn [app].
    destruct f as [|[|[|f]]]; try lia. rewrite block_word.
    change (statement (S (S f)) (Word (bs "if") :: Cond c :: LBrace :: written_all t ++ RBrace :: r)) with
      (if_statement (S f) (Cond c :: LBrace :: written_all t ++ RBrace :: r)).
    cbn [if_statement]. rewrite B by lia. cbn [bind].
    destruct r as [|e r]; [|cbn [not_else] in Ne; rewrite Ne]; cbn [bind]; rewrite P by lia; reflexivity.
  - intros c t IHt e IHe N n r k rest Ne P f L. cbn [named] in N. destruct N as [Nt Nee]. specialize (IHt Nt). specialize (IHe Nee).
    pose proof (Body t IHt) as Bt. pose proof (Body e IHe) as Be.
    cbn [written made] in *. rewrite !app_length in L. cbn [length] in L. rewrite <- !app_assoc. cbn [app].
    destruct f as [|[|[|f]]]; try lia. rewrite block_word.
    change (statement (S (S f)) (Word (bs "if") :: Cond c :: LBrace :: written_all t ++ RBrace :: Word (bs "else") :: LBrace :: written_all e ++ RBrace :: r)) with
      (if_statement (S f) (Cond c :: LBrace :: written_all t ++ RBrace :: Word (bs "else") :: LBrace :: written_all e ++ RBrace :: r)).
    cbn [if_statement]. rewrite Bt by lia. cbn [bind].
    change (word_prefix (Word (bs "else")) (bs "else")) with true. cbn [word_prefix]. cbv iota. rewrite Be by lia. cbn [bind]. rewrite P by lia. reflexivity.
  - intros c b IH N n r k rest Ne P f L. cbn [named] in N. specialize (IH N). pose proof (Body b IH) as B.
    cbn [written made] in *. rewrite !app_length in L. cbn [length] in L. rewrite <- !app_assoc. cbn [app].
    destruct f as [|[|f]]; try lia. rewrite block_word.
    change (statement (S f) (Word (bs "unless") :: Cond c :: LBrace :: written_all b ++ RBrace :: r)) with
      (do '(x, r) <- block f (written_all b ++ RBrace :: r); Ok (AUnless c x, r)).
    rewrite B by lia. cbn [bind]. rewrite P by lia. reflexivity.
  - intros c b IH N n r k rest Ne P f L. cbn [named] in N. specialize (IH N). pose proof (Body b IH) as B.
    cbn [written made] in *. rewrite !app_length in L. cbn [length] in L. rewrite <- !app_assoc. cbn [app].
    destruct f as [|[|f]]; try lia. rewrite block_word.
    change (statement (S f) (Word (bs "guard") :: Cond c :: Word (bs "else") :: LBrace :: written_all b ++ RBrace :: r)) with
      (do '(x, r) <- block f (written_all b ++ RBrace :: r); Ok (AUnless c x, r)).
    rewrite B by lia. cbn [bind]. rewrite P by lia. reflexivity.
  - intros o c b IH N n r k rest Ne P. cbn [named] in N. destruct N as [No N]. specialize (IH N). pose proof (Body b IH) as B.
    cbn [written made] in *. rewrite !app_length. cbn [length]. rewrite <- !app_assoc. cbn [app].
    replace (n + _) with (n + 2 * (4 + length (written_all b)) + 2 * length (written_label o)) by lia.
    apply label_parses; auto. intros f L. destruct f as [|[|f]]; try lia. rewrite block_word.
    change (statement (S f) (Word (bs "while") :: Cond c :: LBrace :: written_all b ++ RBrace :: r)) with
      (do '(x, r) <- block f (written_all b ++ RBrace :: r); Ok (AWhile c x, r)).
    rewrite B by lia. cbn [bind]. rewrite P by lia. reflexivity.
  - intros o b IH N n r k rest Ne P. cbn [named] in N. destruct N as [No N]. specialize (IH N). pose proof (Body b IH) as B.
    cbn [written made] in *. rewrite !app_length. cbn [length]. rewrite <- !app_assoc. cbn [app].
    replace (n + _) with (n + 2 * (3 + length (written_all b)) + 2 * length (written_label o)) by lia.
    apply label_parses; auto. intros f L. destruct f as [|[|f]]; try lia. rewrite block_word.
    change (statement (S f) (Word (bs "loop") :: LBrace :: written_all b ++ RBrace :: r)) with
      (do '(x, r) <- block f (written_all b ++ RBrace :: r); Ok (ALoop x, r)).
    rewrite B by lia. cbn [bind]. rewrite P by lia. reflexivity.
  - intros o c b IH N n r k rest Ne P. cbn [named] in N. destruct N as [No N]. specialize (IH N). pose proof (Body b IH) as B.
    cbn [written made] in *. rewrite !app_length. cbn [length]. rewrite <- !app_assoc. cbn [app].
    replace (n + _) with (n + 2 * (4 + length (written_all b)) + 2 * length (written_label o)) by lia.
    apply label_parses; auto. intros f L. destruct f as [|[|f]]; try lia. rewrite block_word.
    change (statement (S f) (Word (bs "repeat") :: Cond c :: LBrace :: written_all b ++ RBrace :: r)) with
      (do '(x, r) <- block f (written_all b ++ RBrace :: r); Ok (ARepeat c x, r)).
    rewrite B by lia. cbn [bind]. rewrite P by lia. reflexivity.
  - intros _ n r k rest Ne P. cbn [written_all made_all app length]. rewrite Nat.add_0_r. exact P.
  - intros s IHs l IHl [Ns Nl] n r k rest Ne P. cbn [written_all made_all]. rewrite app_length, <- app_assoc.
    replace (n + _) with ((n + 2 * length (written_all l)) + 2 * length (written s)) by lia.
    apply IHs; auto. apply written_all_head; auto.
Qed.

Lemma block_program p : named_all p -> forall f, 2 * length (written_all p) + 1 <= f -> block f (written_all p ++ [RBrace]) = Ok (made_all p ANil, []).
Proof.
  intros N f L. apply (proj2 parse_written p N 1 [RBrace] ANil []); [reflexivity| |lia]. intros [|g] Lg; [lia|reflexivity].
Qed.

(** ** The checks of the C compiler *)
Lemma labels_lab o k : labels_all (lab o k) = opt_list o ++ labels_all k. Proof. destruct o; reflexivity. Qed.
Lemma names_lab o k : names_all (lab o k) = names_all k. Proof. destruct o; reflexivity. Qed.
Lemma gotos_lab o k : gotos_all (lab o k) = gotos_all k. Proof. destruct o; reflexivity. Qed.
Lemma loose_lab o k : loose_all (lab o k) = loose_all k. Proof. destruct o; reflexivity. Qed.
Lemma labels_jmp o k : labels_all (jmp o k) = labels_all k. Proof. destruct o; reflexivity. Qed.
Lemma names_jmp o k : names_all (jmp o k) = opt_list o ++ names_all k. Proof. destruct o; reflexivity. Qed.
Lemma gotos_jmp o k : gotos_all (jmp o k) = gotos_all k. Proof. destruct o; reflexivity. Qed.
Lemma made_checks :
  (forall s k, labels_all (made s k) = loop_labels s ++ labels_all k /\ names_all (made s k) = jump_targets s ++ names_all k /\ gotos_all (made s k) = gotos_all k) /\
  (forall l k, labels_all (made_all l k) = loop_labels_all l ++ labels_all k /\ names_all (made_all l k) = jump_targets_all l ++ names_all k /\ gotos_all (made_all l k) = gotos_all k).
Proof.
  apply stmt_ind2; cbn [made made_all loop_labels loop_labels_all jump_targets jump_targets_all].
  - intros g a k. auto.
  - intros o k. cbn [labels_all names_all gotos_all labels names gotos app]. now rewrite labels_jmp, names_jmp, gotos_jmp.
  - intros o k. cbn [labels_all names_all gotos_all labels names gotos app]. now rewrite labels_jmp, names_jmp, gotos_jmp.
  - intros c t IH k. cbn [labels_all names_all gotos_all labels names gotos app]. destruct (IH ANil) as (-> & -> & ->).
    cbn [labels_all names_all gotos_all]. now rewrite !app_nil_r.
  - intros c t IHt e IHe k. cbn [labels_all names_all gotos_all labels names gotos app]. destruct (IHt ANil) as (-> & -> & ->), (IHe ANil) as (-> & -> & ->).
    cbn [labels_all names_all gotos_all]. now rewrite !app_nil_r.
  - intros c t IH k. cbn [labels_all names_all gotos_all labels names gotos app]. destruct (IH ANil) as (-> & -> & ->).
    cbn [labels_all names_all gotos_all]. now rewrite !app_nil_r.
  - intros c t IH k. cbn [labels_all names_all gotos_all labels names gotos app]. destruct (IH ANil) as (-> & -> & ->).
    cbn [labels_all names_all gotos_all]. now rewrite !app_nil_r.
  - intros o c t IH k. rewrite labels_lab, names_lab, gotos_lab. cbn [labels_all names_all gotos_all labels names gotos app]. destruct (IH ANil) as (-> & -> & ->).
    cbn [labels_all names_all gotos_all]. now rewrite !app_nil_r, <- !app_assoc.
  - intros o t IH k. rewrite labels_lab, names_lab, gotos_lab. cbn [labels_all names_all gotos_all labels names gotos app]. destruct (IH ANil) as (-> & -> & ->).
    cbn [labels_all names_all gotos_all]. now rewrite !app_nil_r, <- !app_assoc.
  - intros o c t IH k. rewrite labels_lab, names_lab, gotos_lab. cbn [labels_all names_all gotos_all labels names gotos app]. destruct (IH ANil) as (-> & -> & ->).
    cbn [labels_all names_all gotos_all]. now rewrite !app_nil_r, <- !app_assoc.
  - auto.
  - intros s IHs l IHl k. destruct (IHs (made_all l k)) as (-> & -> & ->), (IHl k) as (-> & -> & ->). now rewrite <- !app_assoc.
Qed.
Lemma made_loose :
  (forall s k, inside s -> jump_targets s = [] -> loose_all (made s k) = loose_all k) /\
  (forall l k, inside_all l -> jump_targets_all l = [] -> loose_all (made_all l k) = loose_all k).
Proof.
  apply stmt_ind2; cbn [made made_all inside inside_all jump_targets jump_targets_all].
  - intros g a k. auto.
  - intros [l|] k I J; [discriminate|contradiction].
  - intros [l|] k I J; [discriminate|contradiction].
  - intros c t IH k I J. cbn [loose_all loose]. now rewrite IH.
  - intros c t IHt e IHe k [It Ie] J. apply app_eq_nil in J as [Jt Je]. cbn [loose_all loose]. now rewrite IHt, IHe.
  - intros c t IH k I J. cbn [loose_all loose]. now rewrite IH.
  - intros c t IH k I J. cbn [loose_all loose]. now rewrite IH.
  - intros o c t IH k I J. now rewrite loose_lab.
  - intros o t IH k I J. now rewrite loose_lab.
  - intros o c t IH k I J. now rewrite loose_lab.
  - auto.
  - intros s IHs l IHl k [Is Il] J. apply app_eq_nil in J as [Js Jl]. now rewrite IHs, IHl.
Qed.
Lemma loose_cons p k : loose_all (ACons p k) = loose p || loose_all k. Proof. reflexivity. Qed.
Lemma loose_keep : (forall s k, loose_all k = true -> loose_all (made s k) = true) /\ (forall l k, loose_all k = true -> loose_all (made_all l k) = true).
Proof.
  apply stmt_ind2; cbn [made made_all]; intros; rewrite ?loose_lab, ?loose_cons; try reflexivity; auto;
    match goal with H : loose_all ?k = true |- context[loose_all ?k] => rewrite H end; apply orb_true_r.
Qed.
Lemma loose_outside : (forall s k, inside s \/ loose_all (made s k) = true) /\ (forall l k, inside_all l \/ loose_all (made_all l k) = true).
Proof.
  apply stmt_ind2; cbn [made made_all inside inside_all].
  - auto.
  - intros [l|] k; [now left|now right].
  - intros [l|] k; [now left|now right].
  - intros c t IH k. destruct (IH ANil) as [I|E]; [now left|right]. rewrite loose_cons. cbn [loose]. now rewrite E.
  - intros c t IHt e IHe k. destruct (IHt ANil) as [It|E]; [|right; rewrite loose_cons; cbn [loose]; now rewrite E].
    destruct (IHe ANil) as [Ie|E]; [left; auto|right; rewrite loose_cons; cbn [loose]; now rewrite E, orb_true_r].
  - intros c t IH k. destruct (IH ANil) as [I|E]; [now left|right]. rewrite loose_cons. cbn [loose]. now rewrite E.
  - intros c t IH k. destruct (IH ANil) as [I|E]; [now left|right]. rewrite loose_cons. cbn [loose]. now rewrite E.
  - auto.
  - auto.
  - auto.
  - auto.
  - intros s IHs l IHl k. destruct (IHs (made_all l k)) as [Is|E]; [|now right]. destruct (IHl k) as [Il|E]; [now left|right].
    now apply loose_keep.
Qed.
Lemma mem_in x l : mem x l = true <-> In x l.
Proof.
  unfold mem. rewrite existsb_exists. split; [intros (y & I & E); apply beq_bytes_true in E; now subst|].
  intros I. exists x. split; auto. apply beq_bytes_refl.
Qed.
Lemma distinct_ok l : NoDup l -> distinct l = true.
Proof.
  induction 1 as [|x l N _ IH]; cbn [distinct]; [reflexivity|]. rewrite IH, andb_true_r. apply negb_true_iff.
  destruct (mem x l) eqn:E; [apply mem_in in E; contradiction|reflexivity].
Qed.

Lemma distinct_nodup l : distinct l = true -> NoDup l.
Proof.
  induction l as [|x l IH]; cbn [distinct]; [constructor|]. intros H. apply andb_true_iff in H as [M D]. constructor; auto.
  intros I. apply mem_in in I. rewrite I in M. discriminate.
Qed.

(** ** Running *)
Section Run.
Variable St : Type.
Variable test : nat -> St -> bool.
Variable count : nat -> St -> Z.
Variable act : bytes -> nat -> St -> St.
Notation exec_all := (exec_all St test count act).
Notation means := (means St test count act).
Notation means_all := (means_all St test count act).

Definition sig_of (w : way) : signal := match w with Goes => Next | Leaves _ => Brk | Restarts _ => Cnt end.
Definition plain (w : way) : Prop := match w with Goes => True | Leaves l | Restarts l => l = None end.
(** the C code does the same, and no label is named *)
Definition same (c : res (signal * St)) (z : res (way * St)) : Prop :=
  match z with
  | Ok (w, s) => c = Ok (sig_of w, s) /\ plain w
  | Panic => c = Panic | UB => c = UB | Fuel => c = Fuel
  end.
(** a loop goes on with what follows *)
Definition same_next (c : res (signal * St)) (z : res (way * St)) : Prop :=
  match z with
  | Ok (w, s) => c = Ok (Next, s) /\ w = Goes
  | Panic => c = Panic | UB => c = UB | Fuel => c = Fuel
  end.
Lemma rounds_looping o more body body' : (forall s, same (body s) (body' s)) ->
  forall fuel i s, same_next (rounds St fuel i (fun _ s => more s) body s) (looping St fuel o None more body' s).
Proof.
  intros H. induction fuel as [|fuel IH]; intros i s; cbn [rounds looping]; destruct (more s); try reflexivity; try (split; reflexivity).
  specialize (H s). destruct (body' s) as [[w s']| | |]; cbn [same] in H; try (rewrite H; reflexivity).
  destruct H as [-> P]. cbn [bind]. destruct w as [|l|l]; cbn [sig_of plain option_map] in *; [apply IH| |]; subst; cbn [mine]; [split; reflexivity|apply IH].
Qed.
Lemma rounds_times o n body body' N : (forall s, count n s = N) -> (forall s, same (body s) (body' s)) ->
  forall fuel i s, same_next (rounds St fuel i (fun i s => (i <? count n s)%Z) body s) (looping St fuel o (Some (Z.to_nat (N - i))) (fun _ => true) body' s).
Proof.
  intros C H. induction fuel as [|fuel IH]; intros i s; cbn [rounds looping]; rewrite C.
  - destruct (Z.ltb_spec i N); destruct (Z.to_nat (N - i)) eqn:E; try lia; try reflexivity. split; reflexivity.
  - destruct (Z.ltb_spec i N); destruct (Z.to_nat (N - i)) as [|m] eqn:E; try lia; [|split; reflexivity].
    specialize (H s). destruct (body' s) as [[w s']| | |]; cbn [same] in H; try (rewrite H; reflexivity).
    destruct H as [-> P]. cbn [bind option_map Nat.pred]. specialize (IH (i + 1)%Z s'). replace (Z.to_nat (N - (i + 1))) with m in IH by lia.
    destruct w as [|l|l]; cbn [sig_of plain] in *; [apply IH| |]; subst; cbn [mine]; [split; reflexivity|apply IH].
Qed.
Definition then_do (z : res (way * St)) (next : St -> res (signal * St)) : res (signal * St) :=
  do '(w, s) <- z; match w with Goes => next s | _ => Ok (sig_of w, s) end.
Definition all_plain (z : res (way * St)) : Prop := match z with Ok (w, _) => plain w | _ => True end.
Lemma same_then z : all_plain z -> same (then_do z (fun s => Ok (Next, s))) z.
Proof. destruct z as [[w s]| | |]; cbn [all_plain then_do bind same]; auto. intros P. destruct w; auto. Qed.
Lemma exec_lab fuel o k s : exec_all fuel (lab o k) s = exec_all fuel k s.
Proof. destruct o; reflexivity. Qed.
Lemma loop_then fuel c z k : same_next c z ->
  (do '(g, s) <- c; match g with Next => exec_all fuel k s | _ => Ok (g, s) end) = then_do z (exec_all fuel k) /\ all_plain z.
Proof. destruct z as [[w s]| | |]; cbn [same_next then_do all_plain]; [|intros ->; auto..]. intros [-> ->]. split; [reflexivity|exact Logic.I]. Qed.
Lemma cond_then fuel z k : all_plain z ->
  (do '(g, s) <- then_do z (fun s => Ok (Next, s)); match g with Next => exec_all fuel k s | _ => Ok (g, s) end) = then_do z (exec_all fuel k).
Proof. destruct z as [[[] s]| | |]; reflexivity. Qed.
Lemma means_cons fuel p l s : means_all fuel (Cons p l) s =
  do '(w, s) <- means fuel p s; match w with Goes => means_all fuel l s | _ => Ok (w, s) end.
Proof. reflexivity. Qed.
Lemma run_made :
  (forall p, jump_targets p = [] -> steady St count p -> forall fuel k s,
     exec_all fuel (made p k) s = then_do (means fuel p s) (exec_all fuel k) /\ all_plain (means fuel p s)) /\
  (forall l, jump_targets_all l = [] -> steady_all St count l -> forall fuel k s,
     exec_all fuel (made_all l k) s = then_do (means_all fuel l s) (exec_all fuel k) /\ all_plain (means_all fuel l s)).
Proof.
  assert (Body : forall b, (forall fuel k s, exec_all fuel (made_all b k) s = then_do (means_all fuel b s) (exec_all fuel k) /\ all_plain (means_all fuel b s)) ->
    forall fuel s, same (exec_all fuel (made_all b ANil) s) (means_all fuel b s)).
  { intros b H fuel s. destruct (H fuel ANil s) as [-> P]. now apply same_then. }
  apply stmt_ind2; cbn [made made_all jump_targets jump_targets_all steady steady_all].
  - intros g a _ _ fuel k s. split; [reflexivity|exact Logic.I].
  - intros [l|] J _ fuel k s; [discriminate|]. split; reflexivity.
  - intros [l|] J _ fuel k s; [discriminate|]. split; reflexivity.
  - intros c t IH J S fuel k s. specialize (IH J S).
    change (exec_all fuel (ACons (AIf c (made_all t ANil) ANil) k) s) with
      (do '(g, s) <- (if test c s then exec_all fuel (made_all t ANil) s else Ok (Next, s)); match g with Next => exec_all fuel k s | _ => Ok (g, s) end).
    cbn [Loops_Spec.means]. destruct (test c s); [|split; [reflexivity|exact Logic.I]].
    destruct (IH fuel ANil s) as [-> P]. split; [|exact P]. now apply cond_then.
  - intros c t IHt e IHe J [St' Se] fuel k s. apply app_eq_nil in J as [Jt Je]. specialize (IHt Jt St'). specialize (IHe Je Se).
    change (exec_all fuel (ACons (AIf c (made_all t ANil) (made_all e ANil)) k) s) with
      (do '(g, s) <- (if test c s then exec_all fuel (made_all t ANil) s else exec_all fuel (made_all e ANil) s); match g with Next => exec_all fuel k s | _ => Ok (g, s) end).
    cbn [Loops_Spec.means]. destruct (test c s).
    + destruct (IHt fuel ANil s) as [-> P]. split; [|exact P]. now apply cond_then.
    + destruct (IHe fuel ANil s) as [-> P]. split; [|exact P]. now apply cond_then.
  - intros c b IH J S fuel k s. specialize (IH J S).
    change (exec_all fuel (ACons (AUnless c (made_all b ANil)) k) s) with
      (do '(g, s) <- (if negb (test c s) then exec_all fuel (made_all b ANil) s else Ok (Next, s)); match g with Next => exec_all fuel k s | _ => Ok (g, s) end).
    cbn [Loops_Spec.means]. destruct (test c s); cbn [negb]; [split; [reflexivity|exact Logic.I]|].
    destruct (IH fuel ANil s) as [-> P]. split; [|exact P]. now apply cond_then.
  - intros c b IH J S fuel k s. specialize (IH J S).
    change (exec_all fuel (ACons (AUnless c (made_all b ANil)) k) s) with
      (do '(g, s) <- (if negb (test c s) then exec_all fuel (made_all b ANil) s else Ok (Next, s)); match g with Next => exec_all fuel k s | _ => Ok (g, s) end).
    cbn [Loops_Spec.means]. destruct (test c s); cbn [negb]; [split; [reflexivity|exact Logic.I]|].
    destruct (IH fuel ANil s) as [-> P]. split; [|exact P]. now apply cond_then.
  - intros o c b IH J S fuel k s. specialize (IH J S). rewrite exec_lab.
    change (exec_all fuel (ACons (AWhile c (made_all b ANil)) k) s) with
      (do '(g, s) <- rounds St fuel 0 (fun _ s => test c s) (exec_all fuel (made_all b ANil)) s; match g with Next => exec_all fuel k s | _ => Ok (g, s) end).
    cbn [Loops_Spec.means]. apply loop_then, rounds_looping. intros s'. now apply Body.
  - intros o b IH J S fuel k s. specialize (IH J S). rewrite exec_lab.
    change (exec_all fuel (ACons (ALoop (made_all b ANil)) k) s) with
      (do '(g, s) <- rounds St fuel 0 (fun _ _ => true) (exec_all fuel (made_all b ANil)) s; match g with Next => exec_all fuel k s | _ => Ok (g, s) end).
    cbn [Loops_Spec.means]. apply loop_then, (rounds_looping o (fun _ => true)). intros s'. now apply Body.
  - intros o n b IH J [C S] fuel k s. specialize (IH J S). rewrite exec_lab.
    change (exec_all fuel (ACons (ARepeat n (made_all b ANil)) k) s) with
      (do '(g, s) <- rounds St fuel 0 (fun i s => (i <? count n s)%Z) (exec_all fuel (made_all b ANil)) s; match g with Next => exec_all fuel k s | _ => Ok (g, s) end).
    cbn [Loops_Spec.means]. apply loop_then. rewrite <- (Z.sub_0_r (count n s)). apply (rounds_times o n _ _ (count n s)); [intros; apply C|].
    intros s'. now apply Body.
  - intros _ _ fuel k s. split; [reflexivity|exact Logic.I].
  - intros p IHp l IHl J [Sp Sl] fuel k s. apply app_eq_nil in J as [Jp Jl]. specialize (IHp Jp Sp). specialize (IHl Jl Sl).
    destruct (IHp fuel (made_all l k) s) as [-> P]. rewrite means_cons.
    destruct (means fuel p s) as [[w s']| | |]; cbn [then_do bind all_plain] in *; auto.
    destruct w as [|o|o]; [apply IHl| |]; split; auto.
Qed.
(** statements that keep their jumps inside go on *)
Lemma goes_next :
  (forall p, jump_targets p = [] -> inside p -> steady St count p -> forall fuel s, match means fuel p s with Ok (w, _) => w = Goes | _ => True end) /\
  (forall l, jump_targets_all l = [] -> inside_all l -> steady_all St count l -> forall fuel s, match means_all fuel l s with Ok (w, _) => w = Goes | _ => True end).
Proof.
  assert (L : forall c z, same_next c z -> match z with Ok (w, _) => w = Goes | _ => True end).
  { intros c [[w s]| | |]; cbn [same_next]; auto. now intros [_ H]. }
  assert (Body : forall b, jump_targets_all b = [] -> steady_all St count b -> forall fuel s, same (exec_all fuel (made_all b ANil) s) (means_all fuel b s)).
  { intros b J S fuel s. destruct (proj2 run_made b J S fuel ANil s) as [-> P]. now apply same_then. }
  apply stmt_ind2; cbn [inside inside_all jump_targets jump_targets_all steady steady_all].
  - reflexivity.
  - intros [l|] J I; [discriminate|contradiction].
  - intros [l|] J I; [discriminate|contradiction].
  - intros c t IH J I S fuel s. cbn [Loops_Spec.means]. destruct (test c s); [now apply IH|reflexivity].
  - intros c t IHt e IHe J [It Ie] [St' Se] fuel s. apply app_eq_nil in J as [Jt Je]. cbn [Loops_Spec.means]. destruct (test c s); [now apply IHt|now apply IHe].
  - intros c t IH J I S fuel s. cbn [Loops_Spec.means]. destruct (test c s); [reflexivity|now apply IH].
  - intros c t IH J I S fuel s. cbn [Loops_Spec.means]. destruct (test c s); [reflexivity|now apply IH].
  - intros o c b IH J I S fuel s.
    change (means fuel (While o c b) s) with (looping St fuel o None (test c) (means_all fuel b) s). eapply L, (rounds_looping o (test c)) with (i := 0%Z). intros s'. now apply Body.
  - intros o b IH J I S fuel s.
    change (means fuel (Loop o b) s) with (looping St fuel o None (fun _ => true) (means_all fuel b) s). eapply L, (rounds_looping o (fun _ => true)) with (i := 0%Z). intros s'. now apply Body.
  - intros o n b IH J I [C S] fuel s.
    change (means fuel (Repeat o n b) s) with (looping St fuel o (Some (Z.to_nat (count n s))) (fun _ => true) (means_all fuel b) s). eapply L. rewrite <- (Z.sub_0_r (count n s)). apply (rounds_times o n (exec_all fuel (made_all b ANil)) _ (count n s)); [intros; apply C|].
    intros s'. now apply Body.
  - reflexivity.
  - intros p IHp l IHl J [Ip Il] [Sp Sl] fuel s. apply app_eq_nil in J as [Jp Jl]. specialize (IHp Jp Ip Sp fuel s). rewrite means_cons.
    destruct (means fuel p s) as [[w s']| | |]; cbn [bind]; auto. subst. now apply IHl.
Qed.
End Run.
